(** * Cutting a transaction in two

    A commit works through the calls of a transaction in phases.  [cuts t ta tb]: [ta] holds
    the calls of [t] up to some point of this order and [tb] the others.  Used by PropsCut.v
    (C76). *)
From stdpp Require Export gmap.
From Verif Require Export Known.

Inductive cuts {D} : txn D -> txn D -> txn D -> Prop :=
| cut_redir r n m u a d : cuts (Txn r n m u a d) (Txn r ∅ [] [] [] []) (Txn [] n m u a d)
| cut_mut r n m1 m2 u a d : cuts (Txn r n (m1 ++ m2) u a d) (Txn r n m1 [] [] []) (Txn [] ∅ m2 u a d)
| cut_upd r n m u1 u2 a d : cuts (Txn r n m (u1 ++ u2) a d) (Txn r n m u1 [] []) (Txn [] ∅ [] u2 a d)
| cut_del r n m u a d1 d2 : cuts (Txn r n m u a (d1 ++ d2)) (Txn r n m u a d1) (Txn [] ∅ [] [] [] d2).

Section cut.
  Context {D : Type}.
  Implicit Types (m : gmap N (node D)) (B : idx -> Prop) (t : txn D).

  Lemma sp_redirect_nil m m' : sp_redirect [] m m' <-> m' = m.
  Proof.
    split.
    - intros (res&Hres&->). apply resolved_nil in Hres as ->. apply map_fmap_id.
    - intros ->. exists []. split; [|by rewrite map_fmap_id]. exists ∅. split; constructor.
  Qed.
  Lemma sp_mutates_app fs1 fs2 m : sp_mutates (fs1 ++ fs2) m = match sp_mutates fs1 m with Some m1 => sp_mutates fs2 m1 | None => None end.
  Proof.
    revert m. induction fs1 as [|[i f] fs IH]; intros m; cbn; [done|]. destruct (m !! i); [|done]. destruct (f _); [|done]. apply IH.
  Qed.
  Lemma sp_updates_app fs1 fs2 m : sp_updates (fs1 ++ fs2) m = match sp_updates fs1 m with Some m1 => sp_updates fs2 m1 | None => None end.
  Proof.
    revert m. induction fs1 as [|[i f] fs IH]; intros m; cbn; [done|]. destruct (m !! i); [|done]. destruct (f _); [|done]. apply IH.
  Qed.
  Lemma sp_removes_app xs1 xs2 m : sp_removes (xs1 ++ xs2) m = match sp_removes xs1 m with Some m1 => sp_removes xs2 m1 | None => None end.
  Proof. revert m. induction xs1 as [|x xs IH]; intros m; cbn; [done|]. destruct (m !! x); [|done]. apply IH. Qed.

  Lemma cut_commit t ta tb m m' : cuts t ta tb ->
    sp_commit t m m' <-> exists m1, sp_commit ta m m1 /\ sp_commit tb m1 m'.
  Proof.
    intros Hc. unfold sp_commit. destruct Hc as [r n q u a d|r n q1 q2 u a d|r n q u1 u2 a d|r n q u a d1 d2]; cbn; setoid_rewrite sp_redirect_nil.
    - split.
      + intros (m1&m2&m3&m4&H1&H2&H3&H4&H5). exists m1. split; [|by exists m1, m2, m3, m4].
        exists m1, m1, m1, m1. by rewrite map_empty_union.
      + intros (m0&(m1&m2&m3&m4&H1&[= <-]&[= <-]&->&[= <-])&(k1&k2&k3&k4&->&H6&H7&H8&H9)).
        rewrite map_empty_union in H6. by exists m1, k2, k3, k4.
    - setoid_rewrite sp_mutates_app. split.
      + intros (k1&k2&k3&k4&H1&H2&H3&H4&H5). destruct (sp_mutates q1 (n ∪ k1)) as [k|] eqn:Hk; [|done].
        exists k. split; [by exists k1, k, k, k|]. exists k, k2, k3, k4. by rewrite map_empty_union.
      + intros (m0&(k1&k2&k3&k4&H1&H2&[= <-]&->&[= <-])&(j1&j2&j3&j4&->&H6&H7&H8&H9)). rewrite map_empty_union in H6.
        exists k1, j2, j3, j4. by rewrite H2.
    - setoid_rewrite sp_updates_app. split.
      + intros (k1&k2&k3&k4&H1&H2&H3&H4&H5). destruct (sp_updates u1 k2) as [k|] eqn:Hk; [|done].
        exists k. split; [by exists k1, k2, k, k|]. exists k, k, k3, k4. by rewrite map_empty_union.
      + intros (m0&(k1&k2&k3&k4&H1&H2&H3&->&[= <-])&(j1&j2&j3&j4&->&[= <-]&H7&H8&H9)). rewrite map_empty_union in H7.
        exists k1, k2, j3, j4. by rewrite H3.
    - setoid_rewrite sp_removes_app. split.
      + intros (k1&k2&k3&k4&H1&H2&H3&H4&H5). destruct (sp_removes d1 k4) as [k|] eqn:Hk; [|done].
        exists k. split; [by exists k1, k2, k3, k4|]. exists k, k, k, k. by rewrite map_empty_union.
      + intros (m0&(k1&k2&k3&k4&H1&H2&H3&H4&H5)&(j1&j2&j3&j4&->&[= <-]&[= <-]&->&H9)). rewrite map_empty_union in H9.
        exists k1, k2, k3, k4. by rewrite H5.
  Qed.

  Lemma l_redir_nil B y : l_redir [] B y <-> B y.
  Proof. unfold l_redir. split; [|by left]. intros [?|(res&Hres%resolved_nil&Hy)]; [done|]. subst. by apply elem_of_nil in Hy. Qed.
  Lemma l_new_empty B y : l_new (∅ : gmap N (node D)) B y <-> B y.
  Proof. unfold l_new. setoid_rewrite lookup_empty. split; [|by left]. intros [?|[[? ?]|(?&?&?&?)]]; done. Qed.
  Lemma l_redir_ext reps (B B' : idx -> Prop) y : (forall y, B y <-> B' y) -> l_redir reps B y <-> l_redir reps B' y.
  Proof. intros H. unfold l_redir. by rewrite H. Qed.
  Lemma l_new_ext (m : gmap N (node D)) (B B' : idx -> Prop) y : (forall y, B y <-> B' y) -> l_new m B y <-> l_new m B' y.
  Proof. intros H. unfold l_new. by rewrite H. Qed.

  Lemma cut_l_commit t ta tb B y : cuts t ta tb -> l_commit t B y <-> l_commit tb (l_commit ta B) y.
  Proof.
    intros Hc. unfold l_commit, l_queue. destruct Hc as [r n q u a d|r n q1 q2 u a d|r n q u1 u2 a d|r n q u a d1 d2]; cbn.
    - apply and_iff_compat_r, l_redir_ext. intros z. apply l_new_ext. intros w.
      rewrite !l_redir_nil, l_new_empty. split; [|tauto]. intros ?. split; [done|apply not_elem_of_nil].
    - apply and_iff_compat_r, l_redir_ext. intros z. rewrite l_new_empty, !l_redir_nil.
      split; [|tauto]. intros ?. split; [done|apply not_elem_of_nil].
    - apply and_iff_compat_r, l_redir_ext. intros z. rewrite l_new_empty, !l_redir_nil.
      split; [|tauto]. intros ?. split; [done|apply not_elem_of_nil].
    - rewrite l_redir_nil, l_new_empty, l_redir_nil, not_elem_of_app. tauto.
  Qed.

  Lemma mutates_listed_app fs1 fs2 B m :
    mutates_listed (fs1 ++ fs2) B m <-> mutates_listed fs1 B m /\ forall m1, sp_mutates fs1 m = Some m1 -> mutates_listed fs2 B m1.
  Proof.
    revert m. induction fs1 as [|[i f] fs IH]; intros m; cbn.
    - split; [|intros [_ H]; by apply H]. intros H. split; [done|]. by intros m1 [= <-].
    - split.
      + intros (n&n'&Hi&Hf&Hr&H). apply IH in H as [H1 H2]. split; [by exists n, n'|]. by rewrite Hi, Hf.
      + intros [(n&n'&Hi&Hf&Hr&H) H2]. rewrite Hi, Hf in H2. exists n, n'. split; [done|]. split; [done|]. split; [done|]. by apply IH.
  Qed.
  Lemma updates_listed_app fs1 fs2 B m :
    updates_listed (fs1 ++ fs2) B m <-> updates_listed fs1 B m /\ forall m1, sp_updates fs1 m = Some m1 -> updates_listed fs2 B m1.
  Proof.
    revert m. induction fs1 as [|[i f] fs IH]; intros m; cbn.
    - split; [|intros [_ H]; by apply H]. intros H. split; [done|]. by intros m1 [= <-].
    - split.
      + intros (n&n'&Hi&Hf&Hr&H). apply IH in H as [H1 H2]. split; [by exists n, n'|]. by rewrite Hi, Hf.
      + intros [(n&n'&Hi&Hf&Hr&H) H2]. rewrite Hi, Hf in H2. exists n, n'. split; [done|]. split; [done|]. split; [done|]. by apply IH.
  Qed.
  Lemma redir_listed_nil B : redir_listed [] B.
  Proof. split; [exists ∅; constructor|]. intros o Ho. by apply elem_of_nil in Ho. Qed.

  (** nothing panics in [t] exactly if nothing panics in [ta] and then in [tb] *)
  Lemma cut_listed t ta tb m B : cuts t ta tb ->
    commit_listed t m B <-> commit_listed ta m B /\ forall m1, sp_commit ta m m1 -> commit_listed tb m1 (l_commit ta B).
  Proof.
    intros Hc. pose proof (fun y => cut_l_commit t ta tb B y Hc) as _.
    unfold commit_listed, sp_commit, l_commit, l_queue.
    destruct Hc as [r n q u a d|r n q1 q2 u a d|r n q u1 u2 a d|r n q u a d1 d2]; cbn; setoid_rewrite sp_redirect_nil.
    - (* after redirect_links *)
      set (B1 := l_redir r B).
      assert (forall y, l_redir [] (l_new (∅ : gmap N (node D)) B1) y /\ y ∉ [] <-> B1 y) as HB1.
      { intros y. rewrite l_redir_nil, l_new_empty. split; [tauto|]. intros ?. split; [done|apply not_elem_of_nil]. }
      set (B2 := fun y => l_redir [] (l_new (∅ : gmap N (node D)) B1) y /\ y ∉ []) in *.
      assert (forall y, l_new n (l_redir [] B2) y <-> l_new n B1 y) as HB2.
      { intros y. apply l_new_ext. intros z. rewrite l_redir_nil. exact (HB1 z). }
      split.
      + intros [H1 H2]. split.
        * split; [done|]. intros m1 Hm1. split; [done|]. intros m2 _. split; [done|]. split; [apply redir_listed_nil|]. eauto.
        * intros m0 (m1&m2&m3&m4&Hm1&[= <-]&[= <-]&->&[= <-]). split; [apply redir_listed_nil|]. intros ? ->. rewrite ?map_empty_union.
          destruct (H2 m1 Hm1) as [H3 H4]. split; [eapply mutates_listed_ext; [|exact H3]; intros y; apply HB2|].
          intros m2 Hm2. destruct (H4 m2 Hm2) as (H5&H6&H7).
          split; [eapply updates_listed_ext; [|exact H5]; intros y; apply HB2|]. split; [|done].
          eapply redir_listed_ext; [|exact H6]; intros y; apply HB2.
      + intros [[H1 _] H2]. split; [done|]. intros m1 Hm1.
        destruct (H2 m1) as [_ H3]; [exists m1, m1, m1, m1; by rewrite map_empty_union|]. destruct (H3 m1 eq_refl) as [H4 H5].
        split; [eapply mutates_listed_ext; [|exact H4]; intros y; apply HB2|].
        intros m2 Hm2. destruct (H5 m2 Hm2) as (H6&H7&H8).
        split; [eapply updates_listed_ext; [|exact H6]; intros y; apply HB2|]. split; [|done].
        eapply redir_listed_ext; [|exact H7]; intros y; apply HB2.
    - (* among the mutates *)
      set (B1 := l_new n (l_redir r B)).
      set (B2 := fun y => l_redir [] B1 y /\ y ∉ []).
      assert (forall y, l_new (∅ : gmap N (node D)) (l_redir [] B2) y <-> B1 y) as HB2.
      { intros y. rewrite l_new_empty, l_redir_nil. unfold B2. rewrite l_redir_nil. split; [tauto|]. intros ?. split; [done|apply not_elem_of_nil]. }
      setoid_rewrite mutates_listed_app. setoid_rewrite sp_mutates_app. split.
      + intros [H1 H2]. split.
        * split; [done|]. intros k1 Hk1. destruct (H2 k1 Hk1) as [[H3 H4] H5]. split; [done|]. intros k2 _. split; [done|].
          split; [apply redir_listed_nil|]. eauto.
        * intros m0 (k1&k2&k3&k4&Hk1&Hk2&[= <-]&->&[= <-]). split; [apply redir_listed_nil|]. intros ? ->. rewrite ?map_empty_union.
          destruct (H2 k1 Hk1) as [[H3 H4] H5]. split; [eapply mutates_listed_ext; [|by apply H4]; intros y; apply HB2|].
          intros j2 Hj2. rewrite Hk2 in H5. destruct (H5 j2 Hj2) as (H6&H7&H8).
          split; [eapply updates_listed_ext; [|exact H6]; intros y; apply HB2|]. split; [|done].
          eapply redir_listed_ext; [|exact H7]; intros y; apply HB2.
      + intros [[H1 H2] H3]. split; [done|]. intros k1 Hk1. destruct (H2 k1 Hk1) as [H4 H5].
        assert (forall k2, sp_mutates q1 (n ∪ k1) = Some k2 -> mutates_listed q2 B1 k2 /\
          forall m3, sp_mutates q2 k2 = Some m3 -> updates_listed u B1 m3 /\ redir_listed a B1 /\
            forall m4 m5, sp_updates u m3 = Some m4 -> sp_redirect a m4 m5 -> is_Some (sp_removes d m5)) as Hrest.
        { intros k2 Hk2. destruct (H3 k2) as [_ H6]; [by exists k1, k2, k2, k2|]. destruct (H6 k2 eq_refl) as [H7 H8].
          rewrite map_empty_union in H7, H8.
          split; [eapply mutates_listed_ext; [|exact H7]; intros y; apply HB2|]. intros m3 Hm3. destruct (H8 m3 Hm3) as (H9&H10&H11).
          split; [eapply updates_listed_ext; [|exact H9]; intros y; apply HB2|]. split; [|done].
          eapply redir_listed_ext; [|exact H10]; intros y; apply HB2. }
        split; [split; [done|]; intros k2 Hk2; by apply Hrest|].
        intros m3. destruct (sp_mutates q1 (n ∪ k1)) as [k2|] eqn:Hk2; [|done]. intros Hm3. by apply (Hrest k2 eq_refl).
    - (* among the updates *)
      set (B1 := l_new n (l_redir r B)).
      set (B2 := fun y => l_redir [] B1 y /\ y ∉ []).
      assert (forall y, l_new (∅ : gmap N (node D)) (l_redir [] B2) y <-> B1 y) as HB2.
      { intros y. rewrite l_new_empty, l_redir_nil. unfold B2. rewrite l_redir_nil. split; [tauto|]. intros ?. split; [done|apply not_elem_of_nil]. }
      setoid_rewrite updates_listed_app. setoid_rewrite sp_updates_app. split.
      + intros [H1 H2]. split.
        * split; [done|]. intros k1 Hk1. destruct (H2 k1 Hk1) as [H3 H4]. split; [done|]. intros k2 Hk2.
          destruct (H4 k2 Hk2) as ([H5 _]&_&_). split; [done|]. split; [apply redir_listed_nil|]. eauto.
        * intros m0 (k1&k2&k3&k4&Hk1&Hk2&Hk3&->&[= <-]). split; [apply redir_listed_nil|]. intros ? ->. rewrite ?map_empty_union.
          destruct (H2 k1 Hk1) as [_ H4]. destruct (H4 k2 Hk2) as ([H5 H5']&H6&H7). split; [done|]. intros ? [= <-].
          split; [eapply updates_listed_ext; [|by apply H5']; intros y; apply HB2|].
          split; [eapply redir_listed_ext; [|exact H6]; intros y; apply HB2|].
          intros j3 j4 Hj3 Hj4. apply (H7 j3 j4); [by rewrite Hk3|done].
      + intros [[H1 H2] H3]. split; [done|]. intros k1 Hk1. destruct (H2 k1 Hk1) as [H4 H5]. split; [done|]. intros k2 Hk2.
        destruct (H5 k2 Hk2) as (H6&_&_).
        assert (forall k3, sp_updates u1 k2 = Some k3 -> updates_listed u2 B1 k3 /\ redir_listed a B1 /\
            forall m4 m5, sp_updates u2 k3 = Some m4 -> sp_redirect a m4 m5 -> is_Some (sp_removes d m5)) as Hrest.
        { intros k3 Hk3. destruct (H3 k3) as [_ H7]; [by exists k1, k2, k3, k3|]. destruct (H7 k3 eq_refl) as [_ H8].
          destruct (H8 _ eq_refl) as (H9&H10&H11). rewrite map_empty_union in H9, H11.
          split; [eapply updates_listed_ext; [|exact H9]; intros y; apply HB2|]. split; [|done].
          eapply redir_listed_ext; [|exact H10]; intros y; apply HB2. }
        destruct (updates_listed_some _ _ _ H6) as [k3 Hk3].
        split; [split; [done|]; intros k3' Hk3'; by apply Hrest|]. split; [by apply (Hrest k3)|].
        intros m3 m4. rewrite Hk3. by apply (Hrest k3).
    - (* among the removals *)
      setoid_rewrite sp_removes_app. split.
      + intros [H1 H2]. split.
        * split; [done|]. intros k1 Hk1. destruct (H2 k1 Hk1) as [H3 H4]. split; [done|]. intros k2 Hk2.
          destruct (H4 k2 Hk2) as (H5&H6&H7). split; [done|]. split; [done|]. intros k3 k4 Hk3 Hk4. specialize (H7 k3 k4 Hk3 Hk4).
          destruct (sp_removes d1 k4); [by eexists|done].
        * intros m0 (k1&k2&k3&k4&Hk1&Hk2&Hk3&Hk4&Hk5). split; [apply redir_listed_nil|]. intros ? ->. rewrite ?map_empty_union.
          split; [done|]. intros ? [= <-]. split; [done|]. split; [apply redir_listed_nil|]. intros ? ? [= <-] ->.
          destruct (H2 k1 Hk1) as [H3 H4]. destruct (H4 k2 Hk2) as (H5&H6&H7). specialize (H7 k3 k4 Hk3 Hk4). by rewrite Hk5 in H7.
      + intros [[H1 H2] H3]. split; [done|]. intros k1 Hk1. destruct (H2 k1 Hk1) as [H4 H5]. split; [done|]. intros k2 Hk2.
        destruct (H5 k2 Hk2) as (H6&H7&H8). split; [done|]. split; [done|]. intros k3 k4 Hk3 Hk4.
        destruct (H8 k3 k4 Hk3 Hk4) as [k5 Hk5]. rewrite Hk5. destruct (H3 k5) as [_ H9]; [by exists k1, k2, k3, k4|].
        destruct (H9 k5 eq_refl) as [_ H10]. rewrite map_empty_union in H10. destruct (H10 k5 eq_refl) as (_&_&H11).
        by apply (H11 k5 k5).
  Qed.
End cut.
