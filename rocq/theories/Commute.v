(** * Two transactions on one graph, committed in either order *)
From Verif Require Export BidiFinal.

(** ** Substituting indices in link values *)
(** [lv'] is [lv] with every index replaced; a set drops an element that becomes empty *)
Definition lv_sub (f : idx -> idx) (lv lv' : linkval) : Prop :=
  match lv, lv' with
  | LDirect i, LDirect i' => i' = f i
  | LSet k l, LSet k' l' => k' = k /\ forall y', y' ∈ l' <-> exists y, y ∈ l /\ y' = f y /\ (y' <> 0%N \/ y = 0%N)
  | LVec l, LVec l' => l' = f <$> l
  | _, _ => False
  end.
(** equal up to the order of sets *)
Definition lv_same (lv lv' : linkval) : Prop :=
  match lv, lv' with
  | LDirect i, LDirect i' => i = i'
  | LSet k l, LSet k' l' => k = k' /\ forall y, y ∈ l <-> y ∈ l'
  | LVec l, LVec l' => l = l'
  | _, _ => False
  end.
Definition node_same {D} (n n' : node D) : Prop :=
  nvar n = nvar n' /\ ndata n = ndata n' /\ Forall2 lv_same (nlinks n) (nlinks n').
Definition node_sub {D} (f : idx -> idx) (n n' : node D) : Prop :=
  nvar n' = nvar n /\ ndata n' = ndata n /\ Forall2 (lv_sub f) (nlinks n) (nlinks n').

Lemma lv_sub_comp f h lv lv1 lv2 : f 0%N = 0%N -> h 0%N = 0%N -> lv_sub f lv lv1 -> lv_sub h lv1 lv2 -> lv_sub (h ∘ f) lv lv2.
Proof.
  intros Hf Hh. destruct lv as [i|k l|l], lv1 as [i1|k1 l1|l1], lv2 as [i2|k2 l2|l2]; cbn; try done.
  - by intros -> ->.
  - intros [-> H1] [-> H2]. split; [done|]. intros y2. rewrite H2. setoid_rewrite H1. split.
    + intros (y1&(y&Hy&->&Hc1)&->&Hc2). exists y. split; [done|]. split; [done|].
      destruct Hc2 as [Hc2|Hc2]; [by left|]. destruct Hc1 as [Hc1|Hc1]; [done|by right].
    + intros (y&Hy&->&Hc). exists (f y). split; [|split; [done|]].
      * exists y. split; [done|]. split; [done|]. destruct Hc as [Hc| ->]; [left|by right]. intros H0. by rewrite H0, Hh in Hc.
      * destruct Hc as [Hc| ->]; [by left|right; by rewrite Hf].
  - intros -> ->. by rewrite list_fmap_compose.
Qed.
Lemma lv_sub_same f h lv lv1 lv2 : (forall y, f y = h y) -> lv_sub f lv lv1 -> lv_sub h lv lv2 -> lv_same lv1 lv2.
Proof.
  intros Hfh. destruct lv as [i|k l|l], lv1 as [i1|k1 l1|l1], lv2 as [i2|k2 l2|l2]; cbn; try done.
  - intros -> ->. apply Hfh.
  - intros [-> H1] [-> H2]. split; [done|]. intros y. rewrite H1, H2. by setoid_rewrite Hfh.
  - intros -> ->. apply list_fmap_ext. intros _ x _. apply Hfh.
Qed.
Lemma lv_redirect_sub k old new lv : linkval_ok k lv -> old <> 0%N ->
  lv_sub (fun y => if decide (y = old) then new else y) lv (lv_redirect old new lv).
Proof.
  intros [_ Hnd] Ho. destruct lv as [i|s l|l]; cbn in *; [done| |done]. apply set_rep_nd in Hnd. destruct (decide (old ∈ l)) as [Hin|Hin]; cbn.
  - destruct (decide (new = 0%N)) as [->|Hn]; (split; [done|]); intros y'.
    + rewrite set_remove_elem by done. split.
      * intros [H1 H2]. exists y'. rewrite decide_False by done. split; [done|]. split; [done|].
        destruct (decide (y' = 0%N)); [by right|by left].
      * intros (y&Hy&->&Hc). destruct (decide (y = old)) as [->|]; [|done]. by destruct Hc.
    + rewrite set_insert_elem, set_remove_elem by done. split.
      * intros [->|[H1 H2]]; [exists old; rewrite decide_True by done; eauto|].
        exists y'. rewrite decide_False by done. split; [done|]. split; [done|]. destruct (decide (y' = 0%N)); [by right|by left].
      * intros (y&Hy&->&Hc). destruct (decide (y = old)) as [->|]; [by left|by right].
  - split; [done|]. intros y'. split.
    + intros H. exists y'. rewrite decide_False by congruence. split; [done|]. split; [done|]. destruct (decide (y' = 0%N)); [by right|by left].
    + intros (y&Hy&->&_). by rewrite decide_False by congruence.
Qed.

(** one replacement after the other *)
Definition sub_list (L : list (idx * idx)) (y : idx) : idx := fold_left (fun y '(o, z) => if decide (y = o) then z else y) L y.
Lemma sub_list_out L y : y ∉ L.*1 -> sub_list L y = y.
Proof.
  unfold sub_list. induction L as [|[o z] L IH]; [done|]. cbn. intros [? ?]%not_elem_of_cons. rewrite decide_False by done. by apply IH.
Qed.
Lemma sub_list_in L y : sub_list L y = y \/ sub_list L y ∈ L.*2.
Proof.
  unfold sub_list. revert y. induction L as [|[o z] L IH]; intros y; [by left|]. cbn.
  destruct (decide (y = o)) as [->|].
  - destruct (IH z) as [->|]; right; [left|by right].
  - destruct (IH y) as [->|]; [by left|right; by right].
Qed.
Lemma sub_list_comm L1 L2 y :
  (forall x, x ∈ L1.*1 -> x ∉ L2.*1 /\ x ∉ L2.*2) -> (forall x, x ∈ L2.*1 -> x ∉ L1.*2) ->
  sub_list L2 (sub_list L1 y) = sub_list L1 (sub_list L2 y).
Proof.
  intros H1 H2. destruct (decide (y ∈ L1.*1)) as [Hy|Hy].
  - destruct (H1 y Hy) as [Hy2 _]. rewrite (sub_list_out L2 y) by done. apply sub_list_out.
    destruct (sub_list_in L1 y) as [->|Hin]; [done|]. intros Hc. by apply (H2 _ Hc).
  - rewrite (sub_list_out L1 y) by done. symmetry. apply sub_list_out.
    destruct (sub_list_in L2 y) as [->|Hin]; [done|]. intros Hc. by apply (H1 _ Hc).
Qed.

Section sub.
  Context {D : Type} (E : env).
  Implicit Types (n : node D).

  Lemma node_redirect_sub old new n : node_ok E n -> old <> 0%N ->
    node_sub (fun y => if decide (y = old) then new else y) n (node_redirect old new n).
  Proof.
    intros (ks&_&HF) Ho. split; [done|]. split; [done|]. cbn. induction HF; constructor; [by eapply lv_redirect_sub|done].
  Qed.
  Lemma node_sub_comp f h n n1 n2 : f 0%N = 0%N -> h 0%N = 0%N -> node_sub f n n1 -> node_sub h n1 n2 -> node_sub (h ∘ f) n n2.
  Proof.
    intros Hf Hh (Hv1&Hd1&HF1) (Hv2&Hd2&HF2). split; [congruence|]. split; [congruence|].
    revert HF2. generalize (nlinks n2). induction HF1; intros l2 HF2; inversion HF2; subst; constructor; [by eapply lv_sub_comp|eauto].
  Qed.
  Lemma node_sub_same f h n n1 n2 : (forall y, f y = h y) -> node_sub f n n1 -> node_sub h n n2 -> node_same n1 n2.
  Proof.
    intros Hfh (Hv1&Hd1&HF1) (Hv2&Hd2&HF2). split; [congruence|]. split; [congruence|].
    revert HF2. generalize (nlinks n2). induction HF1; intros l2 HF2; inversion HF2; subst; constructor; [by eapply lv_sub_same|eauto].
  Qed.
  Lemma node_same_refl n : node_same n n.
  Proof. split; [done|]. split; [done|]. induction (nlinks n) as [|lv l IH]; constructor; [by destruct lv|done]. Qed.
  Lemma node_redirects_sub L n : node_ok E n -> 0%N ∉ L.*1 -> node_sub (sub_list L) n (node_redirects L n).
  Proof.
    unfold node_redirects. revert n. induction L as [|[o z] L IH]; intros n Hok H0; cbn.
    - split; [done|]. split; [done|]. induction (nlinks n) as [|lv l IHl]; constructor; [|done].
      destruct lv as [i|k l'|l']; cbn; [done| |by rewrite list_fmap_id]. split; [done|]. intros y. split; [|by intros (y'&?&->&_)].
      intros Hy. exists y. split; [done|]. split; [done|]. destruct (decide (y = 0%N)); [by right|by left].
    - apply not_elem_of_cons in H0 as [H0 H0'].
      assert (node_sub (sub_list L ∘ fun y => if decide (y = o) then z else y) n (node_redirects L (node_redirect o z n))) as H; [|exact H].
      eapply node_sub_comp; [by rewrite decide_False|by apply sub_list_out|by apply node_redirect_sub|].
      apply IH; [by apply node_redirect_ok|done].
  Qed.

  (** ** A commit works on every index separately *)
  Implicit Types (m : gmap N (node D)).
  Lemma sp_mutates_at fs m1 m2 m1' m2' i : m1 !! i = m2 !! i -> sp_mutates fs m1 = Some m1' -> sp_mutates fs m2 = Some m2' -> m1' !! i = m2' !! i.
  Proof.
    revert m1 m2. induction fs as [|[j f] fs IH]; cbn; intros m1 m2 Hi; [by intros [= <-] [= <-]|].
    destruct (m1 !! j) as [n1|] eqn:H1; [|done]. destruct (m2 !! j) as [n2|] eqn:H2; [|intros; done].
    destruct (f n1) as [n1' []|] eqn:Hf1; [|done]. destruct (f n2) as [n2' []|] eqn:Hf2; [|intros; done].
    apply IH. destruct (decide (j = i)) as [->|]; [|by rewrite !lookup_insert_ne by done]. rewrite !lookup_insert. congruence.
  Qed.
  Lemma sp_updates_at fs m1 m2 m1' m2' i : m1 !! i = m2 !! i -> sp_updates fs m1 = Some m1' -> sp_updates fs m2 = Some m2' -> m1' !! i = m2' !! i.
  Proof.
    revert m1 m2. induction fs as [|[j f] fs IH]; cbn; intros m1 m2 Hi; [by intros [= <-] [= <-]|].
    destruct (m1 !! j) as [n1|] eqn:H1; [|done]. destruct (m2 !! j) as [n2|] eqn:H2; [|intros; done].
    destruct (f n1) as [n1'|] eqn:Hf1; [|done]. destruct (f n2) as [n2'|] eqn:Hf2; [|intros; done].
    apply IH. destruct (decide (j = i)) as [->|]; [|by rewrite !lookup_insert_ne by done]. rewrite !lookup_insert. congruence.
  Qed.
  Lemma sp_mutates_out fs m m' i : i ∉ fs.*1 -> sp_mutates fs m = Some m' -> m' !! i = m !! i.
  Proof.
    revert m. induction fs as [|[j f] fs IH]; cbn; intros m; [by intros _ [= <-]|]. intros [? ?]%not_elem_of_cons.
    destruct (m !! j); [|done]. destruct (f _) as [n' []|]; [|done]. intros ->%IH; [|done]. by rewrite lookup_insert_ne.
  Qed.
  Lemma sp_updates_out fs m m' i : i ∉ fs.*1 -> sp_updates fs m = Some m' -> m' !! i = m !! i.
  Proof.
    revert m. induction fs as [|[j f] fs IH]; cbn; intros m; [by intros _ [= <-]|]. intros [? ?]%not_elem_of_cons.
    destruct (m !! j); [|done]. destruct (f _) as [n'|]; [|done]. intros ->%IH; [|done]. by rewrite lookup_insert_ne.
  Qed.
  Lemma sp_removes_at xs m m' i : sp_removes xs m = Some m' ->
    m' !! i = if decide (i ∈ xs) then None else node_redirects ((fun x => (x, 0%N)) <$> xs) <$> m !! i.
  Proof.
    revert m. induction xs as [|x xs IH]; cbn -[decide]; intros m.
    - intros [= <-]. rewrite decide_False by apply not_elem_of_nil. unfold node_redirects. cbn. by destruct (m !! i).
    - destruct (m !! x); [|done]. intros ->%IH. unfold sp_remove. rewrite lookup_fmap.
      destruct (decide (i = x)) as [->|Hne].
      + rewrite lookup_delete. cbn. rewrite (decide_True (P := x ∈ x :: xs)) by set_solver. by destruct (decide _).
      + rewrite lookup_delete_ne by done. destruct (decide (i ∈ xs)) as [Hi|Hi].
        * by rewrite decide_True by set_solver.
        * rewrite decide_False by set_solver. by destruct (m !! i).
  Qed.

  Lemma sp_commit_at t m1 m2 m1' m2' i : m1 !! i = m2 !! i -> sp_commit t m1 m1' -> sp_commit t m2 m2' -> m1' !! i = m2' !! i.
  Proof.
    intros Hi (a1&a2&a3&a4&(r&Hr&->)&A2&A3&(q&Hq&->)&A5) (b1&b2&b3&b4&(r'&Hr'&->)&B2&B3&(q'&Hq'&->)&B5).
    rewrite (redir_resolved_det _ _ _ Hr' Hr) in B2. rewrite (redir_resolved_det _ _ _ Hq' Hq) in B5.
    rewrite (sp_removes_at _ _ _ i A5), (sp_removes_at _ _ _ i B5). destruct (decide _); [done|]. f_equal. rewrite !lookup_fmap. f_equal.
    eapply sp_updates_at; [|exact A3|exact B3]. eapply sp_mutates_at; [|exact A2|exact B2].
    by rewrite !lookup_union, !lookup_fmap, Hi.
  Qed.

  (** what a transaction replaces in other nodes, and by what *)
  Definition moved (t : txn D) : list idx := (x_redir t).*1 ++ (x_redir_all t).*1 ++ x_del t.
  Definition targets (t : txn D) : list idx := (x_redir t).*2 ++ (x_redir_all t).*2.
  (** the nodes it inserts or runs closures on *)
  Definition edits (t : txn D) (i : idx) : Prop := is_Some (x_new t !! i) \/ i ∈ (x_mut t).*1 \/ i ∈ (x_upd t).*1.

  Lemma resolved_targets reps res : redir_resolved reps res -> res.*1 = reps.*1 /\ forall z, z ∈ res.*2 -> z ∈ reps.*2.
  Proof.
    intros Hr. pose proof (resolved_finals _ _ Hr) as HF. split; [by apply resolved_keys|].
    assert (forall a b, redir_reach reps a b -> a ∈ reps.*2 -> b ∈ reps.*2) as Hreach.
      { intros a b H. induction H as [|a b c Hab _ IH]; [done|]. intros _. apply IH. apply elem_of_list_fmap. by exists (a, b). }
      assert (forall L L' : list (idx * idx), Forall2 (fun on oz => oz.1 = on.1 /\ redir_final reps on.2 oz.2) L L' -> (forall z, z ∈ L.*2 -> z ∈ reps.*2) ->
        forall z, z ∈ L'.*2 -> z ∈ reps.*2) as H.
      { induction 1 as [|[o w] [o' z'] L L' [_ [Hf _]] _ IH]; intros HL z; cbn in *; [by intros ?%elem_of_nil|]. intros [->|Hz]%elem_of_cons.
        - eapply Hreach; [done|]. apply HL. by left.
        - apply IH; [|done]. intros y Hy. apply HL. by right. }
      by apply (H reps res).
  Qed.

  (** the effect on a node that is only linked from *)
  Lemma sp_commit_other t m0 m0' : sp_commit t m0 m0' -> exists L,
    L.*1 = moved t /\ (forall z, z ∈ L.*2 -> z ∈ targets t \/ z = 0%N) /\
    forall m m' i, sp_commit t m m' -> ~ edits t i -> i ∉ x_del t -> m' !! i = node_redirects L <$> m !! i.
  Proof.
    intros (_&_&_&_&(r&Hr&_)&_&_&(q&Hq&_)&_). exists (r ++ q ++ ((fun x => (x, 0%N)) <$> x_del t)).
    destruct (resolved_targets _ _ Hr) as [Hr1 Hr2], (resolved_targets _ _ Hq) as [Hq1 Hq2]. split; [|split].
    - unfold moved. rewrite !fmap_app, Hr1, Hq1. f_equal. f_equal. rewrite <- list_fmap_compose. apply list_fmap_id.
    - intros z. unfold targets. rewrite !fmap_app, !elem_of_app. intros [H|[H|H]]; [left; left; by apply Hr2|left; right; by apply Hq2|].
      right. apply elem_of_list_fmap in H as (?&->&H). apply elem_of_list_fmap in H as (?&->&_). done.
    - intros m m' i (a1&a2&a3&a4&(r'&Hr'&->)&A2&A3&(q'&Hq'&->)&A5) Hi Hd.
      rewrite (redir_resolved_det _ _ _ Hr' Hr) in A2. rewrite (redir_resolved_det _ _ _ Hq' Hq) in A5.
      assert (i ∉ (x_mut t).*1 /\ i ∉ (x_upd t).*1 /\ x_new t !! i = None) as (H1&H2&H3).
      { unfold edits in Hi. rewrite (eq_None_not_Some (x_new t !! i)). naive_solver. }
      rewrite (sp_removes_at _ _ _ i A5). rewrite decide_False by done. rewrite lookup_fmap, (sp_updates_out _ _ _ i H2 A3), (sp_mutates_out _ _ _ i H1 A2).
      rewrite lookup_union, H3, lookup_fmap. destruct (m !! i) as [n|]; [|done]. cbn. f_equal.
      unfold node_redirects. by rewrite !fold_left_app.
  Qed.

  Definition all_ok m : Prop := forall i n, m !! i = Some n -> node_ok E n.
  (** the nodes [t2] works on do not link to what [t1] moves, neither before nor after *)
  Definition clear_of (t1 t2 : txn D) m m2 : Prop :=
    forall i n x, edits t2 i -> m !! i = Some n \/ m2 !! i = Some n -> x ∈ moved t1 -> ~ links_to n x.
  Definition apart (t1 t2 : txn D) : Prop :=
    (forall i, edits t1 i -> ~ edits t2 i) /\ (forall x, x ∈ moved t1 -> x ∉ moved t2 /\ x ∉ targets t2) /\ (forall x, x ∈ moved t2 -> x ∉ targets t1).

  Lemma commute_deleted t1 t2 m m1 m12 m2 m21 i :
    (forall i, edits t1 i -> ~ edits t2 i) -> (forall i, is_Some (x_new t2 !! i) -> m !! i = None) ->
    sp_commit t1 m m1 -> sp_commit t2 m1 m12 -> sp_commit t1 m2 m21 -> i ∈ x_del t1 -> m12 !! i = None /\ m21 !! i = None.
  Proof.
    intros Hed Hnew H1 H12 H21 Hi. split; apply eq_None_not_Some; [|by intros [_ Hn]%(sp_commit_dom _ _ _ H21)].
    intros [[Hs|Hs] _]%(sp_commit_dom _ _ _ H12); [|by apply (sp_commit_dom _ _ _ H1) in Hs as [_ ?]].
    pose proof Hs as Hm%Hnew. destruct H1 as (a1&a2&a3&a4&A1&A2&A3&A4&A5).
    assert (is_Some (a4 !! i)) as H4.
    { clear -A5 Hi. revert a4 A5. induction (x_del t1) as [|x xs IH]; [by apply elem_of_nil in Hi|]. intros a4. cbn.
      destruct (a4 !! x) eqn:Hx; [|done]. apply elem_of_cons in Hi as [->|Hi]; [by rewrite Hx|].
      intros H%IH; [|done]. unfold sp_remove in H. rewrite lookup_fmap, fmap_is_Some in H. destruct H as [n1 Hn1]. by apply lookup_delete_Some in Hn1 as [_ ->]. }
    rewrite (sp_redirect_dom _ _ _ A4), (sp_updates_dom _ _ _ A3), (sp_mutates_dom _ _ _ A2), lookup_union_is_Some, (sp_redirect_dom _ _ _ A1) in H4.
    destruct H4 as [H4|H4]; [|rewrite Hm in H4; by destruct H4]. eapply Hed; left; done.
  Qed.
  Lemma commute_edited t1 t2 m m1 m12 m2 m21 i :
    0%N ∉ moved t1 -> all_ok m -> all_ok m2 -> clear_of t1 t2 m m2 ->
    sp_commit t1 m m1 -> sp_commit t2 m1 m12 -> sp_commit t2 m m2 -> sp_commit t1 m2 m21 ->
    edits t2 i -> ~ edits t1 i -> i ∉ x_del t1 -> m12 !! i = m2 !! i /\ m21 !! i = m2 !! i.
  Proof.
    intros H0 Hok Hok2 Hcl H1 H12 H2 H21 He Hne Hd.
    assert (forall ma ma', sp_commit t1 ma ma' -> all_ok ma -> (forall n, ma !! i = Some n -> m !! i = Some n \/ m2 !! i = Some n) -> ma' !! i = ma !! i) as Hsame.
    { intros ma ma' Hc Hoka Hma. destruct (sp_commit_other _ _ _ Hc) as (L&HL&_&Ha). rewrite (Ha _ _ i Hc Hne Hd).
      destruct (ma !! i) as [n|] eqn:Hn; [|done]. cbn. f_equal. apply (node_redirects_id E); [by eapply Hoka|]. rewrite HL. intros x Hx.
      split; [by intros ->|]. eapply Hcl; [done| |done]. by apply Hma. }
    assert (m1 !! i = m !! i) as Hm1 by (apply (Hsame _ _ H1 Hok); by left).
    split; [by eapply sp_commit_at|]. apply (Hsame _ _ H21 Hok2). by right.
  Qed.
  Lemma commute_other t1 t2 m m1 m12 m2 m21 i :
    0%N ∉ moved t1 -> 0%N ∉ moved t2 -> all_ok m -> apart t1 t2 ->
    sp_commit t1 m m1 -> sp_commit t2 m1 m12 -> sp_commit t2 m m2 -> sp_commit t1 m2 m21 ->
    ~ edits t1 i -> ~ edits t2 i -> i ∉ x_del t1 -> i ∉ x_del t2 -> option_Forall2 node_same (m12 !! i) (m21 !! i).
  Proof.
    intros H0 H0' Hok (Hed&Hmv&Hmt) H1 H12 H2 H21 He1 He2 Hd1 Hd2.
    destruct (sp_commit_other _ _ _ H1) as (L1&HL1&HT1&Ha1), (sp_commit_other _ _ _ H12) as (L2&HL2&HT2&Ha2).
    rewrite (Ha2 _ _ i H12), (Ha1 _ _ i H1), (Ha1 _ _ i H21), (Ha2 _ _ i H2) by done.
    destruct (m !! i) as [n|] eqn:Hn; cbn; [|constructor]. constructor. apply Hok in Hn.
    rewrite <- HL1 in H0. rewrite <- HL2 in H0'.
    assert (forall La Lb, 0%N ∉ La.*1 -> 0%N ∉ Lb.*1 -> node_sub (sub_list Lb ∘ sub_list La) n (node_redirects Lb (node_redirects La n))) as Hsub.
    { intros La Lb Ha Hb. eapply node_sub_comp; [by apply sub_list_out|by apply sub_list_out|by apply node_redirects_sub|].
      apply node_redirects_sub; [by apply node_redirects_ok|done]. }
    eapply node_sub_same; [|by apply Hsub|by apply Hsub]. intros y. cbn. apply sub_list_comm.
    - intros x Hx. rewrite HL2. rewrite HL1 in Hx. destruct (Hmv x Hx) as [? Ht]. split; [done|]. intros [?| ->]%HT2; [done|]. by rewrite HL1 in H0.
    - intros x Hx [Hc| ->]%HT1; [|done]. rewrite HL2 in Hx. by apply (Hmt x Hx).
  Qed.

  Theorem commute_maps t1 t2 m m1 m12 m2 m21 :
    0%N ∉ moved t1 -> 0%N ∉ moved t2 -> all_ok m -> all_ok m1 -> all_ok m2 -> apart t1 t2 ->
    clear_of t1 t2 m m2 -> clear_of t2 t1 m m1 ->
    (forall i, is_Some (x_new t1 !! i) -> m !! i = None) -> (forall i, is_Some (x_new t2 !! i) -> m !! i = None) ->
    sp_commit t1 m m1 -> sp_commit t2 m1 m12 -> sp_commit t2 m m2 -> sp_commit t1 m2 m21 ->
    forall i, option_Forall2 node_same (m12 !! i) (m21 !! i).
  Proof.
    intros H01 H02 Hok Hok1 Hok2 Hap Hc12 Hc21 Hn1 Hn2 H1 H12 H2 H21 i. pose proof Hap as (Hed&_&_).
    assert (forall x : option (node D), option_Forall2 node_same x x) as Hrefl by (intros [n|]; constructor; apply node_same_refl).
    assert (forall i, edits t2 i -> ~ edits t1 i) as Hed' by naive_solver.
    destruct (decide (i ∈ x_del t1)) as [Hd1|Hd1].
    { by destruct (commute_deleted t1 t2 m m1 m12 m2 m21 i Hed Hn2 H1 H12 H21 Hd1) as [-> ->]. }
    destruct (decide (i ∈ x_del t2)) as [Hd2|Hd2].
    { by destruct (commute_deleted t2 t1 m m2 m21 m1 m12 i Hed' Hn1 H2 H21 H12 Hd2) as [-> ->]. }
    assert (forall t, {edits t i} + {~ edits t i}) as Hdec.
    { intros t. unfold edits. destruct (x_new t !! i) eqn:Hx; [left; left; eauto|].
      destruct (decide (i ∈ (x_mut t).*1)); [left; by right; left|]. destruct (decide (i ∈ (x_upd t).*1)); [left; by right; right|].
      right. intros [[? ?]|[?|?]]; done. }
    destruct (Hdec t1) as [He1|He1].
    { destruct (commute_edited t2 t1 m m2 m21 m1 m12 i) as [-> ->]; try done. by apply Hed. }
    destruct (Hdec t2) as [He2|He2].
    { by destruct (commute_edited t1 t2 m m1 m12 m2 m21 i) as [-> ->]. }
    by apply (commute_other t1 t2 m m1 m12 m2 m21).
  Qed.

  (** ** Independent transactions stay valid *)
  (** [t2] makes no link to an index of [X]: no new node holds one, no closure adds one,
      and the nodes it works on hold none *)
  Record avoids_ix (X : list idx) (t2 : txn D) m : Prop := {
    av_new : forall i n x, x_new t2 !! i = Some n -> x ∈ X -> ~ links_to n x;
    av_mut : forall i f n n' x, (i, f) ∈ x_mut t2 -> f n = Done n' tt -> x ∈ X -> links_to n' x -> links_to n x;
    av_upd : forall i f n n' x, (i, f) ∈ x_upd t2 -> f n = Ok n' -> x ∈ X -> links_to n' x -> links_to n x;
    av_old : forall i n x, edits t2 i -> m !! i = Some n -> x ∈ X -> ~ links_to n x;
    av_tgt : forall x, x ∈ X -> x ∉ targets t2 }.

  Lemma set_remove_sub k x y l : y ∈ set_remove k x l -> y ∈ l.
  Proof. destruct k as [[] h]; cbn; unfold oset_shift, oset_del; try (by intros [_ ?]%elem_of_list_filter). apply swap_del_sub. Qed.
  Lemma node_redirect_into o z n y : links_to (node_redirect o z n) y -> links_to n y \/ y = z.
  Proof.
    intros (l&H0&Hv&lv&Hlv&Hy). cbn in Hv, Hlv. rewrite list_lookup_fmap in Hlv. destruct (nlinks n !! l_fld l) as [lv0|] eqn:Hl; [|done].
    injection Hlv as <-. destruct (decide (y = z)) as [->|Hz]; [by right|left]. exists l. split; [done|]. split; [done|]. exists lv0. split; [done|].
    destruct lv0 as [i|k L|L]; cbn in *.
    - apply elem_of_list_singleton in Hy. case_decide; [done|]. subst. by left.
    - revert Hy. repeat case_decide; cbn; [by intros ?%set_remove_sub| |done]. intros [->|?%set_remove_sub]%set_insert_elem; done.
    - apply elem_of_list_fmap in Hy as (i&->&Hi). revert Hz. case_decide; done.
  Qed.
  Lemma node_redirects_into' L n y : links_to (node_redirects L n) y -> links_to n y \/ y ∈ L.*2.
  Proof.
    unfold node_redirects. revert n. induction L as [|[o z] L IH]; intros n; cbn; [by left|].
    intros [[H| ->]%node_redirect_into|H]%IH; [by left|right; left|right; by right].
  Qed.

  Section valid.
    Context (X : list idx) (t : txn D) (dl : list idx).
    Hypothesis (HX : forall x, x ∈ dl -> x ∈ X).
    Implicit Types (a b : gmap N (node D)).
    Definition unlinked a : Prop := forall i n x, edits t i -> a !! i = Some n -> x ∈ X -> ~ links_to n x.
    (** [b] has the nodes of [a] that [t] works on, and all but [dl] of the indices *)
    Definition alike a b : Prop := (forall i, edits t i -> b !! i = a !! i) /\ forall i, is_Some (a !! i) -> i ∉ dl -> is_Some (b !! i).

    Lemma unlinked_redirect res a : (forall x, x ∈ X -> x ∉ res.*2) -> unlinked a -> unlinked (node_redirects res <$> a).
    Proof.
      intros Hr Ha i n x Hi. rewrite lookup_fmap. destruct (a !! i) as [n0|] eqn:Hn; [|done]. intros [= <-] Hx [Hl|Hl]%node_redirects_into'.
      - by eapply Ha.
      - by eapply Hr.
    Qed.
    Lemma alike_fmap (f : node D -> node D) a b : alike a b -> alike (f <$> a) (f <$> b).
    Proof.
      intros [H1 H2]. split; [intros i Hi; by rewrite !lookup_fmap, H1|]. intros i. rewrite !lookup_fmap, !fmap_is_Some. apply H2.
    Qed.
    Lemma unlinked_new a m : avoids_ix X t m -> unlinked a -> unlinked (x_new t ∪ a).
    Proof.
      intros Hav Ha i n x Hi Hn Hx. apply lookup_union_Some_raw in Hn as [Hn|[_ Hn]]; [by eapply (av_new _ _ _ Hav)|by eapply Ha].
    Qed.
    Lemma alike_new a b : alike a b -> alike (x_new t ∪ a) (x_new t ∪ b).
    Proof.
      intros [H1 H2]. split; [intros i Hi; by rewrite !lookup_union, H1|]. intros i. rewrite !lookup_union_is_Some. intros [?|?] Hd; [by left|right; by apply H2].
    Qed.
    Lemma alike_known a b n : alike a b -> (forall x, x ∈ X -> ~ links_to n x) -> targets_known a n -> targets_known b n.
    Proof.
      intros [_ H2] Hn [Hk Hs]. split; [|done]. intros y Hy. apply H2; [by apply Hk|]. intros Hd%HX. by eapply Hn.
    Qed.
    Lemma alike_insert a b i n : alike a b -> alike (<[i := n]> a) (<[i := n]> b).
    Proof.
      intros [H1 H2]. split; intros j Hj; destruct (decide (i = j)) as [->|]; rewrite ?lookup_insert, ?lookup_insert_ne in * by done; eauto.
    Qed.
    Lemma unlinked_insert a i n : unlinked a -> (forall x, x ∈ X -> ~ links_to n x) -> unlinked (<[i := n]> a).
    Proof.
      intros Ha Hn j n' x Hj. destruct (decide (i = j)) as [->|]; [rewrite lookup_insert; intros [= <-]; apply Hn|rewrite lookup_insert_ne by done; by apply Ha].
    Qed.

    Lemma mutates_alike m fs a b a' : avoids_ix X t m -> (forall f, f ∈ fs -> f ∈ x_mut t) -> unlinked a -> alike a b ->
      mutates_known fs a -> sp_mutates fs a = Some a' ->
      unlinked a' /\ mutates_known fs b /\ exists b', sp_mutates fs b = Some b' /\ alike a' b'.
    Proof.
      intros Hav. revert a b. induction fs as [|[i f] fs IH]; intros a b Hfs Hu Hab; cbn.
      - intros _ [= <-]. eauto.
      - assert (edits t i) as Hi. { right. left. apply elem_of_list_fmap. exists (i, f). split; [done|]. apply Hfs. left. }
        pose proof (proj1 Hab i Hi) as Hbi. destruct (a !! i) as [n|] eqn:Hn; [|done]. destruct (f n) as [n' []|] eqn:Hf; [|done].
        intros Hk Hm. destruct (Hk n n' eq_refl Hf) as [Ht Hk'].
        assert (forall x, x ∈ X -> ~ links_to n' x) as Hn'.
        { intros x Hx Hl. eapply (Hu i n x Hi Hn Hx). eapply (av_mut _ _ _ Hav i f); [apply Hfs; left|done..]. }
        destruct (IH (<[i:=n']> a) (<[i:=n']> b)) as (H1&H2&b'&H3&H4); [intros; apply Hfs; by right|by apply unlinked_insert|by apply alike_insert|done|done|].
        split; [done|]. rewrite Hbi. split; [|rewrite Hf; eauto]. intros n0 n0' [= <-] Hf0.
        assert (n0' = n') as -> by congruence. split; [by eapply alike_known|done].
    Qed.
    Lemma updates_alike m fs a b a' : avoids_ix X t m -> (forall f, f ∈ fs -> f ∈ x_upd t) -> unlinked a -> alike a b ->
      updates_known fs a -> sp_updates fs a = Some a' ->
      unlinked a' /\ updates_known fs b /\ exists b', sp_updates fs b = Some b' /\ alike a' b'.
    Proof.
      intros Hav. revert a b. induction fs as [|[i f] fs IH]; intros a b Hfs Hu Hab; cbn.
      - intros _ [= <-]. eauto.
      - assert (edits t i) as Hi. { right. right. apply elem_of_list_fmap. exists (i, f). split; [done|]. apply Hfs. left. }
        pose proof (proj1 Hab i Hi) as Hbi. destruct (a !! i) as [n|] eqn:Hn; [|done]. destruct (f n) as [n'|] eqn:Hf; [|done].
        intros Hk Hm. destruct (Hk n n' eq_refl Hf) as [Ht Hk'].
        assert (forall x, x ∈ X -> ~ links_to n' x) as Hn'.
        { intros x Hx Hl. eapply (Hu i n x Hi Hn Hx). eapply (av_upd _ _ _ Hav i f); [apply Hfs; left|done..]. }
        destruct (IH (<[i:=n']> a) (<[i:=n']> b)) as (H1&H2&b'&H3&H4); [intros; apply Hfs; by right|by apply unlinked_insert|by apply alike_insert|done|done|].
        split; [done|]. rewrite Hbi. split; [|rewrite Hf; eauto]. intros n0 n0' [= <-] Hf0.
        assert (n0' = n') as -> by congruence. split; [by eapply alike_known|done].
    Qed.
    Lemma removes_alike xs a b : (forall x, x ∈ xs -> x ∉ dl) -> (forall i, is_Some (a !! i) -> i ∉ dl -> is_Some (b !! i)) ->
      is_Some (sp_removes xs a) -> is_Some (sp_removes xs b).
    Proof.
      revert a b. induction xs as [|x xs IH]; intros a b Hxs Hab; cbn; [eauto|].
      destruct (a !! x) as [n|] eqn:Hn; [|intros []; done]. destruct (Hab x) as [n' Hn']; [eauto|apply Hxs; left|]. rewrite Hn'.
      apply IH; [intros; apply Hxs; by right|]. intros i. unfold sp_remove. rewrite !lookup_fmap, !fmap_is_Some.
      intros [n0 [Hne H0]%lookup_delete_Some] Hd. rewrite lookup_delete_ne by done. eauto.
    Qed.
    Lemma unlinked_removes xs a a' : 0%N ∉ X -> unlinked a -> sp_removes xs a = Some a' -> unlinked a'.
    Proof.
      intros H0 Ha Hr i n x Hi. rewrite (sp_removes_at _ _ _ i Hr). case_decide; [done|]. destruct (a !! i) as [n0|] eqn:Hn; [|done].
      intros [= <-] Hx [Hl|Hl]%node_redirects_into'; [by eapply Ha|].
      apply elem_of_list_fmap in Hl as (?&->&Hl). apply elem_of_list_fmap in Hl as (?&->&_). done.
    Qed.
    Lemma redir_valid_alike reps a b : (forall x, x ∈ reps.*1 -> x ∉ dl) -> (forall i, is_Some (a !! i) -> i ∉ dl -> is_Some (b !! i)) ->
      redir_valid reps a -> redir_valid reps b.
    Proof. intros Hr Hab [H1 H2]. split; [done|]. intros o Ho. apply Hab; [by apply H2|by apply Hr]. Qed.

    Lemma valid_alike a b : (forall x, x ∈ moved t -> x ∉ dl) -> avoids_ix X t a -> alike a b -> sp_valid t a -> sp_valid t b.
    Proof.
      intros Hmv Hav Hab [Hrv Hv]. assert (unlinked a) as Hu. { intros i n x Hi Hn Hx. by eapply (av_old _ _ _ Hav). }
      assert (forall reps res x, redir_resolved reps res -> (forall z, z ∈ reps.*2 -> z ∈ targets t) -> x ∈ X -> x ∉ res.*2) as Htg.
      { intros reps res x Hr Ht Hx Hin. apply (resolved_targets _ _ Hr) in Hin. by eapply (av_tgt _ _ _ Hav x Hx), Ht. }
      unfold moved, targets in *. split.
      { eapply redir_valid_alike; [|apply Hab|done]. intros x Hx. apply Hmv. set_solver. }
      intros m1 (r&Hr&->). destruct (Hv (node_redirects r <$> a)) as (Hk&m2&Hm2&Hk2&m3&Hm3&Hrv3&Hrm); [by exists r|].
      assert (unlinked (x_new t ∪ (node_redirects r <$> a))) as Hu1.
      { eapply unlinked_new; [exact Hav|]. apply unlinked_redirect; [|done]. intros x. eapply Htg; [done|set_solver]. }
      destruct (mutates_alike a (x_mut t) (x_new t ∪ (node_redirects r <$> a)) (x_new t ∪ (node_redirects r <$> b)) m2) as (Hu2&Hk'&b2&Hb2&Hab2);
        [done|done|done|by apply alike_new, alike_fmap|done|done|].
      split; [done|]. exists b2. split; [done|].
      destruct (updates_alike a (x_upd t) m2 b2 m3) as (Hu3&Hk2'&b3&Hb3&Hab3); [done..|].
      split; [done|]. exists b3. split; [done|]. split.
      { eapply redir_valid_alike; [|apply Hab3|done]. intros x Hx. apply Hmv. set_solver. }
      intros m4 (q&Hq&->). eapply (removes_alike _ (node_redirects q <$> m3)); [| |by apply Hrm; exists q].
      - intros x Hx. apply Hmv. set_solver.
      - intros i. rewrite !lookup_fmap, !fmap_is_Some. apply Hab3.
    Qed.
    Lemma commit_unlinked a a' : 0%N ∉ X -> avoids_ix X t a -> sp_valid t a -> sp_commit t a a' -> unlinked a'.
    Proof.
      intros H0 Hav [Hrv Hv] (m1&m2&m3&m4&H1&H2&H3&H4&H5). assert (unlinked a) as Hu. { intros i n x Hi Hn Hx. by eapply (av_old _ _ _ Hav). }
      assert (forall reps res x, redir_resolved reps res -> (forall z, z ∈ reps.*2 -> z ∈ targets t) -> x ∈ X -> x ∉ res.*2) as Htg.
      { intros reps res x Hr Ht Hx Hin. apply (resolved_targets _ _ Hr) in Hin. by eapply (av_tgt _ _ _ Hav x Hx), Ht. }
      unfold targets in *. destruct (Hv m1 H1) as (Hk&m2'&Hm2'&Hk2&m3'&Hm3'&_). assert (m2' = m2) as -> by congruence. assert (m3' = m3) as -> by congruence.
      assert (unlinked (x_new t ∪ m1)) as Hu1.
      { eapply unlinked_new; [exact Hav|]. destruct H1 as (r&Hr&->). apply unlinked_redirect; [|done]. intros x. eapply Htg; [done|set_solver]. }
      assert (forall a, alike a a) as Hrefl by (intros; split; auto).
      destruct (mutates_alike a (x_mut t) (x_new t ∪ m1) (x_new t ∪ m1) m2) as (Hu2&_); [done..|].
      destruct (updates_alike a (x_upd t) m2 m2 m3) as (Hu3&_); [done..|].
      eapply unlinked_removes; [done| |exact H5]. destruct H4 as (q&Hq&->). apply unlinked_redirect; [|done]. intros x. eapply Htg; [done|set_solver].
    Qed.
  End valid.

  (** neither transaction touches what the other works on *)
  Definition independent (t1 t2 : txn D) m : Prop :=
    (forall i, edits t1 i -> ~ edits t2 i) /\ (forall x, x ∈ moved t1 -> x ∉ moved t2) /\
    (forall i, i ∈ x_del t1 -> ~ edits t2 i) /\ (forall i, i ∈ x_del t2 -> ~ edits t1 i) /\
    avoids_ix (moved t1) t2 m /\ avoids_ix (moved t2) t1 m.
  Lemma independent_sym t1 t2 m : independent t1 t2 m -> independent t2 t1 m.
  Proof. intros (H1&H2&H3&H4&H5&H6). split; [intros i Hi Hj; by eapply H1|]. split; [intros x Hx Hy; by eapply H2|]. done. Qed.

  Lemma independent_valid t1 t2 m m1 :
    all_ok m -> 0%N ∉ moved t1 -> independent t1 t2 m ->
    sp_commit t1 m m1 -> sp_valid t2 m -> sp_valid t2 m1.
  Proof.
    intros Hok H0 (H1&H2&H3&H4&H5&H6) Hc Hv. eapply (valid_alike (moved t1) t2 (x_del t1)); [| |exact H5| |exact Hv].
    - unfold moved. set_solver.
    - intros x Hx Hd. eapply H2; [|exact Hx]. unfold moved. set_solver.
    - split.
      + intros i Hi. destruct (sp_commit_other _ _ _ Hc) as (L&HL&_&Ha). rewrite (Ha _ _ i Hc); [|naive_solver..].
        destruct (m !! i) as [n|] eqn:Hn; [|done]. cbn. f_equal. apply (node_redirects_id E); [by eapply Hok|]. rewrite HL. intros x Hx.
        split; [by intros ->|]. by eapply (av_old _ _ _ H5).
      + intros i Hi Hd. apply (sp_commit_dom _ _ _ Hc). split; [by right|done].
  Qed.
End sub.

(** ** Over histories *)
(** two open transactions and a graph of one context, with what was called on the transactions *)
Definition open_pair {D} (E : env) (T : Prop) (g : graph D) (t1 t2 : trans D) (s1 s2 : tspec D) : Prop :=
  exists w lg kg k1 k2 c, lreach E T w lg /\ k1 <> k2 /\ w_graphs w !! kg = Some (c, g) /\
    w_trans w !! k1 = Some (c, t1) /\ w_trans w !! k2 = Some (c, t2) /\
    ts_run ts_empty (lg k1) = Some s1 /\ ts_run ts_empty (lg k2) = Some s2.

Section pair.
  Context {D : Type} (E : env) (T : Prop).
  Implicit Types (g : graph D) (t : trans D) (s : tspec D) (m : gmap N (node D)).

  Lemma open_pair_sym g t1 t2 s1 s2 : open_pair E T g t1 t2 s1 s2 -> open_pair E T g t2 t1 s2 s1.
  Proof. intros (w&lg&kg&k1&k2&c&H). exists w, lg, kg, k2, k1, c. naive_solver. Qed.
  Lemma open_pair_history g t1 t2 s1 s2 : open_pair E T g t1 t2 s1 s2 -> history E T g t1 s1.
  Proof. intros (w&lg&kg&k1&k2&c&Hl&_&Hg&H1&_&Hs&_). exists (lg k1). split; [|done]. exists w, lg, kg, k1, c. done. Qed.
  (** the second transaction goes on after the commit of the first *)
  Lemma open_pair_commit g t1 t2 s1 s2 g1 : open_pair E T g t1 t2 s1 s2 -> commit E t1 g = Done g1 tt -> history E T g1 t2 s2.
  Proof.
    intros Hp Hc. destruct Hp as (w&lg&kg&k1&k2&c&Hl&Hne&Hg&H1&H2&_&Hs).
    assert (lreach E T (set_g (del_t w k1) kg (c, g1)) (log_step w (OCommit kg k1) lg)) as Hl'.
    { eapply lr_step; [exact Hl|by eapply st_commit|done]. }
    exists (lg k2). split; [|done]. eexists _, _, kg, k2, c. split; [exact Hl'|]. cbn. rewrite lookup_insert, lookup_delete_ne by done. done.
  Qed.

  Lemma history_all_ok g t s : history E T g t s -> all_ok E (gmap_of g).
  Proof.
    intros Hh. destruct (history_ok E T g t s Hh) as (Hwf&_). intros i n Hn. rewrite (gmap_of_get E) in Hn by done. by apply (wf_nodes _ _ Hwf i).
  Qed.
  Lemma history_moved_nz g t s m' : history E T g t s -> sp_commit (ts_txn s) (gmap_of g) m' -> 0%N ∉ moved (ts_txn s).
  Proof.
    intros Hh Hsp. destruct (history_ok E T g t s Hh) as (Hwf&_&Ht&_). rewrite <- (history_txn E T g t s Hh) in *.
    unfold moved. cbn. rewrite !elem_of_app. intros [H|[H|H]].
    - by apply (to_redir _ _ _ _ Ht _ H).
    - by apply (to_redir_all _ _ _ _ Ht _ H).
    - by eapply (sp_del_nz E T g t).
  Qed.
  Lemma history_new_fresh g t s i : history E T g t s -> is_Some (ts_new s !! i) -> gmap_of g !! i = None.
  Proof.
    intros Hh [n Hn]. rewrite (history_own E T g t s Hh) in Hn. destruct (history_ok E T g t s Hh) as (Hwf&_&Ht&_).
    rewrite (gmap_of_get E) by done. apply eq_None_not_Some. intros [n' Hn'].
    apply arena_get_dispatch in Hn, Hn'. pose proof (to_disj _ _ _ _ Ht i Hn) as Hd. destruct Hn'. congruence.
  Qed.
  Lemma commit_gmap g t s g' i : history E T g t s -> commit E t g = Done g' tt -> gmap_of g' !! i = graph_get g' i.
  Proof.
    intros Hh Hc. destruct (history_ok E T g t s Hh) as (Hwf&Hty&Ht&_). destruct (commit_done E T g t Hwf Hty Ht g' Hc) as (_&g1&r&m1&Hcm&_).
    apply (gmap_of_get E). apply (cm_wf _ _ _ _ _ _ _ _ Hcm).
  Qed.
  Lemma history_exact g t s g' : history E T g t s -> (forall l, e_opp E l = []) -> commit E t g = Done g' tt -> sp_commit (ts_txn s) (gmap_of g) (gmap_of g').
  Proof.
    intros Hh Ho Hc. destruct (final_exact E T g t s Hh g' Ho Hc) as (m&m'&Hm&Hsp&Hm').
    assert (m = gmap_of g) as ->. { apply map_eq. intros i. by rewrite Hm, (history_nodes E T g t s Hh i). }
    assert (m' = gmap_of g') as ->. { apply map_eq. intros i. by rewrite Hm', (commit_gmap g t s g' i Hh Hc). }
    done.
  Qed.

  Theorem final_commute g t1 t2 s1 s2 g1 g12 g2 g21 :
    open_pair E T g t1 t2 s1 s2 -> (forall l, e_opp E l = []) ->
    apart (ts_txn s1) (ts_txn s2) ->
    (forall i n x, edits (ts_txn s2) i -> graph_get g i = Some n \/ graph_get g2 i = Some n -> x ∈ moved (ts_txn s1) -> ~ links_to n x) ->
    (forall i n x, edits (ts_txn s1) i -> graph_get g i = Some n \/ graph_get g1 i = Some n -> x ∈ moved (ts_txn s2) -> ~ links_to n x) ->
    commit E t1 g = Done g1 tt -> commit E t2 g1 = Done g12 tt -> commit E t2 g = Done g2 tt -> commit E t1 g2 = Done g21 tt ->
    forall i, option_Forall2 node_same (graph_get g12 i) (graph_get g21 i).
  Proof.
    intros Hp Ho Hap Hc12 Hc21 C1 C12 C2 C21 i. pose proof (open_pair_sym _ _ _ _ _ Hp) as Hp'.
    pose proof (open_pair_history _ _ _ _ _ Hp) as Hh1. pose proof (open_pair_history _ _ _ _ _ Hp') as Hh2.
    pose proof (open_pair_commit _ _ _ _ _ _ Hp C1) as Hh12. pose proof (open_pair_commit _ _ _ _ _ _ Hp' C2) as Hh21.
    pose proof (history_exact _ _ _ _ Hh1 Ho C1) as S1. pose proof (history_exact _ _ _ _ Hh2 Ho C2) as S2.
    pose proof (history_exact _ _ _ _ Hh12 Ho C12) as S12. pose proof (history_exact _ _ _ _ Hh21 Ho C21) as S21.
    rewrite <- (commit_gmap _ _ _ _ i Hh12 C12), <- (commit_gmap _ _ _ _ i Hh21 C21). revert i.
    assert (forall i, gmap_of g !! i = graph_get g i) as Hg by apply (history_nodes E T g t1 s1 Hh1).
    apply (commute_maps E (ts_txn s1) (ts_txn s2) (gmap_of g) (gmap_of g1) (gmap_of g12) (gmap_of g2) (gmap_of g21)); try done.
    - by eapply history_moved_nz.
    - by eapply history_moved_nz.
    - by eapply history_all_ok.
    - by eapply history_all_ok.
    - by eapply history_all_ok.
    - intros i n x. rewrite Hg, (commit_gmap _ _ _ _ i Hh2 C2). apply Hc12.
    - intros i n x. rewrite Hg, (commit_gmap _ _ _ _ i Hh1 C1). apply Hc21.
    - intros i. by apply (history_new_fresh g t1).
    - intros i. by apply (history_new_fresh g t2).
  Qed.

  Theorem final_independent g t1 t2 s1 s2 m :
    open_pair E T g t1 t2 s1 s2 -> (forall l, e_opp E l = []) -> (forall v l, e_chk E v l = true) ->
    e_dbg E = false \/ ts_res s1 = ∅ -> e_dbg E = false \/ ts_res s2 = ∅ ->
    nodes_are g m ->
    sp_valid (ts_txn s1) m -> sp_valid (ts_txn s2) m -> independent (ts_txn s1) (ts_txn s2) m ->
    exists g1 g12 g2 g21, commit E t1 g = Done g1 tt /\ commit E t2 g1 = Done g12 tt /\ commit E t2 g = Done g2 tt /\ commit E t1 g2 = Done g21 tt /\
      forall i, option_Forall2 node_same (graph_get g12 i) (graph_get g21 i).
  Proof.
    intros Hp Ho Hk Hr1 Hr2 Hm V1 V2 Hin. pose proof (open_pair_sym _ _ _ _ _ Hp) as Hp'.
    pose proof (open_pair_history _ _ _ _ _ Hp) as Hh1. pose proof (open_pair_history _ _ _ _ _ Hp') as Hh2.
    assert (m = gmap_of g) as ->. { apply map_eq. intros i. by rewrite Hm, (history_nodes E T g t1 s1 Hh1 i). }
    destruct (final_succeeds E T g t1 s1 Hh1 _ Ho Hk Hm Hr1 V1) as (g1&m1&C1&_).
    destruct (final_succeeds E T g t2 s2 Hh2 _ Ho Hk Hm Hr2 V2) as (g2&m2&C2&_).
    pose proof (open_pair_commit _ _ _ _ _ _ Hp C1) as Hh12. pose proof (open_pair_commit _ _ _ _ _ _ Hp' C2) as Hh21.
    pose proof (history_exact _ _ _ _ Hh1 Ho C1) as S1. pose proof (history_exact _ _ _ _ Hh2 Ho C2) as S2.
    pose proof (history_all_ok _ _ _ Hh1) as Hok. pose proof (history_moved_nz _ _ _ _ Hh1 S1) as Z1. pose proof (history_moved_nz _ _ _ _ Hh2 S2) as Z2.
    pose proof (independent_sym _ _ _ Hin) as Hin'.
    pose proof (independent_valid E _ _ _ _ Hok Z1 Hin S1 V2) as V12. pose proof (independent_valid E _ _ _ _ Hok Z2 Hin' S2 V1) as V21.
    destruct (final_succeeds E T g1 t2 s2 Hh12 _ Ho Hk (history_nodes E T g1 t2 s2 Hh12) Hr2 V12) as (g12&m12&C12&_).
    destruct (final_succeeds E T g2 t1 s1 Hh21 _ Ho Hk (history_nodes E T g2 t1 s1 Hh21) Hr1 V21) as (g21&m21&C21&_).
    exists g1, g12, g2, g21. do 4 (split; [done|]). destruct Hin as (I1&I2&I3&I4&I5&I6).
    eapply (final_commute g t1 t2 s1 s2); try done.
    - split; [done|]. split; [|apply (av_tgt _ _ _ I6)]. intros x Hx. split; [by apply I2|by apply (av_tgt _ _ _ I5)].
    - intros i n x He [Hn|Hn] Hx; rewrite <- ?Hm, <- ?(commit_gmap _ _ _ _ i Hh2 C2) in Hn; [by eapply (av_old _ _ _ I5)|].
      by eapply (commit_unlinked (moved (ts_txn s1)) (ts_txn s2)).
    - intros i n x He [Hn|Hn] Hx; rewrite <- ?Hm, <- ?(commit_gmap _ _ _ _ i Hh1 C1) in Hn; [by eapply (av_old _ _ _ I6)|].
      by eapply (commit_unlinked (moved (ts_txn s2)) (ts_txn s1)).
  Qed.
End pair.
