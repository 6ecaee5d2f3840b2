(** * Nodes equal up to the order inside sets

    Two nodes are [alike] if they have the same variant, data, direct and Vec links, and sets
    of the same kind with the same members: [==] of Rust's set types looks neither at the
    order nor at the hasher.  Commits, deserialization and [switch_context] respect it. *)
From stdpp Require Export gmap.
From Verif Require Export SwitchExact Deser OrderHist.

Definition lv_alike (lv lv' : linkval) : Prop :=
  match lv, lv' with
  | LDirect i, LDirect i' => i = i'
  | LSet k l, LSet k' l' => st_kind k = st_kind k' /\ l ≡ₚ l'
  | LVec l, LVec l' => l = l'
  | _, _ => False
  end.
Definition alike {D} (n n' : node D) : Prop :=
  nvar n = nvar n' /\ ndata n = ndata n' /\ Forall2 lv_alike (nlinks n) (nlinks n').

Section alike.
  Context {D : Type}.
  Implicit Types (n : node D) (m : gmap N (node D)).

  Lemma lv_alike_refl lv : lv_alike lv lv.
  Proof. by destruct lv. Qed.
  Lemma lv_alike_sym lv lv' : lv_alike lv lv' -> lv_alike lv' lv.
  Proof. destruct lv, lv'; cbn; try done. intros [? ?]. by split. Qed.
  Lemma alike_refl n : alike n n.
  Proof. split; [done|]. split; [done|]. apply Forall_Forall2_diag, Forall_forall. intros lv _. apply lv_alike_refl. Qed.
  Lemma alike_sym n n' : alike n n' -> alike n' n.
  Proof. intros (?&?&?). split; [done|]. split; [done|]. apply Forall2_flip. eapply Forall2_impl; [done|]. apply lv_alike_sym. Qed.
  Lemma lv_alike_elems lv lv' y : lv_alike lv lv' -> y ∈ lv_elems lv <-> y ∈ lv_elems lv'.
  Proof. destruct lv, lv'; cbn; try done; [by intros ->|by intros [_ ->]|by intros ->]. Qed.
  Lemma alike_has_link n n' l y : alike n n' -> has_link n l y -> has_link n' l y.
  Proof.
    intros (Hv&_&HF) (Hy&Hvl&lv&Hlv&Hin). split; [done|]. split; [congruence|].
    destruct (Forall2_lookup_l _ _ _ _ _ HF Hlv) as (lv'&Hlv'&Ha). exists lv'. split; [done|]. by apply (lv_alike_elems lv lv').
  Qed.
  Lemma alike_link_iff n n' l y : alike n n' -> has_link n l y <-> has_link n' l y.
  Proof. intros H. split; apply alike_has_link; [done|by apply alike_sym]. Qed.

  Lemma set_remove_perm k k' x l l' : st_kind k = st_kind k' -> l ≡ₚ l' -> set_remove k x l ≡ₚ set_remove k' x l'.
  Proof.
    intros Hk H. unfold set_remove.
    assert (oset_del x l ≡ₚ oset_del x l') as Hd.
    { destruct (decide (x ∈ l)) as [Hx|Hx].
      - assert (x ∈ l') as Hx' by by rewrite <- H. apply (Permutation_cons_inv (a := x)).
        by rewrite <- !oset_del_perm.
      - assert (x ∉ l') as Hx' by by rewrite <- H. by rewrite !oset_del_notin. }
    assert (oset_shift x l ≡ₚ oset_shift x l') as Hs by (unfold oset_shift; by rewrite H).
    rewrite <- Hk. destruct (st_kind k); done.
  Qed.
  Lemma sorted_insert_perm x l : sorted_insert x l ≡ₚ x :: l.
  Proof.
    induction l as [|y l IH]; [done|]. cbn. destruct (_ <? _)%N; [done|]. rewrite IH. apply Permutation_swap.
  Qed.
  Lemma set_insert_perm k k' x l l' : st_kind k = st_kind k' -> l ≡ₚ l' -> set_insert k x l ≡ₚ set_insert k' x l'.
  Proof.
    intros Hk H. unfold set_insert. rewrite <- Hk. destruct (decide (x ∈ l)) as [Hx|Hx].
    - rewrite decide_True; [done|by rewrite <- H].
    - rewrite decide_False by by rewrite <- H. destruct (st_kind k); rewrite ?sorted_insert_perm; by rewrite H.
  Qed.
  Lemma lv_redirect_alike o z lv lv' : lv_alike lv lv' -> lv_alike (lv_redirect o z lv) (lv_redirect o z lv').
  Proof.
    destruct lv as [i|k l|l], lv' as [i'|k' l'|l']; cbn; try done.
    - by intros ->.
    - intros [Hk H]. destruct (decide (o ∈ l)) as [Ho|Ho].
      + rewrite (decide_True (P := o ∈ l')) by by rewrite <- H. destruct (decide (z = 0%N)); cbn; (split; [done|]).
        * by apply set_remove_perm.
        * by apply set_insert_perm; [|apply set_remove_perm].
      + rewrite (decide_False (P := o ∈ l')) by by rewrite <- H. by split.
    - by intros ->.
  Qed.
  Lemma node_redirect_alike o z n n' : alike n n' -> alike (node_redirect o z n) (node_redirect o z n').
  Proof.
    intros (Hv&Hd&HF). split; [done|]. split; [done|]. cbn. apply Forall2_fmap. eapply Forall2_impl; [done|]. apply lv_redirect_alike.
  Qed.
  Lemma node_redirects_alike reps n n' : alike n n' -> alike (node_redirects reps n) (node_redirects reps n').
  Proof. revert n n'. induction reps as [|[o z] reps IH]; intros n n' H; [done|]. cbn. apply IH. by apply node_redirect_alike. Qed.

  (** ** Commits *)
  Definition malike m m' : Prop := forall i, option_Forall2 alike (m !! i) (m' !! i).
  Lemma malike_fmap (f : node D -> node D) m m' : (forall n n', alike n n' -> alike (f n) (f n')) -> malike m m' -> malike (f <$> m) (f <$> m').
  Proof. intros Hf H i. rewrite !lookup_fmap. destruct (H i); cbn; constructor; auto. Qed.
  Lemma malike_insert i n n' m m' : alike n n' -> malike m m' -> malike (<[i := n]> m) (<[i := n']> m').
  Proof. intros Hn H j. destruct (decide (j = i)) as [->|Hne]; [rewrite !lookup_insert; by constructor|]. by rewrite !lookup_insert_ne. Qed.
  Lemma malike_delete i m m' : malike m m' -> malike (delete i m) (delete i m').
  Proof. intros H j. destruct (decide (j = i)) as [->|Hne]; [rewrite !lookup_delete; by constructor|]. by rewrite !lookup_delete_ne. Qed.
  Lemma malike_union m1 m2 m1' m2' : malike m1 m1' -> malike m2 m2' -> malike (m1 ∪ m2) (m1' ∪ m2').
  Proof. intros H1 H2 i. rewrite !lookup_union. destruct (H1 i), (H2 i); cbn; by constructor. Qed.

  (** a closure that cannot see the order inside sets: alike arguments give alike results *)
  Definition mut_blind (f : node D -> out (node D) unit) : Prop :=
    forall n n' a b, alike n n' -> f n = Done a tt -> f n' = Done b tt -> alike a b.
  Definition upd_blind (f : node D -> res (node D)) : Prop :=
    forall n n' a b, alike n n' -> f n = Ok a -> f n' = Ok b -> alike a b.

  Lemma sp_redirect_alike reps m m' m1 m1' : malike m m' -> sp_redirect reps m m1 -> sp_redirect reps m' m1' -> malike m1 m1'.
  Proof.
    intros H (r&Hr&->) (r'&Hr'&->). assert (r' = r) as -> by by eapply redir_resolved_det.
    apply malike_fmap; [|done]. intros n n'. apply node_redirects_alike.
  Qed.
  Lemma sp_mutates_alike fs m m' m1 m1' : (forall i f, (i, f) ∈ fs -> mut_blind f) -> malike m m' ->
    sp_mutates fs m = Some m1 -> sp_mutates fs m' = Some m1' -> malike m1 m1'.
  Proof.
    revert m m'. induction fs as [|[i f] fs IH]; intros m m' Hf H; cbn; [by intros [= <-] [= <-]|].
    destruct (H i) as [n n' Hn|]; [|done]. destruct (f n) as [a []|] eqn:Ha; [|done]. destruct (f n') as [b []|] eqn:Hb; [|done].
    apply IH; [intros j h Hj; apply (Hf j h); by right|]. apply malike_insert; [|done]. eapply (Hf i f); [left|done..].
  Qed.
  Lemma sp_updates_alike fs m m' m1 m1' : (forall i f, (i, f) ∈ fs -> upd_blind f) -> malike m m' ->
    sp_updates fs m = Some m1 -> sp_updates fs m' = Some m1' -> malike m1 m1'.
  Proof.
    revert m m'. induction fs as [|[i f] fs IH]; intros m m' Hf H; cbn; [by intros [= <-] [= <-]|].
    destruct (H i) as [n n' Hn|]; [|done]. destruct (f n) as [a|] eqn:Ha; [|done]. destruct (f n') as [b|] eqn:Hb; [|done].
    apply IH; [intros j h Hj; apply (Hf j h); by right|]. apply malike_insert; [|done]. eapply (Hf i f); [left|done..].
  Qed.
  Lemma sp_removes_alike xs m m' m1 m1' : malike m m' -> sp_removes xs m = Some m1 -> sp_removes xs m' = Some m1' -> malike m1 m1'.
  Proof.
    revert m m'. induction xs as [|x xs IH]; intros m m' H; cbn; [by intros [= <-] [= <-]|].
    destruct (H x) as [n n' Hn|]; [|done]. apply IH. unfold sp_remove. apply malike_fmap; [|by apply malike_delete].
    intros a b. apply node_redirect_alike.
  Qed.

  Record ts_alike (s s' : tspec D) : Prop := {
    ta_res : ts_res s = ts_res s';
    ta_new : malike (ts_new s) (ts_new s');
    ta_del : ts_del s = ts_del s';
    ta_mut : ts_mut s = ts_mut s';
    ta_upd : ts_upd s = ts_upd s';
    ta_redir_all : ts_redir_all s = ts_redir_all s';
    ta_redir : ts_redir s = ts_redir s';
    ta_mut_blind : forall i f, (i, f) ∈ ts_mut s -> mut_blind f;
    ta_upd_blind : forall i f, (i, f) ∈ ts_upd s -> upd_blind f }.

  Lemma sp_commit_alike s s' m m' m1 m1' : ts_alike s s' -> malike m m' ->
    sp_commit (ts_txn s) m m1 -> sp_commit (ts_txn s') m' m1' -> malike m1 m1'.
  Proof.
    intros [] H (a1&a2&a3&a4&H1&H2&H3&H4&H5) (b1&b2&b3&b4&K1&K2&K3&K4&K5). cbn in *.
    eapply sp_removes_alike; [|exact H5|by rewrite ta_del0].
    eapply sp_redirect_alike; [|exact H4|by rewrite ta_redir_all0].
    eapply sp_updates_alike; [done| |exact H3|by rewrite ta_upd0].
    eapply sp_mutates_alike; [done| |exact H2|by rewrite ta_mut0].
    apply malike_union; [done|]. eapply sp_redirect_alike; [exact H|exact H1|by rewrite ta_redir0].
  Qed.

  (** ** Transactions *)
  Lemma ts_alike_empty : ts_alike ts_empty ts_empty.
  Proof. split; try done; [intros i; cbn [ts_new ts_empty]; rewrite lookup_empty; constructor|by intros i f ?%elem_of_nil..]. Qed.
  Lemma ts_alike_put s s' i n n' : ts_alike s s' -> alike n n' -> ts_alike (ts_put s i n) (ts_put s' i n').
  Proof. intros [] Hn. split; cbn; try done; [by f_equal|by apply malike_insert]. Qed.

  Inductive ev_alike : tevent D -> tevent D -> Prop :=
  | ea_call i c : (forall j f, c = CMutate j f -> mut_blind f) -> (forall j f, c = CUpdate j f -> upd_blind f) -> ev_alike (EvCall i c) (EvCall i c)
  | ea_merge m m' : malike m m' -> ev_alike (EvMerge m) (EvMerge m').
  Lemma ts_event_alike e e' s s' s1 s1' : ev_alike e e' -> ts_alike s s' ->
    ts_event s e = Some s1 -> ts_event s' e' = Some s1' -> ts_alike s1 s1'.
  Proof.
    intros He Hs. pose proof Hs as []. destruct He as [i c Hm Hu|m m' Hmm]; cbn.
    - destruct c as [n|v| |j n|j n|j|j f|j f|o z|o z]; cbn.
      + intros [= <-] [= <-]. apply ts_alike_put; [done|apply alike_refl].
      + intros [= <-] [= <-]. split; cbn; try done. by rewrite ta_res0.
      + intros [= <-] [= <-]. split; cbn; try done. by rewrite ta_res0.
      + rewrite <- ta_res0. destruct (ts_res s !! j) as [[v|]|]; try done. destruct (decide _); [|done].
        intros [= <-] [= <-]. apply ts_alike_put; [done|apply alike_refl].
      + intros [= <-] [= <-]. apply ts_alike_put; [done|apply alike_refl].
      + rewrite <- ta_res0. destruct (ta_new0 j) as [a b Hab|].
        * intros [= <-] [= <-]. split; cbn; try done. by apply malike_delete.
        * destruct (ts_res s !! j); intros [= <-] [= <-]; split; cbn; try done. by rewrite ta_del0.
      + destruct (ta_new0 j) as [a b Hab|].
        * destruct (f a) as [a' []|] eqn:Ha; [|done]. destruct (f b) as [b' []|] eqn:Hb; [|done]. intros [= <-] [= <-].
          apply ts_alike_put; [done|]. by eapply (Hm j f).
        * intros [= <-] [= <-]. split; cbn; try done; [by rewrite ta_mut0|].
          intros i' f' [?|[= -> ->]%elem_of_list_singleton]%elem_of_app; [by eapply ta_mut_blind0|by eapply Hm].
      + destruct (ta_new0 j) as [a b Hab|].
        * destruct (f a) as [a'|] eqn:Ha; [|done]. destruct (f b) as [b'|] eqn:Hb; [|done]. intros [= <-] [= <-].
          apply ts_alike_put; [done|]. by eapply (Hu j f).
        * intros [= <-] [= <-]. split; cbn; try done; [by rewrite ta_upd0|].
          intros i' f' [?|[= -> ->]%elem_of_list_singleton]%elem_of_app; [by eapply ta_upd_blind0|by eapply Hu].
      + intros [= <-] [= <-]. split; cbn; try done. by rewrite ta_redir0.
      + intros [= <-] [= <-]. split; cbn; try done. by rewrite ta_redir_all0.
    - intros [= <-] [= <-]. split; cbn; try done. by apply malike_union.
  Qed.

  (** ** Maintenance of bidirectional links *)
  (** The nodes [m], [m'] are alike before the maintenance, [n] and [n'] have the same links
      after it *)
  Lemma alike_maintained E E' (m m' n n' : node D) : e_kinds E = e_kinds E' -> (forall l, e_opp E l = e_opp E' l) -> bidi_fields E ->
    alike m m' -> node_ok E n -> node_ok E' n' -> agree_nonbidi E m n -> agree_nonbidi E' m' n' ->
    (forall s, src_val n s 0%N <-> src_val m s 0%N) -> (forall s, src_val n' s 0%N <-> src_val m' s 0%N) ->
    (forall l y, has_link n l y <-> has_link n' l y) -> alike n n'.
  Proof.
    intros Hke Ho Hbf Hmm Hok Hok' (Hv&Hd&Hf) (Hv'&Hd'&Hf') Hz Hz' Hl. pose proof Hmm as (Hvm&Hdm&HFm).
    split; [congruence|]. split; [congruence|].
    destruct Hok as (ks&Hks&HF), Hok' as (ks'&Hks'&HF'). assert (ks' = ks) as -> by congruence.
    assert (length (nlinks n) = length (nlinks n')) as Hlen by (rewrite <- (Forall2_length _ _ _ HF), <- (Forall2_length _ _ _ HF'); done).
    apply Forall2_same_length_lookup_2; [done|]. intros f lv lv' Hlv Hlv'.
    destruct (Forall2_lookup_r _ _ _ _ _ HF Hlv) as (k&Hk&Hkv&Hs). destruct (Forall2_lookup_r _ _ _ _ _ HF' Hlv') as (k'&Hk'&Hkv'&Hs').
    assert (k' = k) as -> by congruence. rewrite <- Hkv in Hkv'.
    assert (forall y, y <> 0%N -> y ∈ lv_elems lv <-> y ∈ lv_elems lv') as Hel.
    { intros y Hy. specialize (Hl (Link (nvar n) f) y). split; intros Hin.
      - destruct (proj1 Hl) as (_&_&lv2&Hlv2&Hin2); [split; [done|]; split; [done|]; by exists lv|]. cbn in Hlv2. congruence.
      - destruct (proj2 Hl) as (_&_&lv2&Hlv2&Hin2); [split; [done|]; split; [cbn; congruence|]; by exists lv'|]. cbn in Hlv2. congruence. }
    destruct lv as [i|st l|l], lv' as [i'|st' l'|l']; cbn in Hkv', Hel, Hs, Hs' |- *; try done.
    - destruct (decide (i = 0%N)) as [->|Hi].
      + destruct (decide (i' = 0%N)) as [->|Hi']; [done|]. pose proof (proj2 (Hel i' Hi')). set_solver.
      + pose proof (proj1 (Hel i Hi)). set_solver.
    - split; [congruence|]. apply NoDup_Permutation; [by apply set_rep_nd in Hs|by apply set_rep_nd in Hs'|]. intros y. destruct (decide (y = 0%N)) as [->|Hy]; [|by apply Hel].
      assert (0%N ∈ l <-> src_val n (Src (nvar n) f None) 0%N) as -> by (unfold src_val; cbn; rewrite Hlv; naive_solver).
      assert (0%N ∈ l' <-> src_val n' (Src (nvar n) f None) 0%N) as -> by (unfold src_val; cbn; rewrite Hlv'; naive_solver congruence).
      rewrite Hz, Hz'. unfold src_val. cbn. rewrite Hvm. apply and_iff_compat_l.
      destruct (nlinks m !! f) as [lm|] eqn:Hm, (nlinks m' !! f) as [lm'|] eqn:Hm'.
      + pose proof (Forall2_lookup_lr _ _ _ _ _ _ HFm Hm Hm') as Ha. destruct lm, lm'; cbn in Ha; try done; [naive_solver|]. destruct Ha as [_ ->]. done.
      + eapply Forall2_lookup_l in Hm as (?&?&_); [|exact HFm]. congruence.
      + eapply Forall2_lookup_r in Hm' as (?&?&_); [|exact HFm]. congruence.
      + done.
    - assert (linkkind E (Link (nvar n) f) = Some KVec) as Hkd by (unfold linkkind; cbn; rewrite Hks; cbn; rewrite Hk, <- Hkv; done).
      assert (~ declared E (Link (nvar n) f)) as Hnd by (intros (l0&Hl0); destruct (Hbf _ _ Hl0) as [_ [?|[? ?]]]; congruence).
      rewrite Hf in Hlv by by rewrite <- Hv.
      rewrite Hf' in Hlv'. 2:{ intros (l0&Hl0). apply Hnd. exists l0. rewrite Ho, Hv, Hvm. done. }
      pose proof (Forall2_lookup_lr _ _ _ _ _ _ HFm Hlv Hlv') as Ha. by cbn in Ha.
  Qed.
End alike.
