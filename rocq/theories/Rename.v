(** * The numbers behind indices do not matter

    Two programs, a part of which makes the same calls but gets other indices, because the
    rest of the programs takes different indices from the same contexts. *)
From stdpp Require Export gmap.
From Verif Require Export Threads AlikeRuns TransFinal Known.

(** the link value, node with every index [i] replaced by [f i], up to the order inside sets *)
Definition lv_renamed (f : idx -> idx) (lv lv' : linkval) : Prop :=
  match lv, lv' with
  | LDirect i, LDirect i' => i' = f i
  | LSet k l, LSet k' l' => st_kind k = st_kind k' /\ l' ≡ₚ f <$> l
  | LVec l, LVec l' => l' = f <$> l
  | _, _ => False
  end.
Definition renamed {D} (f : idx -> idx) (n n' : node D) : Prop :=
  nvar n = nvar n' /\ ndata n = ndata n' /\ Forall2 (lv_renamed f) (nlinks n) (nlinks n').
(** a renaming: a bijection that keeps the empty index *)
Record renaming (f : idx -> idx) : Prop := {
  rn_inj : forall x y, f x = f y -> x = y;
  rn_sur : forall y, exists x, y = f x;
  rn_zero : f 0%N = 0%N }.
(** closures that do the same up to the renaming *)
Definition mut_renamed {D} (f : idx -> idx) (h h' : node D -> out (node D) unit) : Prop :=
  forall n n' a b, renamed f n n' -> h n = Done a tt -> h' n' = Done b tt -> renamed f a b.
Definition upd_renamed {D} (f : idx -> idx) (h h' : node D -> res (node D)) : Prop :=
  forall n n' a b, renamed f n n' -> h n = Ok a -> h' n' = Ok b -> renamed f a b.

Section rename.
  Context {D : Type} (f : idx -> idx) (Hf : renaming f).
  Implicit Types (n : node D) (m : gmap N (node D)).

  Local Instance f_Inj : Inj (=) (=) f.
  Proof using Hf. intros x y. apply (rn_inj f Hf). Qed.
  Lemma f_zero x : f x = 0%N <-> x = 0%N.
  Proof using Hf. rewrite <- (rn_zero f Hf) at 1. split; [apply (rn_inj f Hf)|by intros ->]. Qed.
  Lemma f_elem x (l : list idx) : f x ∈ f <$> l <-> x ∈ l.
  Proof using Hf. rewrite elem_of_list_fmap. split; [intros (y&->%(rn_inj f Hf)&?); done|intros; by exists x]. Qed.

  Lemma lv_renamed_elems lv lv' y : lv_renamed f lv lv' -> f y ∈ lv_elems lv' <-> y ∈ lv_elems lv.
  Proof using Hf.
    destruct lv as [i|k l|l], lv' as [i'|k' l'|l']; cbn; try done.
    - intros ->. rewrite !elem_of_list_singleton. split; [apply (rn_inj f Hf)|by intros ->].
    - intros [_ ->]. apply f_elem.
    - intros ->. apply f_elem.
  Qed.
  Lemma renamed_link n n' l y : renamed f n n' -> has_link n' l (f y) <-> has_link n l y.
  Proof using Hf.
    intros (Hv&_&HF). unfold has_link. rewrite f_zero, Hv. split; intros (Hy&Hvl&lv&Hlv&Hin); (split; [done|]; split; [done|]).
    - destruct (Forall2_lookup_r _ _ _ _ _ HF Hlv) as (lv'&Hlv'&Ha). exists lv'. split; [done|]. by apply (lv_renamed_elems lv' lv).
    - destruct (Forall2_lookup_l _ _ _ _ _ HF Hlv) as (lv'&Hlv'&Ha). exists lv'. split; [done|]. by apply (lv_renamed_elems lv lv').
  Qed.

  Lemma set_remove_fmap k x l : set_remove k (f x) (f <$> l) ≡ₚ f <$> set_remove k x l.
  Proof using Hf.
    assert (oset_del (f x) (f <$> l) ≡ₚ f <$> oset_del x l) as Hd.
    { destruct (decide (x ∈ l)) as [Hx|Hx].
      - apply (Permutation_cons_inv (a := f x)). rewrite <- oset_del_perm by by apply f_elem.
        rewrite <- fmap_cons. by rewrite <- oset_del_perm.
      - rewrite !oset_del_notin; [done|done|]. by rewrite f_elem. }
    assert (oset_shift (f x) (f <$> l) = f <$> oset_shift x l) as Hs.
    { unfold oset_shift. clear Hd. induction l as [|y l IH]; [done|]. rewrite fmap_cons. destruct (decide (y = x)) as [->|Hne].
      - rewrite !filter_cons_False by (intros Hn; by apply Hn). apply IH.
      - rewrite !filter_cons_True; [|done|by intros ?%(rn_inj f Hf)]. rewrite fmap_cons. by f_equal. }
    unfold set_remove. destruct (st_kind k); rewrite ?Hs; done.
  Qed.
  Lemma set_insert_fmap k x l : set_insert k (f x) (f <$> l) ≡ₚ f <$> set_insert k x l.
  Proof using Hf.
    unfold set_insert. destruct (decide (x ∈ l)) as [Hx|Hx].
    - by rewrite decide_True by by apply f_elem.
    - rewrite decide_False by by rewrite f_elem. destruct (st_kind k); rewrite ?sorted_insert_perm, ?fmap_app; cbn; done.
  Qed.
  Lemma lv_redirect_renamed o z lv lv' : lv_renamed f lv lv' -> lv_renamed f (lv_redirect o z lv) (lv_redirect (f o) (f z) lv').
  Proof using Hf.
    destruct lv as [i|k l|l], lv' as [i'|k' l'|l']; cbn; try done.
    - intros ->. destruct (decide (i = o)) as [->|Hn]; [by rewrite decide_True|]. rewrite decide_False; [done|]. by intros ?%(rn_inj f Hf).
    - intros [Hk H]. destruct (decide (o ∈ l)) as [Ho|Ho].
      + rewrite (decide_True (P := f o ∈ l')) by (rewrite H; by apply f_elem). destruct (decide (z = 0%N)) as [Hz|Hz].
        * rewrite decide_True by by apply f_zero. cbn. split; [done|]. rewrite <- set_remove_fmap. by apply set_remove_perm.
        * rewrite decide_False by by rewrite f_zero. cbn. split; [done|]. rewrite <- set_insert_fmap. apply set_insert_perm; [done|].
          rewrite <- set_remove_fmap. by apply set_remove_perm.
      + rewrite (decide_False (P := f o ∈ l')) by (rewrite H; by rewrite f_elem). by split.
    - intros ->. rewrite <- !list_fmap_compose. apply list_fmap_ext. intros _ i _. cbn.
      destruct (decide (i = o)) as [->|Hn]; [by rewrite decide_True|]. rewrite decide_False; [done|]. by intros ?%(rn_inj f Hf).
  Qed.
  Lemma node_redirect_renamed o z n n' : renamed f n n' -> renamed f (node_redirect o z n) (node_redirect (f o) (f z) n').
  Proof using Hf.
    intros (Hv&Hd&HF). split; [done|]. split; [done|]. cbn. apply Forall2_fmap. eapply Forall2_impl; [done|]. apply lv_redirect_renamed.
  Qed.
  Definition rp : idx * idx -> idx * idx := prod_map f f.
  Lemma node_redirects_renamed reps n n' : renamed f n n' -> renamed f (node_redirects reps n) (node_redirects (rp <$> reps) n').
  Proof using Hf. revert n n'. induction reps as [|[o z] reps IH]; intros n n' H; [done|]. cbn. apply IH. by apply node_redirect_renamed. Qed.

  (** ** Redirections *)
  Definition pmap (P : gmap N idx) : gmap N idx := kmap f (f <$> P).
  Lemma pmap_lookup P x : pmap P !! f x = f <$> P !! x.
  Proof using Hf. unfold pmap. by rewrite (lookup_kmap f), lookup_fmap. Qed.
  Lemma leads_renamed P x z : leads P x z -> leads (pmap P) (f x) (f z).
  Proof using Hf.
    intros [Hr Hn]. split; [|by rewrite pmap_lookup, Hn]. clear Hn. induction Hr as [x|x y z Hxy _ IH]; [constructor|].
    eapply rtc_l; [|exact IH]. by rewrite pmap_lookup, Hxy.
  Qed.
  Lemma ptrs_renamed reps P : redir_ptrs reps P -> redir_ptrs (rp <$> reps) (pmap P).
  Proof using Hf.
    induction 1 as [|reps P old new z _ IH Hl Hn].
    - assert (pmap ∅ = ∅) as ->; [|constructor]. unfold pmap. by rewrite fmap_empty, kmap_empty.
    - rewrite fmap_app. cbn. assert (pmap (<[old := z]> P) = <[f old := f z]> (pmap P)) as ->.
      { unfold pmap. by rewrite fmap_insert, (kmap_insert f). }
      eapply ptrs_snoc; [done|by apply leads_renamed|]. by intros ?%(rn_inj f Hf).
  Qed.
  Lemma resolved_renamed reps res : redir_resolved reps res -> redir_resolved (rp <$> reps) (rp <$> res).
  Proof using Hf.
    intros (P&HP&HF). exists (pmap P). split; [by apply ptrs_renamed|]. apply Forall2_fmap. eapply Forall2_impl; [exact HF|].
    intros [a b] [a' b'] [Ha Hb]. cbn in *. split; [by rewrite Ha|]. by apply leads_renamed.
  Qed.

  (** ** Commits *)
  Definition mrenamed m m' : Prop := forall i, option_Forall2 (renamed f) (m !! i) (m' !! f i).
  Lemma mrenamed_fmap (h h' : node D -> node D) m m' : (forall n n', renamed f n n' -> renamed f (h n) (h' n')) -> mrenamed m m' -> mrenamed (h <$> m) (h' <$> m').
  Proof. intros Hh H i. rewrite !lookup_fmap. destruct (H i); cbn; constructor; auto. Qed.
  Lemma mrenamed_insert i n n' m m' : renamed f n n' -> mrenamed m m' -> mrenamed (<[i := n]> m) (<[f i := n']> m').
  Proof using Hf.
    intros Hn H j. destruct (decide (j = i)) as [->|Hne]; [rewrite !lookup_insert; by constructor|].
    rewrite !lookup_insert_ne; [apply H|by intros ?%(rn_inj f Hf)|done].
  Qed.
  Lemma mrenamed_delete i m m' : mrenamed m m' -> mrenamed (delete i m) (delete (f i) m').
  Proof using Hf.
    intros H j. destruct (decide (j = i)) as [->|Hne]; [rewrite !lookup_delete; by constructor|].
    rewrite !lookup_delete_ne; [apply H|by intros ?%(rn_inj f Hf)|done].
  Qed.
  Lemma mrenamed_union m1 m2 m1' m2' : mrenamed m1 m1' -> mrenamed m2 m2' -> mrenamed (m1 ∪ m2) (m1' ∪ m2').
  Proof. intros H1 H2 i. rewrite !lookup_union. destruct (H1 i), (H2 i); cbn; by constructor. Qed.

  Lemma sp_redirect_renamed reps m m' m1 m1' : mrenamed m m' -> sp_redirect reps m m1 -> sp_redirect (rp <$> reps) m' m1' -> mrenamed m1 m1'.
  Proof using Hf.
    intros H (r&Hr&->) (r'&Hr'&->). assert (r' = rp <$> r) as -> by (eapply redir_resolved_det; [done|by apply resolved_renamed]).
    apply mrenamed_fmap; [|done]. intros n n'. apply node_redirects_renamed.
  Qed.
  Definition muts_renamed (a b : idx * (node D -> out (node D) unit)) : Prop := b.1 = f a.1 /\ mut_renamed f a.2 b.2.
  Definition upds_renamed (a b : idx * (node D -> res (node D))) : Prop := b.1 = f a.1 /\ upd_renamed f a.2 b.2.
  Lemma sp_mutates_renamed fs fs' m m' m1 m1' : Forall2 muts_renamed fs fs' -> mrenamed m m' ->
    sp_mutates fs m = Some m1 -> sp_mutates fs' m' = Some m1' -> mrenamed m1 m1'.
  Proof using Hf.
    intros HF. revert m m'. induction HF as [|[i h] [i' h'] fs fs' [Hi Hh] _ IH]; intros m m' H; cbn; [by intros [= <-] [= <-]|]. cbn in Hi, Hh. subst i'.
    destruct (H i) as [n n' Hn|]; [|done]. destruct (h n) as [a []|] eqn:Ha; [|done]. destruct (h' n') as [b []|] eqn:Hb; [|done].
    apply IH. apply mrenamed_insert; [|done]. by eapply Hh.
  Qed.
  Lemma sp_updates_renamed fs fs' m m' m1 m1' : Forall2 upds_renamed fs fs' -> mrenamed m m' ->
    sp_updates fs m = Some m1 -> sp_updates fs' m' = Some m1' -> mrenamed m1 m1'.
  Proof using Hf.
    intros HF. revert m m'. induction HF as [|[i h] [i' h'] fs fs' [Hi Hh] _ IH]; intros m m' H; cbn; [by intros [= <-] [= <-]|]. cbn in Hi, Hh. subst i'.
    destruct (H i) as [n n' Hn|]; [|done]. destruct (h n) as [a|] eqn:Ha; [|done]. destruct (h' n') as [b|] eqn:Hb; [|done].
    apply IH. apply mrenamed_insert; [|done]. by eapply Hh.
  Qed.
  Lemma sp_removes_renamed xs m m' m1 m1' : mrenamed m m' -> sp_removes xs m = Some m1 -> sp_removes (f <$> xs) m' = Some m1' -> mrenamed m1 m1'.
  Proof using Hf.
    revert m m'. induction xs as [|x xs IH]; intros m m' H; cbn; [by intros [= <-] [= <-]|].
    destruct (H x) as [n n' Hn|]; [|done]. apply IH. unfold sp_remove. apply mrenamed_fmap; [|by apply mrenamed_delete].
    intros a b Hab. pose proof (node_redirect_renamed x 0%N a b Hab) as H'. by rewrite (rn_zero f Hf) in H'.
  Qed.

  Record ts_renamed (s s' : tspec D) : Prop := {
    tr_res : forall i, ts_res s' !! f i = ts_res s !! i;
    tr_new : mrenamed (ts_new s) (ts_new s');
    tr_del : ts_del s' = f <$> ts_del s;
    tr_mut : Forall2 muts_renamed (ts_mut s) (ts_mut s');
    tr_upd : Forall2 upds_renamed (ts_upd s) (ts_upd s');
    tr_redir_all : ts_redir_all s' = rp <$> ts_redir_all s;
    tr_redir : ts_redir s' = rp <$> ts_redir s }.

  Lemma sp_commit_renamed s s' m m' m1 m1' : ts_renamed s s' -> mrenamed m m' ->
    sp_commit (ts_txn s) m m1 -> sp_commit (ts_txn s') m' m1' -> mrenamed m1 m1'.
  Proof using Hf.
    intros [] H (a1&a2&a3&a4&H1&H2&H3&H4&H5) (b1&b2&b3&b4&K1&K2&K3&K4&K5). cbn in *.
    eapply sp_removes_renamed; [|exact H5|by rewrite <- tr_del0].
    eapply sp_redirect_renamed; [|exact H4|by rewrite <- tr_redir_all0].
    eapply sp_updates_renamed; [done| |exact H3|done].
    eapply sp_mutates_renamed; [done| |exact H2|done].
    apply mrenamed_union; [done|]. eapply sp_redirect_renamed; [exact H|exact H1|by rewrite <- tr_redir0].
  Qed.

  (** ** Transactions *)
  Lemma ts_renamed_empty : ts_renamed ts_empty ts_empty.
  Proof. split; try done; [intros i; cbn [ts_new ts_empty]; rewrite !lookup_empty; constructor|constructor..]. Qed.
  Lemma res_delete (r r' : gmap N (option nat)) j : (forall i, r' !! f i = r !! i) -> forall i, delete (f j) r' !! f i = delete j r !! i.
  Proof using Hf.
    intros H i. destruct (decide (i = j)) as [->|Hn]; [by rewrite !lookup_delete|]. rewrite !lookup_delete_ne; [done|done|by intros ?%(rn_inj f Hf)].
  Qed.
  Lemma res_insert (r r' : gmap N (option nat)) j v : (forall i, r' !! f i = r !! i) -> forall i, <[f j := v]> r' !! f i = <[j := v]> r !! i.
  Proof using Hf.
    intros H i. destruct (decide (i = j)) as [->|Hn]; [by rewrite !lookup_insert|]. rewrite !lookup_insert_ne; [done|done|by intros ?%(rn_inj f Hf)].
  Qed.
  Lemma ts_renamed_put s s' i n n' : ts_renamed s s' -> renamed f n n' -> ts_renamed (ts_put s i n) (ts_put s' (f i) n').
  Proof using Hf. intros [] Hn. split; cbn; try done; [by apply res_delete|by apply mrenamed_insert]. Qed.

  (** the same call with renamed indices *)
  Definition call_renamed (c c' : tcall D) : Prop :=
    match c, c' with
    | CInsert n, CInsert n' => renamed f n n'
    | CAlloc v, CAlloc v' => v' = v
    | CAllocUntyped, CAllocUntyped => True
    | CFill i n, CFill i' n' => i' = f i /\ renamed f n n'
    | CFillUntyped i n, CFillUntyped i' n' => i' = f i /\ renamed f n n'
    | CRemove i, CRemove i' => i' = f i
    | CMutate i h, CMutate i' h' => i' = f i /\ mut_renamed f h h'
    | CUpdate i h, CUpdate i' h' => i' = f i /\ upd_renamed f h h'
    | CRedirect a b, CRedirect a' b' => a' = f a /\ b' = f b
    | CRedirectAll a b, CRedirectAll a' b' => a' = f a /\ b' = f b
    | _, _ => False
    end.
  Definition ev_renamed (e e' : tevent D) : Prop :=
    match e, e' with
    | EvCall i c, EvCall i' c' => i' = f i /\ call_renamed c c'
    | EvMerge m, EvMerge m' => mrenamed m m'
    | _, _ => False
    end.
  Lemma ts_event_renamed e e' s s' s1 s1' : ev_renamed e e' -> ts_renamed s s' ->
    ts_event s e = Some s1 -> ts_event s' e' = Some s1' -> ts_renamed s1 s1'.
  Proof using Hf.
    intros He Hs. pose proof Hs as []. destruct e as [i c|m], e' as [i' c'|m']; cbn in He; try done.
    - destruct He as [-> Hc]. cbn.
      destruct c as [n|v| |j n|j n|j|j h|j h|o z|o z], c' as [n'|v'| |j' n'|j' n'|j'|j' h'|j' h'|o' z'|o' z']; cbn in Hc |- *; try done.
      + intros [= <-] [= <-]. by apply ts_renamed_put.
      + subst. intros [= <-] [= <-]. split; cbn; try done. by apply res_insert.
      + intros [= <-] [= <-]. split; cbn; try done. by apply res_insert.
      + destruct Hc as [-> Hn]. rewrite tr_res0. destruct (ts_res s !! j) as [[v|]|]; try done. rewrite <- (proj1 Hn). destruct (decide _); [|done].
        intros [= <-] [= <-]. by apply ts_renamed_put.
      + destruct Hc as [-> Hn]. intros [= <-] [= <-]. by apply ts_renamed_put.
      + subst. rewrite tr_res0. destruct (tr_new0 j) as [a b Hab|].
        * intros [= <-] [= <-]. split; cbn; try done. by apply mrenamed_delete.
        * destruct (ts_res s !! j); intros [= <-] [= <-]; split; cbn; try done; [by apply res_delete|]. rewrite tr_del0.
          destruct (decide (j ∈ ts_del s)) as [Hj|Hj]; [by rewrite decide_True by by apply f_elem|]. rewrite decide_False by by rewrite f_elem. by rewrite fmap_app.
      + destruct Hc as [-> Hh]. destruct (tr_new0 j) as [a b Hab|].
        * destruct (h a) as [a' []|] eqn:Ha; [|done]. destruct (h' b) as [b' []|] eqn:Hb; [|done]. intros [= <-] [= <-].
          apply ts_renamed_put; [done|]. by eapply Hh.
        * intros [= <-] [= <-]. split; cbn; try done. apply Forall2_app; [done|]. constructor; [by split|constructor].
      + destruct Hc as [-> Hh]. destruct (tr_new0 j) as [a b Hab|].
        * destruct (h a) as [a'|] eqn:Ha; [|done]. destruct (h' b) as [b'|] eqn:Hb; [|done]. intros [= <-] [= <-].
          apply ts_renamed_put; [done|]. by eapply Hh.
        * intros [= <-] [= <-]. split; cbn; try done. apply Forall2_app; [done|]. constructor; [by split|constructor].
      + destruct Hc as [-> ->]. intros [= <-] [= <-]. split; cbn; try done. by rewrite tr_redir0, fmap_app.
      + destruct Hc as [-> ->]. intros [= <-] [= <-]. split; cbn; try done. by rewrite tr_redir_all0, fmap_app.
    - intros [= <-] [= <-]. split; cbn; try done. by apply mrenamed_union.
  Qed.
  Lemma ts_run_renamed L L' (s s' s1 s1' : tspec D) : Forall2 ev_renamed L L' -> ts_renamed s s' ->
    ts_run s L = Some s1 -> ts_run s' L' = Some s1' -> ts_renamed s1 s1'.
  Proof using Hf.
    intros HF. revert s s'. induction HF as [|e e' L L' He HF IH]; intros s s' Hs; cbn; [by intros [= <-] [= <-]|].
    destruct (ts_event s e) as [s2|] eqn:H2; [|done]. destruct (ts_event s' e') as [s2'|] eqn:H2'; [|done].
    apply IH. by eapply ts_event_renamed.
  Qed.

  (** ** Maintenance of bidirectional links *)
  Lemma renamed_maintained E (m m' n n' : node D) : bidi_fields E ->
    renamed f m m' -> node_ok E n -> node_ok E n' -> agree_nonbidi E m n -> agree_nonbidi E m' n' ->
    (forall s, src_val n s 0%N <-> src_val m s 0%N) -> (forall s, src_val n' s 0%N <-> src_val m' s 0%N) ->
    (forall l y, has_link n l y <-> has_link n' l (f y)) -> renamed f n n'.
  Proof using Hf.
    intros Hbf Hmm Hok Hok' (Hv&Hd&Hff) (Hv'&Hd'&Hff') Hz Hz' Hl. pose proof Hmm as (Hvm&Hdm&HFm).
    split; [congruence|]. split; [congruence|].
    destruct Hok as (ks&Hks&HF), Hok' as (ks'&Hks'&HF'). assert (ks' = ks) as -> by congruence.
    assert (length (nlinks n) = length (nlinks n')) as Hlen by (rewrite <- (Forall2_length _ _ _ HF), <- (Forall2_length _ _ _ HF'); done).
    apply Forall2_same_length_lookup_2; [done|]. intros fl lv lv' Hlv Hlv'.
    destruct (Forall2_lookup_r _ _ _ _ _ HF Hlv) as (k&Hk&Hkv&Hs). destruct (Forall2_lookup_r _ _ _ _ _ HF' Hlv') as (k'&Hk'&Hkv'&Hs').
    assert (k' = k) as -> by congruence. rewrite <- Hkv in Hkv'.
    assert (forall y, y <> 0%N -> y ∈ lv_elems lv <-> f y ∈ lv_elems lv') as Hel.
    { intros y Hy. specialize (Hl (Link (nvar n) fl) y). split; intros Hin.
      - destruct (proj1 Hl) as (_&_&lv2&Hlv2&Hin2); [split; [done|]; split; [done|]; by exists lv|]. cbn in Hlv2. congruence.
      - destruct (proj2 Hl) as (_&_&lv2&Hlv2&Hin2); [split; [by rewrite f_zero|]; split; [cbn; congruence|]; by exists lv'|]. cbn in Hlv2. congruence. }
    destruct lv as [i|st l|l], lv' as [i'|st' l'|l']; cbn in Hkv', Hel, Hs, Hs' |- *; try done.
    - destruct (rn_sur f Hf i') as [j ->]. f_equal. destruct (decide (i = 0%N)) as [->|Hi].
      + destruct (decide (j = 0%N)) as [->|Hj]; [done|]. assert (j ∈ [0%N]) as H by (apply Hel; [done|left]). by apply elem_of_list_singleton in H.
      + assert (f i ∈ [f j]) as H by (apply Hel; [done|left]). apply elem_of_list_singleton, (rn_inj f Hf) in H. by rewrite H.
    - split; [congruence|]. apply NoDup_Permutation; [by apply set_rep_nd in Hs'|apply NoDup_fmap_2; [apply _|by apply set_rep_nd in Hs]|]. intros y'.
      destruct (rn_sur f Hf y') as [y ->]. rewrite f_elem.
      destruct (decide (y = 0%N)) as [->|Hy]; [|symmetry; by apply Hel]. rewrite (rn_zero f Hf).
      assert (0%N ∈ l <-> src_val n (Src (nvar n) fl None) 0%N) as -> by (unfold src_val; cbn; rewrite Hlv; naive_solver).
      assert (0%N ∈ l' <-> src_val n' (Src (nvar n) fl None) 0%N) as -> by (unfold src_val; cbn; rewrite Hlv'; naive_solver congruence).
      rewrite Hz, Hz'. unfold src_val. cbn. rewrite Hvm. apply and_iff_compat_l.
      destruct (nlinks m !! fl) as [lm|] eqn:Hm, (nlinks m' !! fl) as [lm'|] eqn:Hm'.
      + pose proof (Forall2_lookup_lr _ _ _ _ _ _ HFm Hm Hm') as Ha. destruct lm, lm'; cbn in Ha; try done; [naive_solver|].
        destruct Ha as [_ ->]. rewrite <- (rn_zero f Hf) at 1. apply f_elem.
      + eapply Forall2_lookup_l in Hm as (?&?&_); [|exact HFm]. congruence.
      + eapply Forall2_lookup_r in Hm' as (?&?&_); [|exact HFm]. congruence.
      + done.
    - assert (linkkind E (Link (nvar n) fl) = Some KVec) as Hkd by (unfold linkkind; cbn; rewrite Hks; cbn; rewrite Hk, <- Hkv; done).
      assert (~ declared E (Link (nvar n) fl)) as Hnd by (intros (l0&Hl0); destruct (Hbf _ _ Hl0) as [_ [?|[? ?]]]; congruence).
      rewrite Hff in Hlv by by rewrite <- Hv.
      rewrite Hff' in Hlv'. 2:{ intros (l0&Hl0). apply Hnd. exists l0. rewrite Hv, Hvm. done. }
      pose proof (Forall2_lookup_lr _ _ _ _ _ _ HFm Hlv Hlv') as Ha. by cbn in Ha.
  Qed.

  Definition grenamed (g g' : graph D) : Prop := forall i, option_Forall2 (renamed f) (graph_get g i) (graph_get g' (f i)).
  Lemma grenamed_maps g g' m m' : nodes_are g m -> nodes_are g' m' -> grenamed g g' <-> mrenamed m m'.
  Proof. intros H H'. unfold grenamed, mrenamed. by setoid_rewrite H; setoid_rewrite H'. Qed.
  Lemma grenamed_link g g' x y l : grenamed g g' -> in_graph g' (f x) (f y) l <-> in_graph g x y l.
  Proof using Hf.
    intros H. specialize (H x). unfold in_graph. split; intros (n&Hn&Hl); rewrite Hn in H; inversion H as [a b Hab|]; subst; eexists; (split; [done|]); by eapply renamed_link.
  Qed.
  Lemma mrenamed_link m m' x y l : mrenamed m m' -> in_nodes m' (f x) (f y) l <-> in_nodes m x y l.
  Proof using Hf.
    intros H. specialize (H x). unfold in_nodes. split; intros (n&Hn&Hl); rewrite Hn in H; inversion H as [a b Hab|]; subst; eexists; (split; [done|]); by eapply renamed_link.
  Qed.
  Lemma mrenamed_some m m' x : mrenamed m m' -> is_Some (m' !! f x) <-> is_Some (m !! x).
  Proof. intros H. destruct (H x); split; intros [? ?]; eauto; done. Qed.

  Lemma mirrored_renamed E g g' m m' a b k : grenamed g g' -> mrenamed m m' -> mirrored E g' m' (f a) (f b) k <-> mirrored E g m a b k.
  Proof using Hf.
    intros Hg Hm. unfold mirrored, added, dropped.
    repeat setoid_rewrite (mrenamed_link _ _ _ _ _ Hm). repeat setoid_rewrite (grenamed_link _ _ _ _ _ Hg). setoid_rewrite (mrenamed_some _ _ _ Hm).
    apply or_iff_compat_l. apply exist_proper. intros l. specialize (Hm a). split; intros (na&Hl&Ha&Hop); rewrite Ha in Hm; inversion Hm as [x y Hxy|]; subst.
    - exists x. split; [done|]. split; [done|]. by rewrite (proj1 Hxy).
    - exists y. split; [done|]. split; [done|]. by rewrite <- (proj1 Hxy).
  Qed.

  (** a commit of a renamed transaction to a renamed graph *)
  Lemma commit_renamed E (Hbf : bidi_fields E) T g g' t t' s s' g1 g1' : history E T g t s -> history E T g' t' s' -> grenamed g g' -> ts_renamed s s' ->
    commit E t g = Done g1 tt -> commit E t' g' = Done g1' tt -> grenamed g1 g1'.
  Proof using Hf.
    intros Hh Hh' Hg Hs Hc Hc'.
    destruct (history_ok E T g t s Hh) as (Hwf&Hty&Ht&_), (history_ok E T g' t' s' Hh') as (Hwf'&Hty'&Ht'&_).
    destruct (commit_done E T g t Hwf Hty Ht g1 Hc) as (_&g2&r&m&Hcm&_).
    destruct (commit_done E T g' t' Hwf' Hty' Ht' g1' Hc') as (_&g2'&r'&m'&Hcm'&_).
    pose proof (cm_spec _ _ _ _ _ _ _ _ Hcm) as Hsp. rewrite (history_txn E T g t s Hh) in Hsp.
    pose proof (cm_spec _ _ _ _ _ _ _ _ Hcm') as Hsp'. rewrite (history_txn E T g' t' s' Hh') in Hsp'.
    pose proof (history_nodes E T g t s Hh) as Hn. pose proof (history_nodes E T g' t' s' Hh') as Hn'.
    assert (mrenamed m m') as Hm. { eapply sp_commit_renamed; [exact Hs| |exact Hsp|exact Hsp']. by eapply grenamed_maps. }
    pose proof (committed_holds _ _ _ _ _ _ _ _ Hcm) as Hh1. pose proof (committed_holds _ _ _ _ _ _ _ _ Hcm') as Hh1'.
    pose proof (cm_st _ _ _ _ _ _ _ _ Hcm) as Hst. pose proof (cm_st _ _ _ _ _ _ _ _ Hcm') as Hst'.
    assert (forall a b k, glink g1 a b k <-> glink g1' (f a) (f b) k) as Hlk.
    { intros a b k. rewrite (cm_links _ _ _ _ _ _ _ _ Hcm), (cm_links _ _ _ _ _ _ _ _ Hcm').
      rewrite (bidi_links_mirrored _ _ _ _ _ _ _ _ Hst) by (intros l0 k0 H0; by eapply Hbf).
      rewrite (bidi_links_mirrored _ _ _ _ _ _ _ _ Hst') by (intros l0 k0 H0; by eapply Hbf).
      symmetry. by apply mirrored_renamed. }
    intros i. pose proof (Hm i) as Hi. pose proof (Hh1 i) as H1. pose proof (Hh1' (f i)) as H1'.
    destruct (m !! i) as [a|] eqn:Ea.
    - apply o2_r in Hi as (a'&Ea'&Haa). rewrite Ea' in H1'. apply o2_r in H1 as (n&En&Hag), H1' as (n'&En'&Hag'). rewrite En, En'. constructor.
      rewrite <- (st_get _ _ _ _ _ _ _ _ Hst) in Ea. rewrite <- (st_get _ _ _ _ _ _ _ _ Hst') in Ea'.
      eapply (renamed_maintained E a a' n n'); try done.
      + by apply (wf_nodes _ _ (cm_wf _ _ _ _ _ _ _ _ Hcm) i).
      + by apply (wf_nodes _ _ (cm_wf _ _ _ _ _ _ _ _ Hcm') (f i)).
      + intros s0. by apply (bfr_zero _ _ _ (cm_frame _ _ _ _ _ _ _ _ Hcm) i).
      + intros s0. by apply (bfr_zero _ _ _ (cm_frame _ _ _ _ _ _ _ _ Hcm') (f i)).
      + intros l y. specialize (Hlk i y l). unfold glink in Hlk. rewrite En, En' in Hlk. naive_solver.
    - apply o2_none in Hi. rewrite Hi in H1'. apply o2_none in H1, H1'. rewrite H1, H1'. constructor.
  Qed.

  (** ** The reverse index, and whether commits return *)
  Lemma renamed_refers n n' y : renamed f n n' -> refers n' (f y) <-> refers n y.
  Proof using Hf.
    intros (_&_&HF). unfold refers. setoid_rewrite f_zero. split; intros (h&lv&Hh&Hin&Hnz).
    - destruct (Forall2_lookup_r _ _ _ _ _ HF Hh) as (lv'&Hh'&Ha). exists h, lv'. split; [done|]. split; [by apply (lv_renamed_elems lv' lv)|].
      destruct Hnz as [?|(k&l&->)]; [by left|right]. destruct lv'; cbn in Ha; try done. eauto.
    - destruct (Forall2_lookup_l _ _ _ _ _ HF Hh) as (lv'&Hh'&Ha). exists h, lv'. split; [done|]. split; [by apply (lv_renamed_elems lv lv')|].
      destruct Hnz as [?|(k&l&->)]; [by left|right]. destruct lv'; cbn in Ha; try done. eauto.
  Qed.
  Lemma l_redir_renamed reps r (B B' : idx -> Prop) y : redir_resolved reps r -> (forall y, B y <-> B' (f y)) -> l_redir reps B y <-> l_redir (rp <$> reps) B' (f y).
  Proof using Hf.
    intros Hr HB. unfold l_redir. rewrite HB. apply or_iff_compat_l. pose proof (resolved_renamed _ _ Hr) as Hr'.
    assert (forall q, f y ∈ (rp <$> q).*2 <-> y ∈ q.*2) as Hq.
    { intros q. rewrite <- (f_elem y q.*2), <- !list_fmap_compose. done. }
    split; intros (q&Hres&Hin).
    - exists (rp <$> q). split; [by apply resolved_renamed|]. by apply Hq.
    - exists r. split; [done|]. apply Hq. by rewrite <- (redir_resolved_det _ _ _ Hres Hr').
  Qed.
  Lemma l_new_renamed m m' (B B' : idx -> Prop) y : mrenamed m m' -> (forall y, B y <-> B' (f y)) -> l_new m B y <-> l_new m' B' (f y).
  Proof using Hf.
    intros Hm HB. unfold l_new. rewrite HB. apply or_iff_compat_l. rewrite (mrenamed_some m m' y Hm). apply or_iff_compat_l. split.
    - intros (x&n&Hx&Hn). pose proof (Hm x) as Hx'. rewrite Hx in Hx'. apply o2_r in Hx' as (n'&Hx'&Ha). exists (f x), n'. split; [done|]. by apply (renamed_refers n n').
    - intros (x'&n'&Hx&Hn). destruct (rn_sur f Hf x') as [x ->]. pose proof (Hm x) as Hx'. rewrite Hx in Hx'. apply o2_l in Hx' as (n&Hx'&Ha). exists x, n. split; [done|].
      by apply (renamed_refers n n').
  Qed.
  Lemma l_queue_renamed (s s' : tspec D) r (B B' : idx -> Prop) : ts_renamed s s' -> redir_resolved (ts_redir s) r -> (forall y, B y <-> B' (f y)) ->
    forall y, l_queue (ts_txn s) B y <-> l_queue (ts_txn s') B' (f y).
  Proof using Hf.
    intros [] Hr HB. unfold l_queue. cbn. intros y. apply l_new_renamed; [done|]. intros z. rewrite tr_redir0. by apply (l_redir_renamed _ r).
  Qed.
  Lemma l_commit_renamed (s s' : tspec D) r ra (B B' : idx -> Prop) : ts_renamed s s' -> redir_resolved (ts_redir s) r -> redir_resolved (ts_redir_all s) ra ->
    (forall y, B y <-> B' (f y)) -> forall y, l_commit (ts_txn s) B y <-> l_commit (ts_txn s') B' (f y).
  Proof using Hf.
    intros Hs Hr Hra HB y. pose proof Hs as []. unfold l_commit. cbn. rewrite tr_del0, tr_redir_all0, f_elem.
    rewrite (l_redir_renamed _ ra _ (l_queue (ts_txn s') B')); [done|done|]. by eapply l_queue_renamed.
  Qed.
  Lemma sp_commit_resolved (s : tspec D) m m1 : sp_commit (ts_txn s) m m1 -> exists r ra, redir_resolved (ts_redir s) r /\ redir_resolved (ts_redir_all s) ra.
  Proof. intros (a1&a2&a3&a4&(r&Hr&_)&_&_&(ra&Hra&_)&_). eauto. Qed.

  (** closures that return on renamed nodes *)
  Definition mut_follows (a b : idx * (node D -> out (node D) unit)) : Prop := forall n n' x, renamed f n n' -> a.2 n = Done x tt -> exists y, b.2 n' = Done y tt.
  Definition upd_follows (a b : idx * (node D -> res (node D))) : Prop := forall n n' x, renamed f n n' -> a.2 n = Ok x -> exists y, b.2 n' = Ok y.
  Lemma mutates_listed_renamed fs fs' (B B' : idx -> Prop) m m' : Forall2 muts_renamed fs fs' -> Forall2 mut_follows fs fs' -> mrenamed m m' -> (forall y, B y <-> B' (f y)) ->
    mutates_listed fs B m -> mutates_listed fs' B' m'.
  Proof using Hf.
    intros HF HG Hm HB. revert HG m m' Hm. induction HF as [|[i h] [i' h'] fs fs' [Hi Hh] _ IH]; intros HG m m' Hm; cbn; [done|]. cbn in Hi, Hh. subst i'.
    inversion HG as [|???? Hfo HG']; subst.
    intros (n&a&Hn&Ha&Hr&H). pose proof (Hm i) as Hi. rewrite Hn in Hi. apply o2_r in Hi as (n'&Hn'&Hnn).
    destruct (Hfo n n' a Hnn Ha) as [b Hb]. cbn in Hb. assert (renamed f a b) as Hab by by eapply Hh.
    exists n', b. split; [done|]. split; [done|]. split.
    - intros y Hy. destruct (rn_sur f Hf y) as [x ->]. apply HB, Hr. by apply (renamed_refers a b).
    - apply (IH HG' (<[i := a]> m)); [by apply mrenamed_insert|done].
  Qed.
  Lemma updates_listed_renamed fs fs' (B B' : idx -> Prop) m m' : Forall2 upds_renamed fs fs' -> Forall2 upd_follows fs fs' -> mrenamed m m' -> (forall y, B y <-> B' (f y)) ->
    updates_listed fs B m -> updates_listed fs' B' m'.
  Proof using Hf.
    intros HF HG Hm HB. revert HG m m' Hm. induction HF as [|[i h] [i' h'] fs fs' [Hi Hh] _ IH]; intros HG m m' Hm; cbn; [done|]. cbn in Hi, Hh. subst i'.
    inversion HG as [|???? Hfo HG']; subst.
    intros (n&a&Hn&Ha&Hr&H). pose proof (Hm i) as Hi. rewrite Hn in Hi. apply o2_r in Hi as (n'&Hn'&Hnn).
    destruct (Hfo n n' a Hnn Ha) as [b Hb]. cbn in Hb. assert (renamed f a b) as Hab by by eapply Hh.
    exists n', b. split; [done|]. split; [done|]. split.
    - intros y Hy. destruct (rn_sur f Hf y) as [x ->]. apply HB, Hr. by apply (renamed_refers a b).
    - apply (IH HG' (<[i := a]> m)); [by apply mrenamed_insert|done].
  Qed.
  Lemma sp_removes_follows xs m m' : mrenamed m m' -> is_Some (sp_removes xs m) -> is_Some (sp_removes (f <$> xs) m').
  Proof using Hf.
    revert m m'. induction xs as [|x xs IH]; intros m m' H; cbn; [by eexists|].
    destruct (H x) as [n n' Hn|]; [|by intros [? ?]]. apply IH. unfold sp_remove. apply mrenamed_fmap; [|by apply mrenamed_delete].
    intros a b Hab. pose proof (node_redirect_renamed x 0%N a b Hab) as H'. by rewrite (rn_zero f Hf) in H'.
  Qed.
  Lemma redir_listed_renamed reps (B B' : idx -> Prop) : (forall y, B y <-> B' (f y)) -> redir_listed reps B -> redir_listed (rp <$> reps) B'.
  Proof using Hf.
    intros HB [[P HP] H]. split; [exists (pmap P); by apply ptrs_renamed|]. intros o. rewrite <- list_fmap_compose. intros ([a b]&->&Hin)%elem_of_list_fmap. cbn.
    apply HB, H. apply elem_of_list_fmap. by exists (a, b).
  Qed.
  Lemma commit_listed_renamed (s s' : tspec D) m m' m1 (B B' : idx -> Prop) : ts_renamed s s' -> mrenamed m m' -> (forall y, B y <-> B' (f y)) ->
    Forall2 mut_follows (ts_mut s) (ts_mut s') -> Forall2 upd_follows (ts_upd s) (ts_upd s') -> sp_commit (ts_txn s) m m1 ->
    commit_listed (ts_txn s) m B -> commit_listed (ts_txn s') m' B'.
  Proof using Hf.
    intros Hs Hm HB Hmf Huf Hsp. destruct (sp_commit_resolved _ _ _ Hsp) as (r&ra&Hr&_).
    pose proof (l_queue_renamed s s' r B B' Hs Hr HB) as HQ. pose proof Hs as [].
    destruct Hsp as (a1&a2&a3&a4&H1&H2&H3&H4&H5). cbn in H1, H2, H3, H4, H5.
    unfold commit_listed. cbn. rewrite tr_del0, tr_redir_all0, tr_redir0. intros [K1 K2]. destruct (K2 a1 H1) as [K3 K4]. destruct (K4 a2 H2) as (K5&K6&K7).
    split; [by eapply redir_listed_renamed|]. intros b1 Hb1. assert (mrenamed a1 b1) as R1 by (eapply sp_redirect_renamed; [exact Hm|exact H1|exact Hb1]).
    assert (mrenamed (ts_new s ∪ a1) (ts_new s' ∪ b1)) as Ru by by apply mrenamed_union.
    split; [by eapply mutates_listed_renamed|]. intros b2 Hb2. assert (mrenamed a2 b2) as R2 by (eapply sp_mutates_renamed; [exact tr_mut0|exact Ru|exact H2|exact Hb2]).
    split; [by eapply updates_listed_renamed|]. split; [by eapply redir_listed_renamed|]. intros b3 b4 Hb3 Hb4.
    assert (mrenamed a3 b3) as R3 by (eapply sp_updates_renamed; [exact tr_upd0|exact R2|exact H3|exact Hb3]). assert (mrenamed a4 b4) as R4 by (eapply sp_redirect_renamed; [exact R3|exact H4|exact Hb4]).
    eapply sp_removes_follows; [exact R4|by eexists].
  Qed.
  Lemma added_renamed g g' m m' x y l : grenamed g g' -> mrenamed m m' -> added g' m' (f x) (f y) l <-> added g m x y l.
  Proof using Hf. intros Hg Hm. unfold added. by rewrite (mrenamed_link _ _ _ _ _ Hm), (grenamed_link _ _ _ _ _ Hg). Qed.
  Lemma conflict_renamed E (Hone : forall l v, length (opposites_on E l v) <= 1) g g' m m' : grenamed g g' -> mrenamed m m' ->
    no_conflict E g m /\ added_typed E g m -> no_conflict E g' m' /\ added_typed E g' m'.
  Proof using Hf.
    intros Hg Hm [H1 H2]. split.
    - intros x' y' l ny' Ha Hy'. destruct (rn_sur f Hf x') as [x ->], (rn_sur f Hf y') as [y ->].
      pose proof (Hm y) as Hy. rewrite Hy' in Hy. apply o2_l in Hy as (ny&Hy&(Hv&_)).
      rewrite (added_renamed g g' m m') in Ha by done. specialize (H1 x y l ny Ha Hy). rewrite <- Hv.
      specialize (Hone l (nvar ny)). destruct (opposites_on E l (nvar ny)) as [|k [|k2 ks]]; [done| |cbn in Hone; lia].
      intros Hd z' Hz. destruct (rn_sur f Hf z') as [z ->]. f_equal. apply H1; [done|]. by apply (mirrored_renamed E g g' m m').
    - intros x' y' l ny' Ha Hy'. destruct (rn_sur f Hf x') as [x ->], (rn_sur f Hf y') as [y ->].
      pose proof (Hm y) as Hy. rewrite Hy' in Hy. apply o2_l in Hy as (ny&Hy&(Hv&_)).
      rewrite (added_renamed g g' m m') in Ha by done. rewrite <- Hv. by apply (H2 x y l ny).
  Qed.
  Lemma ts_res_renamed s s' : ts_renamed s s' -> ts_res s = ∅ -> ts_res s' = ∅.
  Proof using Hf. intros [] H. apply map_eq. intros i. destruct (rn_sur f Hf i) as [x ->]. by rewrite tr_res0, H, !lookup_empty. Qed.

  Lemma listed_renamed E T g g' t t' s s' g1 g1' : history E T g t s -> history E T g' t' s' -> ts_renamed s s' -> (forall y, listed g y <-> listed g' (f y)) ->
    commit E t g = Done g1 tt -> commit E t' g' = Done g1' tt -> forall y, listed g1 y <-> listed g1' (f y).
  Proof using Hf.
    intros Hh Hh' Hs Hl Hc Hc' y. destruct (history_ok E T g t s Hh) as (Hwf&Hty&Ht&_).
    destruct (commit_done E T g t Hwf Hty Ht g1 Hc) as (_&g2&r0&m1&Hcm&_).
    pose proof (cm_spec _ _ _ _ _ _ _ _ Hcm) as Hsp. rewrite (history_txn E T g t s Hh) in Hsp. destruct (sp_commit_resolved _ _ _ Hsp) as (r&ra&Hr&Hra).
    destruct (final_listed E T g t s Hh g1 Hc) as [_ H1], (final_listed E T g' t' s' Hh' g1' Hc') as [_ H1'].
    rewrite H1, H1'. by eapply l_commit_renamed.
  Qed.
  Lemma commit_follows E (Hbf : bidi_fields E) (Hcv : forall v l, e_chk E v l = false -> nonvec E l) (Hone : forall l v, length (opposites_on E l v) <= 1)
    T g g' t t' s s' g1 : history E T g t s -> history E T g' t' s' -> grenamed g g' -> ts_renamed s s' -> (forall y, listed g y <-> listed g' (f y)) ->
    Forall2 mut_follows (ts_mut s) (ts_mut s') -> Forall2 upd_follows (ts_upd s) (ts_upd s') ->
    commit E t g = Done g1 tt -> exists g1', commit E t' g' = Done g1' tt.
  Proof using Hf.
    intros Hh Hh' Hg Hs Hl Hm Hu Hc. pose proof (history_nodes E T g t s Hh) as Hn. pose proof (history_nodes E T g' t' s' Hh') as Hn'.
    assert (mrenamed (gmap_of g) (gmap_of g')) as Hmm by by eapply grenamed_maps.
    destruct (history_ok E T g t s Hh) as (Hwf&Hty&Ht&_). destruct (commit_done E T g t Hwf Hty Ht g1 Hc) as (_&g2&r&m1&Hcm&_).
    pose proof (cm_spec _ _ _ _ _ _ _ _ Hcm) as Hsp. rewrite (history_txn E T g t s Hh) in Hsp.
    destruct (proj1 (final_commit_iff E T g t s Hh (gmap_of g) Hbf Hcv Hone Hn)) as (H1&H2&H3); [by exists g1|].
    apply (final_commit_iff E T g' t' s' Hh' (gmap_of g') Hbf Hcv Hone Hn'). split; [|split].
    - destruct H1 as [H1|H1]; [by left|right]. by eapply ts_res_renamed.
    - by eapply commit_listed_renamed.
    - intros m1' Hm1'. eapply conflict_renamed; [done|exact Hg| |by apply H3, Hsp]. by eapply sp_commit_renamed.
  Qed.
End rename.


(** ** Programs *)
(** the same call with renamed indices; a graph or transaction may be made in another context,
    and a checked commit may check something else *)
Definition op_renamed {D} (f : idx -> idx) (o o' : op (D:=D)) : Prop :=
  match o, o' with
  | ONewGraph kg _, ONewGraph kg' _ => kg' = kg
  | ONewTrans k _, ONewTrans k' _ => k' = k
  | OInsert k n i, OInsert k' n' i' => k' = k /\ renamed f n n' /\ i' = f i
  | OAlloc k v i, OAlloc k' v' i' => k' = k /\ v' = v /\ i' = f i
  | OAllocUntyped k i, OAllocUntyped k' i' => k' = k /\ i' = f i
  | OFill k i n, OFill k' i' n' => k' = k /\ i' = f i /\ renamed f n n'
  | OFillUntyped k i n, OFillUntyped k' i' n' => k' = k /\ i' = f i /\ renamed f n n'
  | ORemove k i, ORemove k' i' => k' = k /\ i' = f i
  | OMutate k i h, OMutate k' i' h' => k' = k /\ i' = f i /\ mut_renamed f h h'
  | OUpdate k i h, OUpdate k' i' h' => k' = k /\ i' = f i /\ upd_renamed f h h'
  | ORedirect k a b, ORedirect k' a' b' => k' = k /\ a' = f a /\ b' = f b
  | ORedirectAll k a b, ORedirectAll k' a' b' => k' = k /\ a' = f a /\ b' = f b
  | OMerge k kg, OMerge k' kg' => k' = k /\ kg' = kg
  | OGiveUp k, OGiveUp k' => k' = k
  | ODropGraph kg, ODropGraph kg' => kg' = kg
  | OCommit kg k, OCommit kg' k' => kg' = kg /\ k' = k
  | OCommitChecked kg k _, OCommitChecked kg' k' _ => kg' = kg /\ k' = k
  | _, _ => False
  end.

Section programs.
  Context {D : Type} (E : env) (T : Prop) (f : idx -> idx) (Hf : renaming f) (Hbf : bidi_fields E) (G K : nat -> bool).
  Implicit Types (o : op (D:=D)) (w : world (D:=D)) (lg : nat -> list (tevent D)).

  (** the call names a graph or transaction of the part *)
  Definition touches o : bool := existsb G (graphs_named o) || existsb K (trans_named o).
  (** and then nothing else *)
  Definition one_side o : Prop := touches o = true -> inside (fun kg => G kg = true) (fun k => K k = true) o.

  (** the same graph up to the renaming, also in its reverse index *)
  Definition grenamed_all (g g' : graph D) : Prop := grenamed f g g' /\ forall y, listed g y <-> listed g' (f y).
  Record rview w w' lg lg' : Prop := {
    rv_graph : forall kg, G kg = true -> option_Forall2 (fun p q : nat * graph D => grenamed_all p.2 q.2) (w_graphs w !! kg) (w_graphs w' !! kg);
    rv_trans : forall k, K k = true -> option_Forall2 (fun _ _ : nat * trans D => True) (w_trans w !! k) (w_trans w' !! k);
    rv_log : forall k, K k = true -> Forall2 (ev_renamed f) (lg k) (lg' k) }.

  Lemma rv_set_g w w' lg lg' kg c c' g g' : rview w w' lg lg' -> grenamed_all g g' -> rview (set_g w kg (c, g)) (set_g w' kg (c', g')) lg lg'.
  Proof using.
    intros [H1 H2 H3] Hg. split; [|done..]. cbn. intros k Hk. destruct (decide (k = kg)) as [->|Hne].
    - rewrite !lookup_insert. by constructor.
    - rewrite !lookup_insert_ne by done. by apply H1.
  Qed.
  Lemma rv_del_g w w' lg lg' kg : rview w w' lg lg' -> rview (del_g w kg) (del_g w' kg) lg lg'.
  Proof using.
    intros [H1 H2 H3]. split; [|done..]. cbn. intros k Hk. destruct (decide (k = kg)) as [->|Hne].
    - rewrite !lookup_delete. constructor.
    - rewrite !lookup_delete_ne by done. by apply H1.
  Qed.
  Lemma rv_set_t w w' lg lg' k c c' t t' L L' : rview w w' lg lg' -> Forall2 (ev_renamed f) L L' ->
    rview (set_t w k (c, t)) (set_t w' k (c', t')) (lput lg k L) (lput lg' k L').
  Proof using.
    intros [H1 H2 H3] HL. split; [done|..].
    - cbn. intros k' Hk'. destruct (decide (k' = k)) as [->|Hne].
      + rewrite !lookup_insert. by constructor.
      + rewrite !lookup_insert_ne by done. by apply H2.
    - intros k' Hk'. unfold lput. destruct (decide (k' = k)) as [->|Hne]; [done|by apply H3].
  Qed.
  Lemma rv_del_t w w' lg lg' k : rview w w' lg lg' -> rview (del_t w k) (del_t w' k) lg lg'.
  Proof using.
    intros [H1 H2 H3]. split; [done| |done]. cbn. intros k' Hk'. destruct (decide (k' = k)) as [->|Hne].
    - rewrite !lookup_delete. constructor.
    - rewrite !lookup_delete_ne by done. by apply H2.
  Qed.
  Lemma rv_set_cnt w w' lg lg' c u cnt c' u' cnt' : rview w w' lg lg' -> rview (set_cnt w c u cnt) (set_cnt w' c' u' cnt') lg lg'.
  Proof using. by intros [H1 H2 H3]. Qed.
  Lemma rv_call w w' lg lg' k c c' t t' i i' tc tc' : K k = true -> rview w w' lg lg' -> i' = f i -> call_renamed f tc tc' ->
    rview (set_t w k (c, t)) (set_t w' k (c', t')) (lcall lg k i tc) (lcall lg' k i' tc').
  Proof using.
    intros HK H Hi Hc. apply rv_set_t; [done|]. apply Forall2_app; [by apply (rv_log _ _ _ _ H)|]. constructor; [by split|constructor].
  Qed.

  Lemma step_renamed w w' lg lg' o o' w1 w1' : lreach E T w lg -> lreach E T w' lg' -> rview w w' lg lg' ->
    inside (fun kg => G kg = true) (fun k => K k = true) o -> op_renamed f o o' ->
    step E T w o w1 -> step E T w' o' w1' -> rview w1 w1' (log_step w o lg) (log_step w' o' lg').
  Proof using Hf Hbf.
    intros Hl Hl' Hw [HG HK] Hr Hs Hs'.
    assert (inv E T w) as Hi by by eapply reachable_inv, lreach_reachable.
    assert (inv E T w') as Hi' by by eapply reachable_inv, lreach_reachable.
    assert (forall kg k c g t g1 c' g' t' g1', G kg = true -> K k = true -> w_trans w !! k = Some (c, t) -> w_graphs w !! kg = Some (c, g) -> commit E t g = Done g1 tt ->
      w_trans w' !! k = Some (c', t') -> w_graphs w' !! kg = Some (c', g') -> commit E t' g' = Done g1' tt -> grenamed_all g1 g1') as Hcommit.
    { intros kg k c g t g1 c' g' t' g1' Hkg Hk Ht Hg Hc Ht' Hg' Hc'.
      pose proof (rv_graph _ _ _ _ Hw kg Hkg) as Hgg. rewrite Hg, Hg' in Hgg. apply o2_some in Hgg as [Hgg Hli]. cbn in Hgg, Hli.
      destruct (history_in E T w lg kg k c g t Hl Hg Ht) as (s&Hh&Hs1), (history_in E T w' lg' kg k c' g' t' Hl' Hg' Ht') as (s'&Hh'&Hs1').
      assert (ts_renamed f s s') as Hts by (eapply ts_run_renamed; [done|by apply (rv_log _ _ _ _ Hw)|apply ts_renamed_empty|exact Hs1|exact Hs1']).
      split; [by eapply (commit_renamed f Hf E Hbf T g g' t t' s s')|by eapply (listed_renamed f Hf E T g g' t t' s s')]. }
    pose proof (rn_zero f Hf) as Hz. symmetry in Hz.
    destruct Hs; destruct o'; cbn in Hr; try done; inversion Hs'; subst; clear Hs'; cbn [log_step]; destruct_and?; subst;
      cbn in HG, HK; try specialize (HG _ (elem_of_list_here _ _)); try specialize (HK _ (elem_of_list_here _ _)).
    - apply rv_set_g; [done|]. split; [|intros y; split; intros [? ?]; done]. intros i. unfold graph_get, graph_new. cbn [g_nodes]. rewrite !arena_new_get. constructor.
    - apply rv_set_t; [done|constructor].
    - apply rv_set_cnt. by apply rv_call.
    - apply rv_set_cnt. by apply rv_call.
    - apply rv_set_cnt. by apply rv_call.
    - by apply rv_call.
    - by apply rv_call.
    - by apply rv_call.
    - by apply rv_call.
    - by apply rv_call.
    - by apply rv_call.
    - by apply rv_call.
    - match goal with Hg : w_graphs w !! ?kg = Some (_, ?g), Hg' : w_graphs w' !! ?kg = Some (_, ?g') |- _ =>
        pose proof (rv_graph _ _ _ _ Hw kg HG) as Hgg; rewrite Hg, Hg' in Hgg |- *; apply o2_some in Hgg as [Hgg _]; cbn in Hgg end.
      apply rv_del_g, rv_set_t; [done|].
      apply Forall2_app; [by apply (rv_log _ _ _ _ Hw)|]. constructor; [|constructor]. intros i.
      erewrite (gmap_of_get E) by (by eapply (iv_graph _ _ _ Hi)). erewrite (gmap_of_get E) by (by eapply (iv_graph _ _ _ Hi')). apply Hgg.
    - by apply rv_del_t.
    - by apply rv_del_g.
    - apply rv_set_g; [by apply rv_del_t|]. by eapply Hcommit.
    - apply rv_set_g; [by apply rv_del_t|].
      repeat match goal with Hx : commit_checked E _ _ _ = _ |- _ => apply commit_checked_commit in Hx end. by eapply Hcommit.
  Qed.

  (** other calls *)
  Lemma step_other w o w' lg : step E T w o w' -> touches o = false ->
    (forall kg, G kg = true -> w_graphs w' !! kg = w_graphs w !! kg) /\ (forall k, K k = true -> w_trans w' !! k = w_trans w !! k) /\
    (forall k, K k = true -> log_step w o lg k = lg k).
  Proof using.
    intros Hs Ht. unfold touches in Ht. apply orb_false_iff in Ht as [HG HK].
    assert (forall kg, kg ∈ graphs_named o -> G kg = true -> False) as HG'.
    { intros kg Hin Hk. assert (existsb G (graphs_named o) = true); [|congruence]. apply existsb_exists. exists kg. by rewrite <- elem_of_list_In. }
    assert (forall k, k ∈ trans_named o -> K k = true -> False) as HK'.
    { intros k Hin Hk. assert (existsb K (trans_named o) = true); [|congruence]. apply existsb_exists. exists k. by rewrite <- elem_of_list_In. }
    clear HG HK. split; [|split].
    - intros kg Hk. assert (kg ∉ graphs_named o) as Hn by (intros ?; by eapply HG'). clear HG' HK'.
      destruct Hs; cbn in Hn |- *; try done; first [rewrite lookup_insert_ne; [done|]|rewrite lookup_delete_ne; [done|]]; intros ->; apply Hn; left.
    - intros k Hk. assert (k ∉ trans_named o) as Hn by (intros ?; by eapply HK'). clear HG' HK'.
      destruct Hs; cbn in Hn |- *; try done; first [rewrite lookup_insert_ne; [done|]|rewrite lookup_delete_ne; [done|]]; intros ->; apply Hn; left.
    - intros k Hk. assert (k ∉ trans_named o) as Hn by (intros ?; by eapply HK'). clear HG' HK'.
      destruct o; cbn in Hn |- *; try done; repeat case_match; try done; unfold lcall, lput; (rewrite decide_False; [done|]); intros ->; apply Hn; left.
  Qed.
  Lemma rv_other_l w o w1 lg w' lg' : step E T w o w1 -> touches o = false -> rview w w' lg lg' -> rview w1 w' (log_step w o lg) lg'.
  Proof using.
    intros Hs Ht [H1 H2 H3]. destruct (step_other w o w1 lg Hs Ht) as (K1&K2&K3). split; intros x Hx.
    - rewrite K1 by done. by apply H1. - rewrite K2 by done. by apply H2. - rewrite K3 by done. by apply H3.
  Qed.
  Lemma rv_other_r w o w1 lg w' lg' : step E T w o w1 -> touches o = false -> rview w' w lg' lg -> rview w' w1 lg' (log_step w o lg).
  Proof using.
    intros Hs Ht [H1 H2 H3]. destruct (step_other w o w1 lg Hs Ht) as (K1&K2&K3). split; intros x Hx.
    - rewrite K1 by done. by apply H1. - rewrite K2 by done. by apply H2. - rewrite K3 by done. by apply H3.
  Qed.

  Lemma lruns_renamed os1 w1 lg1 : lruns E T os1 w1 lg1 -> Forall one_side os1 -> forall os2 w2 lg2, lruns E T os2 w2 lg2 ->
    Forall2 (op_renamed f) (filter (fun o => touches o = true) os1) (filter (fun o => touches o = true) os2) -> rview w1 w2 lg1 lg2.
  Proof using Hf Hbf.
    induction 1 as [|os1 w1 lg1 o w1' Hr1 IH1 Hs1 Hc1]; intros Hp1 os2 w2 lg2 Hr2.
    - induction Hr2 as [|os2 w2 lg2 o w2' Hr2 IH2 Hs2 Hc2]; intros Heq.
      + split; intros x _; cbn; rewrite ?lookup_empty; constructor.
      + rewrite filter_app in Heq. destruct (touches o) eqn:Hu.
        { rewrite (filter_cons_True _ o []), !filter_nil in Heq by done. apply Forall2_length in Heq. rewrite app_length in Heq. cbn in Heq. lia. }
        rewrite (filter_cons_False _ o []) in Heq by (by rewrite Hu). rewrite filter_nil, app_nil_r in Heq. apply rv_other_r; [done|done|]. by apply IH2.
    - apply Forall_app in Hp1 as [Hp1 Ho1]. rewrite Forall_singleton in Ho1. specialize (IH1 Hp1). destruct (touches o) eqn:Hu.
      2: { intros Heq. rewrite filter_app, (filter_cons_False _ o []), filter_nil, app_nil_r in Heq by (by rewrite Hu).
           apply rv_other_l; [done|done|]. by eapply (IH1 os2). }
      rewrite filter_app, (filter_cons_True _ o []), filter_nil by done.
      induction Hr2 as [|os2 w2 lg2 o2 w2' Hr2 IH2 Hs2 Hc2]; intros Heq.
      { apply Forall2_length in Heq. rewrite app_length in Heq. cbn in Heq. lia. }
      rewrite filter_app in Heq. destruct (touches o2) eqn:Hu2.
      + rewrite (filter_cons_True _ o2 []), filter_nil in Heq by done.
        apply Forall2_app_inv in Heq as [Heq Ho]; [|apply Forall2_length in Heq; rewrite !app_length in Heq; cbn in Heq; lia].
        inversion Ho as [|???? Hro _]; subst. specialize (IH1 os2 w2 lg2 Hr2 Heq).
        eapply step_renamed; [by eapply lruns_lreach|by eapply lruns_lreach|done|by apply Ho1|done|done|done].
      + rewrite (filter_cons_False _ o2 []), filter_nil, app_nil_r in Heq by (by rewrite Hu2). apply rv_other_r; [done|done|]. by apply IH2.
  Qed.

  (** the rest of the theorems: two programs with logs *)
  Lemma runs_logs os1 w1 os2 w2 : runs E T os1 w1 -> runs E T os2 w2 -> e_dbg E = true \/ (forall k kg, OMerge k kg ∉ os1 ++ os2) -> Forall one_side os1 ->
    Forall2 (op_renamed f) (filter (fun o => touches o = true) os1) (filter (fun o => touches o = true) os2) ->
    exists lg1 lg2, lreach E T w1 lg1 /\ lreach E T w2 lg2 /\ rview w1 w2 lg1 lg2.
  Proof using Hf Hbf.
    intros Hr1 Hr2 Hd Hp Heq.
    destruct (runs_lruns E T os1 w1 Hr1) as [lg1 Hl1]. { destruct Hd as [Hd|Hd]; [by left|right]. intros k kg Hin. apply (Hd k kg), elem_of_app. by left. }
    destruct (runs_lruns E T os2 w2 Hr2) as [lg2 Hl2]. { destruct Hd as [Hd|Hd]; [by left|right]. intros k kg Hin. apply (Hd k kg), elem_of_app. by right. }
    exists lg1, lg2. split; [by eapply lruns_lreach|]. split; [by eapply lruns_lreach|]. exact (lruns_renamed os1 w1 lg1 Hl1 Hp os2 w2 lg2 Hl2 Heq).
  Qed.

  Lemma lreach_trans_is w lg k c t : lreach E T w lg -> w_trans w !! k = Some (c, t) -> exists s, ts_run ts_empty (lg k) = Some s /\ trans_is t s.
  Proof using.
    intros Hl Hwk. destruct (lreach_inv E T w lg Hl) as [_ [_ Hts]]. destruct (Hts k c t Hwk) as (u&cnt&_&Hh).
    destruct (t_hist_rep E _ _ _ _ Hh) as (s&Hs&Hrep&_). exists s. split; [done|by apply (trep_is E)].
  Qed.

  Theorem final_renamed os1 w1 os2 w2 : runs E T os1 w1 -> runs E T os2 w2 -> e_dbg E = true \/ (forall k kg, OMerge k kg ∉ os1 ++ os2) -> Forall one_side os1 ->
    Forall2 (op_renamed f) (filter (fun o => touches o = true) os1) (filter (fun o => touches o = true) os2) ->
    (forall kg, G kg = true -> option_Forall2 (fun p q => forall i, option_Forall2 (renamed f) (graph_get p.2 i) (graph_get q.2 (f i))) (w_graphs w1 !! kg) (w_graphs w2 !! kg)) /\
    (forall k, K k = true -> option_Forall2 (fun p q => exists s s', trans_is p.2 s /\ trans_is q.2 s' /\ ts_renamed f s s') (w_trans w1 !! k) (w_trans w2 !! k)).
  Proof using Hf Hbf.
    intros Hr1 Hr2 Hd Hp Heq. destruct (runs_logs os1 w1 os2 w2 Hr1 Hr2 Hd Hp Heq) as (lg1&lg2&Hl1&Hl2&[V1 V2 V3]).
    split. { intros kg Hk. destruct (V1 kg Hk) as [p q [Hg _]|]; constructor. exact Hg. }
    intros k Hk. specialize (V2 k Hk). specialize (V3 k Hk). destruct (w_trans w1 !! k) as [[c t]|] eqn:Ht, (w_trans w2 !! k) as [[c' t']|] eqn:Ht'; inversion V2; subst; constructor. cbn.
    destruct (lreach_trans_is _ _ _ _ _ Hl1 Ht) as (s&Hs&Hi), (lreach_trans_is _ _ _ _ _ Hl2 Ht') as (s'&Hs'&Hi'). exists s, s'. split; [done|]. split; [done|].
    eapply ts_run_renamed; [done|exact V3|apply ts_renamed_empty|exact Hs|exact Hs'].
  Qed.

  Theorem final_next_commit os1 w1 os2 w2 kg k c g t c' g' t' g1 : (forall v l, e_chk E v l = false -> nonvec E l) -> (forall l v, length (opposites_on E l v) <= 1) ->
    runs E T os1 w1 -> runs E T os2 w2 -> e_dbg E = true \/ (forall k kg, OMerge k kg ∉ os1 ++ os2) -> Forall one_side os1 ->
    Forall2 (op_renamed f) (filter (fun o => touches o = true) os1) (filter (fun o => touches o = true) os2) -> G kg = true -> K k = true ->
    w_graphs w1 !! kg = Some (c, g) -> w_trans w1 !! k = Some (c, t) -> w_graphs w2 !! kg = Some (c', g') -> w_trans w2 !! k = Some (c', t') ->
    Forall2 (mut_follows f) (t_mut t) (t_mut t') -> Forall2 (upd_follows f) (t_upd t) (t_upd t') ->
    commit E t g = Done g1 tt -> exists g1', commit E t' g' = Done g1' tt.
  Proof using Hf Hbf.
    intros Hcv Hone Hr1 Hr2 Hd Hp Heq HG HK Hg Ht Hg' Ht' Hmf Huf Hc. destruct (runs_logs os1 w1 os2 w2 Hr1 Hr2 Hd Hp Heq) as (lg1&lg2&Hl1&Hl2&[V1 V2 V3]).
    destruct (history_in E T w1 lg1 kg k c g t Hl1 Hg Ht) as (s&Hh&Hs), (history_in E T w2 lg2 kg k c' g' t' Hl2 Hg' Ht') as (s'&Hh'&Hs').
    assert (ts_renamed f s s') as Hts by (eapply ts_run_renamed; [done|by apply V3|apply ts_renamed_empty|exact Hs|exact Hs']).
    specialize (V1 kg HG). rewrite Hg, Hg' in V1. apply o2_some in V1 as [Hgg Hli]. cbn in Hgg, Hli.
    destruct (lreach_trans_is _ _ _ _ _ Hl1 Ht) as (s2&Hs2&(_&_&_&Em&Eu&_)), (lreach_trans_is _ _ _ _ _ Hl2 Ht') as (s2'&Hs2'&(_&_&_&Em'&Eu'&_)).
    assert (s2 = s) as -> by congruence. assert (s2' = s') as -> by congruence.
    rewrite Em, Em' in Hmf. rewrite Eu, Eu' in Huf.
    by eapply (commit_follows f Hf E Hbf Hcv Hone T g g' t t' s s' g1).
  Qed.
End programs.
