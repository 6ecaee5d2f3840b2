(** * Cutting a transaction in two: C76 *)
From stdpp Require Export gmap.
From Verif Require Import Cut CutDel ExHist ExTrans PropsBidi PropsFindings PropsExact.

Lemma final_commit_plain {D} (E : env) (T : Prop) (g : graph D) t s :
  history E T g t s -> (forall l, e_opp E l = []) -> (forall v l, e_chk E v l = true) -> e_dbg E = false \/ ts_res s = ∅ ->
  (exists g', commit E t g = Done g' tt) <-> commit_listed (ts_txn s) (gmap_of g) (listed g).
Proof.
  intros Hh Ho Hc Hres. rewrite (final_commit_iff E T g t s Hh (gmap_of g)).
  - split; [tauto|]. intros Hl. split; [done|]. split; [done|]. intros m' _. split.
    + intros x y l ny _ _. unfold opposites_on. by rewrite Ho.
    + intros x y l ny _ _. apply Hc.
  - intros l k Hk. rewrite Ho in Hk. by apply elem_of_nil in Hk.
  - intros v l. by rewrite Hc.
  - intros l v. unfold opposites_on. rewrite Ho. cbn. lia.
  - apply (history_nodes _ _ _ _ _ Hh).
Qed.

(** Instead of one transaction, commit its calls in two: redirect_links; then also the new
    nodes and the first mutates; ... ([cuts], Cut.v).  If both parts succeed and the whole
    does, the nodes are the same, and so are the known indices (C74). *)
Theorem C76_cut_same_nodes :
  forall {D} (E : env) (T : Prop) (g g' g1 g2 : graph D) t ta tb (s sa sb : tspec D),
  (forall l, e_opp E l = []) -> cuts (ts_txn s) (ts_txn sa) (ts_txn sb) ->
  history E T g t s -> history E T g ta sa -> history E T g1 tb sb ->
  commit E t g = Done g' tt -> commit E ta g = Done g1 tt -> commit E tb g1 = Done g2 tt ->
  (forall i, graph_get g2 i = graph_get g' i) /\
  forall B' B2, known E T g' B' -> known E T g2 B2 -> forall y, B2 y <-> B' y.
Proof.
  intros D E T g g' g1 g2 t ta tb s sa sb Ho Hcut Hh Ha Hb Hc Hca Hcb. split.
  - destruct (final_exact E T g t s Hh g' Ho Hc) as (m&m'&Hm&Hsp&Hm').
    destruct (final_exact E T g ta sa Ha g1 Ho Hca) as (ma&m1&Hma&Hspa&Hm1).
    destruct (final_exact E T g1 tb sb Hb g2 Ho Hcb) as (mb&m2&Hmb&Hspb&Hm2).
    assert (ma = m) as -> by (apply map_eq; intros i; by rewrite Hm, Hma).
    assert (mb = m1) as -> by (apply map_eq; intros i; by rewrite Hm1, Hmb).
    assert (sp_commit (ts_txn s) m m2) as Hsp' by (apply (cut_commit _ _ _ m m2 Hcut); by exists m1).
    assert (m2 = m') as -> by exact (sp_commit_det (ts_txn s) _ _ _ Hsp' Hsp). intros i. by rewrite <- Hm2, <- Hm'.
  - intros B' B2 HB' HB2 y. rewrite <- (known_listed E T g' B' HB'), <- (known_listed E T g2 B2 HB2).
    destruct (final_listed E T g t s Hh g' Hc) as [_ Hl]. destruct (final_listed E T g ta sa Ha g1 Hca) as [_ Hla].
    destruct (final_listed E T g1 tb sb Hb g2 Hcb) as [_ Hlb]. rewrite Hl, Hlb, (cut_l_commit _ _ _ _ y Hcut).
    unfold l_commit, l_queue. apply and_iff_compat_r, l_redir_ext. intros z. apply l_new_ext. intros w. apply l_redir_ext. intros v. by rewrite Hla.
Qed.
Print Assumptions C76_cut_same_nodes.

(** Without link types, the whole succeeds exactly if the two parts do. *)
Theorem C76_cut_succeeds :
  forall {D} (E : env) (T : Prop) (g : graph D) t ta tb (s sa sb : tspec D),
  (forall l, e_opp E l = []) -> (forall v l, e_chk E v l = true) -> cuts (ts_txn s) (ts_txn sa) (ts_txn sb) ->
  e_dbg E = false \/ (ts_res s = ∅ /\ ts_res sa = ∅ /\ ts_res sb = ∅) ->
  history E T g t s -> history E T g ta sa -> (forall g1, commit E ta g = Done g1 tt -> history E T g1 tb sb) ->
  (exists g', commit E t g = Done g' tt) <-> (exists g1 g2, commit E ta g = Done g1 tt /\ commit E tb g1 = Done g2 tt).
Proof.
  intros D E T g t ta tb s sa sb Ho Hck Hcut Hres Hh Ha Hb.
  rewrite (final_commit_plain E T g t s Hh Ho Hck) by tauto. rewrite (cut_listed _ _ _ _ _ Hcut).
  rewrite <- (final_commit_plain E T g ta sa Ha Ho Hck) by tauto.
  assert (forall g1, commit E ta g = Done g1 tt ->
    (forall m1, sp_commit (ts_txn sa) (gmap_of g) m1 -> commit_listed (ts_txn sb) m1 (l_commit (ts_txn sa) (listed g))) <->
    exists g2, commit E tb g1 = Done g2 tt) as Hrest.
  { intros g1 Hca. specialize (Hb g1 Hca). rewrite (final_commit_plain E T g1 tb sb Hb Ho Hck) by tauto.
    destruct (final_listed E T g ta sa Ha g1 Hca) as [_ Hla].
    destruct (final_exact E T g ta sa Ha g1 Ho Hca) as (ma&m1&Hma&Hspa&Hm1).
    assert (ma = gmap_of g) as -> by (apply map_eq; intros i; rewrite Hma; symmetry; apply (history_nodes _ _ _ _ _ Ha)).
    assert (m1 = gmap_of g1) as -> by (apply map_eq; intros i; rewrite Hm1; symmetry; apply (history_nodes _ _ _ _ _ Hb)).
    split.
    - intros H. eapply commit_listed_ext; [|by apply H]. intros y. apply Hla.
    - intros H m1 Hsp. assert (m1 = gmap_of g1) as -> by exact (sp_commit_det (ts_txn sa) _ _ _ Hsp Hspa).
      eapply commit_listed_ext; [|exact H]. intros y. apply Hla. }
  split.
  - intros [[g1 Hca] H]. apply (Hrest g1 Hca) in H as [g2 Hcb]. by exists g1, g2.
  - intros (g1&g2&Hca&Hcb). split; [by exists g1|]. apply (Hrest g1 Hca). by exists g2.
Qed.
Print Assumptions C76_cut_succeeds.

(** One transaction with every kind of call, and the same cut after its first mutate. *)
Definition calls76a (k : nat) : list opn := [ORedirect k 1 4; OInsert k (nA 1 [3] [3; 2] 5) 5; OMutate k 2 bump_mut]%N.
Definition calls76b (k : nat) : list opn := [OMutate k 2 (relink 5 [3] []); OUpdate k 4 bump_upd; ORedirectAll k 3 2; ORemove k 1]%N.
Definition e76 : list opn := setup ++ ONewTrans 1 0 :: calls76a 1 ++ calls76b 1.
Definition e76a : list opn := setup ++ ONewTrans 1 0 :: calls76a 1.
Definition e76b : list opn := e76a ++ OCommit 0 1 :: ONewTrans 2 0 :: calls76b 2.
Example C76_case :
  cuts (ts_txn (ks E0 e76 1)) (ts_txn (ks E0 e76a 1)) (ts_txn (ks E0 e76b 2)) /\
  history E0 True (kg E0 e76 1) (kt E0 e76 1) (ks E0 e76 1) /\ kg E0 e76a 1 = kg E0 e76 1 /\ kg E0 e76b 2 = kc E0 e76a 1 /\
  history E0 True (kg E0 e76a 1) (kt E0 e76a 1) (ks E0 e76a 1) /\ history E0 True (kg E0 e76b 2) (kt E0 e76b 2) (ks E0 e76b 2) /\
  commit E0 (kt E0 e76 1) (kg E0 e76 1) = Done (kc E0 e76 1) tt /\ commit E0 (kt E0 e76a 1) (kg E0 e76a 1) = Done (kc E0 e76a 1) tt /\
  commit E0 (kt E0 e76b 2) (kg E0 e76b 2) = Done (kc E0 e76b 2) tt /\
  (graph_get (kg E0 e76 1) 2%N, graph_get (kc E0 e76a 1) 2%N, graph_get (kc E0 e76 1) 2%N) =
    (Some (nA 1 [1] [1; 0; 1] 2), Some (nA 4 [4] [4; 0; 4] 102), Some (nA 5 [2] [] 102))%N.
Proof.
  split.
  { assert (ts_txn (ks E0 e76 1) = Txn (ts_redir (ks E0 e76 1)) (ts_new (ks E0 e76 1)) ([(2%N, bump_mut)] ++ [(2%N, relink 5 [3] [])])%N
      (ts_upd (ks E0 e76 1)) (ts_redir_all (ks E0 e76 1)) (ts_del (ks E0 e76 1))) as -> by computes.
    assert (ts_txn (ks E0 e76a 1) = Txn (ts_redir (ks E0 e76 1)) (ts_new (ks E0 e76 1)) [(2%N, bump_mut)] [] [] []) as -> by computes.
    assert (ts_txn (ks E0 e76b 2) = Txn [] ∅ [(2%N, relink 5 [3] [])]%N (ts_upd (ks E0 e76 1)) (ts_redir_all (ks E0 e76 1)) (ts_del (ks E0 e76 1))) as -> by computes.
    constructor. }
  split; [hist|]. split; [computes|]. split; [computes|]. split; [hist|]. split; [hist|].
  split; [computes|]. split; [computes|]. split; computes.
Qed.

(** With bidirectional links the removals can still be left to a second transaction: the
    nodes are the same, also in the fields declared bidirectional. *)
Theorem C76_removals_bidirectional :
  forall {D} (E : env) (T : Prop) (g g' g1 g2 : graph D) t ta tb (s sa sb : tspec D) r n q u a d1 d2,
  (forall l k, k ∈ e_opp E l -> nonvec E l) ->
  history E T g t s -> history E T g ta sa -> history E T g1 tb sb ->
  ts_txn s = Txn r n q u a (d1 ++ d2) -> ts_txn sa = Txn r n q u a d1 -> ts_txn sb = Txn [] ∅ [] [] [] d2 ->
  commit E t g = Done g' tt -> commit E ta g = Done g1 tt -> commit E tb g1 = Done g2 tt ->
  forall i, option_Forall2 (same_node E) (graph_get g' i) (graph_get g2 i).
Proof.
  intros D E T g g' g1 g2 t ta tb s sa sb r n q u a d1 d2 Hnv Hh Ha Hb Et Ea Eb Hc Hc1 Hc2.
  by eapply (final_cut_del E T g g1 t ta tb s sa sb).
Qed.
Print Assumptions C76_removals_bidirectional.

(** Once the first transaction is committed, the second succeeds exactly if the nodes it
    removes exist, and then so would have the whole. *)
Theorem C76_removals_succeed :
  forall {D} (E : env) (T : Prop) (g g1 : graph D) t ta tb (s sa sb : tspec D) r n q u a d1 d2,
  bidi_fields E -> (forall v l, e_chk E v l = false -> nonvec E l) -> (forall l v, length (opposites_on E l v) <= 1) ->
  history E T g t s -> history E T g ta sa -> history E T g1 tb sb ->
  ts_txn s = Txn r n q u a (d1 ++ d2) -> ts_txn sa = Txn r n q u a d1 -> ts_txn sb = Txn [] ∅ [] [] [] d2 ->
  e_dbg E = false \/ (ts_res s = ∅ /\ ts_res sb = ∅) -> commit E ta g = Done g1 tt ->
  ((exists g2, commit E tb g1 = Done g2 tt) <-> forall x, x ∈ d2 -> is_Some (graph_get g1 x)) /\
  ((exists g2, commit E tb g1 = Done g2 tt) -> exists g', commit E t g = Done g' tt).
Proof.
  intros D E T g g1 t ta tb s sa sb r n q u a d1 d2 Hbf Hck Hone Hh Ha Hb Et Ea Eb Hres Hc1. split.
  - apply (final_cut_del_second E T g1 tb sb d2 Hb Eb Hbf Hck). tauto.
  - eapply (final_cut_del_whole E T g g1 t ta tb s sa sb); try done. tauto.
Qed.
Print Assumptions C76_removals_succeed.

(** [A.next] and [B.users] are opposites: 3 moves from B1 to B2, 5 is inserted with a link to
    B1, and B1 is removed, in the same or in a second transaction. *)
Definition calls76r (k : nat) : list opn := [OMutate k 3 (relink 2 [] []); OInsert k (nA 1 [3] [1] 5) 5]%N.
Definition r76 : list opn := bsetup ++ ONewTrans 1 0 :: calls76r 1 ++ [ORemove 1 1]%N.
Definition r76a : list opn := bsetup ++ ONewTrans 1 0 :: calls76r 1.
Definition r76b : list opn := r76a ++ [OCommit 0 1; ONewTrans 2 0; ORemove 2 1]%N.
Example C76_removals_case :
  bidi_fields E1 /\ (forall v l, e_chk E1 v l = false -> nonvec E1 l) /\ (forall l v, length (opposites_on E1 l v) <= 1) /\
  (exists r n q u a, ts_txn (ks E1 r76 1) = Txn r n q u a ([] ++ [1%N]) /\ ts_txn (ks E1 r76a 1) = Txn r n q u a [] /\
     ts_txn (ks E1 r76b 2) = Txn [] ∅ [] [] [] [1%N]) /\
  history E1 True (kg E1 r76 1) (kt E1 r76 1) (ks E1 r76 1) /\ kg E1 r76a 1 = kg E1 r76 1 /\ kg E1 r76b 2 = kc E1 r76a 1 /\
  history E1 True (kg E1 r76a 1) (kt E1 r76a 1) (ks E1 r76a 1) /\ history E1 True (kg E1 r76b 2) (kt E1 r76b 2) (ks E1 r76b 2) /\
  commit E1 (kt E1 r76 1) (kg E1 r76 1) = Done (kc E1 r76 1) tt /\ commit E1 (kt E1 r76a 1) (kg E1 r76a 1) = Done (kc E1 r76a 1) tt /\
  commit E1 (kt E1 r76b 2) (kg E1 r76b 2) = Done (kc E1 r76b 2) tt /\
  (graph_get (kg E1 r76 1) 1%N, graph_get (kc E1 r76a 1) 1%N) = (Some (nB 0 [3; 4] 1), Some (nB 0 [4; 5] 1))%N /\
  (graph_get (kc E1 r76 1) 5%N, graph_get (kc E1 r76b 2) 5%N) = (Some (nA 0 [3] [0] 5), Some (nA 0 [3] [0] 5))%N.
Proof.
  split; [apply E1_fields|]. split; [apply E1_checks|]. split; [apply E1_one|]. split.
  { exists (ts_redir (ks E1 r76 1)), (ts_new (ks E1 r76 1)), (ts_mut (ks E1 r76 1)), (ts_upd (ks E1 r76 1)), (ts_redir_all (ks E1 r76 1)).
    split; [computes|]. split; computes. }
  split; [hist|]. split; [computes|]. split; [computes|]. split; [hist|]. split; [hist|].
  split; [computes|]. split; [computes|]. split; [computes|]. split; computes.
Qed.

(** With bidirectional links the whole can succeed where a part panics: two pairs of nodes
    exchange their partners.  ([A.next] and [B.owner] are opposites.) *)
Definition opp76 (l : link) : list link :=
  if decide (l = Link 0 0) then [Link 1 0] else if decide (l = Link 1 0) then [Link 0 0] else [].
Definition E76 : env := Env ex_kinds opp76 (fun _ _ => true) (fun _ l => l) true.
Definition upd76 (nxt : idx) : upd_fn nat := fun n => match relink nxt [] [] n with Done n' _ => Ok n' | Panicked p _ => Err p end.
Lemma upd76_ok E T nxt : e_kinds E = ex_kinds -> upd_ok E T (upd76 nxt).
Proof.
  intros HE n n' Hok. unfold upd76. destruct (relink nxt [] [] n) as [n2 []|] eqn:Hr; [|done]. intros [= <-].
  by eapply (relink_ok E T nxt [] []).
Qed.
Ltac sides76 := repeat (constructor; [first [exact I | apply relink_ok; [reflexivity|vm_compute; reflexivity] | apply upd76_ok; reflexivity]|]); constructor.
Ltac hist76 := apply run_hist_pick; [sides76|vm_compute; eexists; reflexivity].
Definition setup76 : list opn :=
  [ONewCtx 7; ONewGraph 0 0; ONewTrans 0 0; OInsert 0 (nB 3 [] 1) 1; OInsert 0 (nB 4 [] 2) 2; OInsert 0 (nA 1 [] [] 3) 3; OInsert 0 (nA 2 [] [] 4) 4;
   OCommit 0 0; ONewTrans 1 0]%N.
Definition o76a : list opn := setup76 ++ [OMutate 1 3 (relink 2 [] [])]%N.
Definition o76 : list opn := o76a ++ [OUpdate 1 4 (upd76 1)]%N.
Theorem C76_bidirectional_differs :
  exists (E : env) (g g' gp : graph nat) t ta s sa tb_txn,
  bidi_fields E /\ (forall l v, length (opposites_on E l v) <= 1) /\ (forall v l, e_chk E v l = true) /\
  cuts (ts_txn s) (ts_txn sa) tb_txn /\ history E True g t s /\ history E True g ta sa /\
  commit E t g = Done g' tt /\ commit E ta g = Panicked PAddOccupied gp.
Proof.
  exists E76, (kg E76 o76 1), (kc E76 o76 1), (kc E76 o76a 1), (kt E76 o76 1), (kt E76 o76a 1), (ks E76 o76 1), (ks E76 o76a 1).
  exists (Txn [] ∅ [] [(4, upd76 1)] [] [])%N.
  split.
  { intros l k. cbn. unfold opp76.
    repeat (case_decide as H0; [intros Hin; subst l; repeat (apply elem_of_cons in Hin as [->|Hin]; [split; [decides|left; done]|]); by apply elem_of_nil in Hin|clear H0]).
    by intros ?%elem_of_nil. }
  split. { intros l v. unfold opposites_on. cbn. unfold opp76. repeat case_decide; cbn; repeat case_decide; cbn; lia. }
  split; [done|]. split.
  { assert (ts_txn (ks E76 o76 1) = Txn [] ∅ (ts_mut (ks E76 o76 1)) ([] ++ [(4, upd76 1)]) [] [])%N as -> by computes.
    assert (ts_txn (ks E76 o76a 1) = Txn [] ∅ (ts_mut (ks E76 o76 1)) [] [] [])%N as -> by computes. constructor. }
  assert (kg E76 o76a 1 = kg E76 o76 1) as Heq by computes.
  split; [hist76|]. split; [rewrite <- Heq; hist76|]. split; computes.
Qed.
Print Assumptions C76_bidirectional_differs.
