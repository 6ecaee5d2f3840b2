(** * Inserting nodes and removing them again: C77 *)
From stdpp Require Export gmap.
From Verif Require Import Undo ExHist ExTrans Decide PropsBidi PropsFindings PropsExact.

Section props.
  Context {D : Type} (E : env) (T : Prop) (g g1 : graph D) (ta tb : trans D) (sa sb : tspec D).
  Context (Ha : history E T g ta sa) (Hb : history E T g1 tb sb).
  Context (Hxs : forall x, x ∈ ts_del sb <-> is_Some (ts_new sa !! x)) (Hne : no_early g sa).
  Lemma early_free i n x : graph_get g i = Some n -> x ∈ ts_del sb -> ~ links_to n x.
  Proof using Hne Hxs. intros Hn Hx Hl. apply Hxs in Hx as [n' Hn']. by rewrite (Hne i n x Hn Hl) in Hn'. Qed.
End props.

(** The first transaction only inserts nodes, none of which an existing node already refers
    to; the second, made after it was committed, only removes these nodes.  Then every node is
    as before: the same variant, data and links, with the links that the first commit had
    added to existing nodes as opposites of the new nodes' links gone again. *)
Theorem C77_insert_remove_undone :
  forall {D} (E : env) (T : Prop) (g g1 g2 : graph D) ta tb (sa sb : tspec D),
  (forall l k, k ∈ e_opp E l -> nonvec E l) -> history E T g ta sa -> history E T g1 tb sb ->
  only_inserts (ts_new sa) (ts_txn sa) -> only_removes (ts_del sb) (ts_txn sb) ->
  (forall x, x ∈ ts_del sb <-> is_Some (ts_new sa !! x)) -> no_early g sa ->
  commit E ta g = Done g1 tt -> commit E tb g1 = Done g2 tt ->
  forall i, option_Forall2 (same_node E) (graph_get g i) (graph_get g2 i).
Proof.
  intros D E T g g1 g2 ta tb sa sb Hnv Ha Hb Hia Hrb Hxs Hne Hc Hc2.
  apply (final_undone E T g g1 ta tb sa sb (ts_new sa) (ts_del sb) Ha Hb Hia Hrb Hxs); [|done..].
  intros i n x. by apply (early_free g sa sb Hxs Hne i n x).
Qed.
Print Assumptions C77_insert_remove_undone.

(** Without bidirectional links the nodes are identical. *)
Theorem C77_plain_identical :
  forall {D} (E : env) (T : Prop) (g g1 g2 : graph D) ta tb (sa sb : tspec D),
  (forall l, e_opp E l = []) -> history E T g ta sa -> history E T g1 tb sb ->
  only_inserts (ts_new sa) (ts_txn sa) -> only_removes (ts_del sb) (ts_txn sb) ->
  (forall x, x ∈ ts_del sb <-> is_Some (ts_new sa !! x)) -> no_early g sa ->
  commit E ta g = Done g1 tt -> commit E tb g1 = Done g2 tt ->
  forall i, graph_get g2 i = graph_get g i.
Proof.
  intros D E T g g1 g2 ta tb sa sb Ho Ha Hb Hia Hrb Hxs Hne Hc Hc2 i.
  assert (forall l k, k ∈ e_opp E l -> nonvec E l) as Hnv by (intros l k Hk; rewrite Ho in Hk; by apply elem_of_nil in Hk).
  pose proof (C77_insert_remove_undone E T g g1 g2 ta tb sa sb Hnv Ha Hb Hia Hrb Hxs Hne Hc Hc2 i) as H.
  destruct (graph_get g i) as [n|].
  - apply o2_r in H as (n2&->&(Hv&Hd&Hf)&_). f_equal. destruct n as [v ls d], n2 as [v2 ls2 d2]. cbn in *. subst. f_equal.
    apply list_eq. intros f. apply Hf. intros [l Hl]. revert Hl. by rewrite !Ho, !elem_of_nil; intros [].
  - by apply o2_none in H.
Qed.
Print Assumptions C77_plain_identical.

(** The second commit cannot fail if it reserves nothing. *)
Theorem C77_remove_succeeds :
  forall {D} (E : env) (T : Prop) (g g1 : graph D) ta tb (sa sb : tspec D),
  bidi_fields E -> (forall v l, e_chk E v l = false -> nonvec E l) -> history E T g ta sa -> history E T g1 tb sb ->
  only_inserts (ts_new sa) (ts_txn sa) -> only_removes (ts_del sb) (ts_txn sb) ->
  (forall x, x ∈ ts_del sb <-> is_Some (ts_new sa !! x)) -> no_early g sa ->
  e_dbg E = false \/ ts_res sb = ∅ -> commit E ta g = Done g1 tt -> exists g2, commit E tb g1 = Done g2 tt.
Proof.
  intros D E T g g1 ta tb sa sb Hbf Hck Ha Hb Hia Hrb Hxs Hne Hres Hc.
  pose proof (history_del_NoDup E T g1 tb sb Hb) as Hnd.
  apply (final_undo_succeeds E T g g1 ta tb sa sb (ts_new sa) (ts_del sb) Ha Hb Hia Hrb Hxs); [|by intros l k Hk; eapply Hbf|done..].
  intros i n x. by apply (early_free g sa sb Hxs Hne i n x).
Qed.
Print Assumptions C77_remove_succeeds.

(** Schema [E1] (A.next <-> B.users): 5 and 7 link to existing nodes, 6 to 5. *)
Definition e77a : list opn := bsetup ++
  [ONewTrans 1 0; OInsert 1 (nA 0 [3; 4] [1; 5] 5) 5; OInsert 1 (nB 0 [5] 6) 6; OInsert 1 (nA 2 [4] [] 7) 7]%N.
Definition e77b : list opn := e77a ++ [OCommit 0 1; ONewTrans 2 0; ORemove 2 6; ORemove 2 5; ORemove 2 7]%N.
Lemma e77_new : map_to_list (ts_new (ks E1 e77a 1)) ≡ₚ [(5, nA 0 [3; 4] [1; 5] 5); (6, nB 0 [5] 6); (7, nA 2 [4] [] 7)]%N.
Proof. vm_compute. solve_Permutation. Qed.
Example C77_case :
  bidi_fields E1 /\ (forall v l, e_chk E1 v l = false -> nonvec E1 l) /\
  history E1 True (kg E1 e77a 1) (kt E1 e77a 1) (ks E1 e77a 1) /\ history E1 True (kg E1 e77b 2) (kt E1 e77b 2) (ks E1 e77b 2) /\
  kg E1 e77b 2 = kc E1 e77a 1 /\ only_inserts (ts_new (ks E1 e77a 1)) (ts_txn (ks E1 e77a 1)) /\
  only_removes (ts_del (ks E1 e77b 2)) (ts_txn (ks E1 e77b 2)) /\
  (forall x, x ∈ ts_del (ks E1 e77b 2) <-> is_Some (ts_new (ks E1 e77a 1) !! x)) /\ NoDup (ts_del (ks E1 e77b 2)) /\
  no_early (kg E1 e77a 1) (ks E1 e77a 1) /\ ts_res (ks E1 e77b 2) = ∅ /\
  commit E1 (kt E1 e77a 1) (kg E1 e77a 1) = Done (kc E1 e77a 1) tt /\
  commit E1 (kt E1 e77b 2) (kg E1 e77b 2) = Done (kc E1 e77b 2) tt /\
  (graph_get (kg E1 e77a 1) 2%N, graph_get (kc E1 e77a 1) 2%N, graph_get (kc E1 e77b 2) 2%N) =
    (Some (nB 0 [] 2), Some (nB 0 [7] 2), Some (nB 0 [] 2))%N.
Proof.
  split; [apply E1_fields|]. split; [apply E1_checks|].
  assert (history E1 True (kg E1 e77a 1) (kt E1 e77a 1) (ks E1 e77a 1)) as Ha by hist.
  split; [exact Ha|]. split; [hist|]. split; [computes|].
  split; [computes|]. split; [computes|]. split.
  { intros x. assert (ts_del (ks E1 e77b 2) = [6; 5; 7]%N) as -> by computes. split.
    - intros Hx. repeat (apply elem_of_cons in Hx as [-> |Hx]; [vm_compute; eexists; reflexivity|]). by apply elem_of_nil in Hx.
    - intros [n Hn]. apply elem_of_map_to_list in Hn. rewrite e77_new in Hn.
      apply elem_of_cons in Hn as [[= -> _]|Hn]; [decides|]. apply elem_of_cons in Hn as [[= -> _]|Hn]; [decides|].
      apply elem_of_list_singleton in Hn as [= -> _]. decides. }
  split; [decides|]. split; [apply (no_earlyb_sound E1); [by eapply hist_wf|computes]|].
  split; [apply (proj1 (map_to_list_empty_iff _)); computes|]. split; [computes|]. split; computes.
Qed.

(** Why no existing node may refer to the inserted ones: node 2 linked to the index 1 that
    another transaction had reserved; filling and removing 1 clears this link. *)
Definition e77e : list opn :=
  [ONewCtx 7; ONewGraph 0 0; ONewTrans 0 0; ONewTrans 1 0; OAlloc 1 1 1; OInsert 0 (nA 1 [1] [1] 2) 2; OCommit 0 0; OFill 1 1 (nB 0 [] 1)]%N.
Definition e77f : list opn := e77e ++ [OCommit 0 1; ONewTrans 2 0; ORemove 2 1]%N.
Theorem C77_earlier_link_lost :
  history E0 True (kg E0 e77e 1) (kt E0 e77e 1) (ks E0 e77e 1) /\ history E0 True (kg E0 e77f 2) (kt E0 e77f 2) (ks E0 e77f 2) /\
  kg E0 e77f 2 = kc E0 e77e 1 /\ only_inserts (ts_new (ks E0 e77e 1)) (ts_txn (ks E0 e77e 1)) /\
  only_removes [1%N] (ts_txn (ks E0 e77f 2)) /\ map_to_list (ts_new (ks E0 e77e 1)) = [(1, nB 0 [] 1)]%N /\
  commit E0 (kt E0 e77e 1) (kg E0 e77e 1) = Done (kc E0 e77e 1) tt /\
  commit E0 (kt E0 e77f 2) (kg E0 e77f 2) = Done (kc E0 e77f 2) tt /\
  (graph_get (kg E0 e77e 1) 2%N, graph_get (kc E0 e77f 2) 2%N) = (Some (nA 1 [1] [1] 2), Some (nA 0 [] [0] 2))%N.
Proof.
  split; [hist|]. split; [hist|]. split; [computes|]. split; [computes|]. split; [computes|]. split; [computes|].
  split; [computes|]. split; computes.
Qed.
Print Assumptions C77_earlier_link_lost.
