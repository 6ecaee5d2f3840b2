(** * What declarations of link types can change: C93 *)
From stdpp Require Export gmap.
From Verif Require Import Types Sim ExHist ExTrans PropsBidi PropsExact PropsOrder PropsSame PropsSucc PropsApi PropsMachineBidi.

(** ** C93 *)
(** [link_type!] only decides which commits panic.  [retype E chk] is the enum of [E] with other
    declarations of link types.  If these allow all that [E] allows, every program for [E] is a
    program for them with the same contexts, graphs and transactions; the only calls that may
    answer differently are the commits that stopped because of a link type: they now return
    normally, and the graph is the one they had left behind ([eased]). *)
Theorem C93_laxer_types :
  forall {D} (E : env) (chk : nat -> link -> bool) (T : Prop) (os : list (op (D:=D))) w,
  (forall v l, e_chk E v l = true -> chk v l = true) ->
  runs E T os w -> exists os', Forall2 eased os os' /\ runs (retype E chk) T os' w.
Proof. intros. by apply final_laxer. Qed.
Print Assumptions C93_laxer_types.

(** The other way round, the only calls that may answer differently are commits that returned
    normally: they may stop because of a link type, and have then done everything ([stopped]).
    Context switches are left out: one that panics has consumed the graph. *)
Theorem C93_stricter_types :
  forall {D} (E : env) (chk : nat -> link -> bool) (T : Prop) (os : list (op (D:=D))) w,
  (forall v l, e_chk E v l = true -> chk v l = true) ->
  runs (retype E chk) T os w -> no_switch os -> exists os', Forall2 stopped os os' /\ runs E T os' w.
Proof. intros. by eapply final_stricter. Qed.
Print Assumptions C93_stricter_types.

(** A program that goes on after commits that stopped because of link types (and after no other
    panic) runs like the machine of C90 for the enum without link types, in which these commits
    are ordinary ones ([uncaught]).  No condition on the link types is needed. *)
Theorem C93_caught_type_panics :
  forall {D} (E : env) (T : Prop) (os : list (op (D:=D))) w,
  e_dbg E = true -> bidi_fields E -> (forall l v, length (opposites_on E l v) <= 1) ->
  T -> runs E T os w -> Forall (any_type_op E) os ->
  exists a s, cruns (untyped E) T (uncaught <$> os) a s /\ same_contents (untyped E) T w a /\
    forall kg c g, w_graphs w !! kg = Some (c, g) -> (graph_iter g).*1 = order_of (untyped E) s kg.
Proof. intros. by apply final_untyped_machine. Qed.
Print Assumptions C93_caught_type_panics.

(** [E1] wants A.next to be a B node.  A5 with A5.next = A3 is committed, the panic is caught,
    and the program goes on: B1.users loses 3 as A3 is moved to B2.  Without link types the
    second commit returns normally, and everything is the same. *)
Definition e93 : list opn := bbad ++ [OCommitPanic 0 1 PLinkType; ONewTrans 2 0; OMutate 2 3 (relink 2 [4] []); OUpdate 2 5 bump_upd; OCommit 0 2]%N.
Definition e93u : list opn := bbad ++ [OCommit 0 1; ONewTrans 2 0; OMutate 2 3 (relink 2 [4] []); OUpdate 2 5 bump_upd; OCommit 0 2]%N.
Example C93_case :
  (forall v l, e_chk E1 v l = true -> e_chk (untyped E1) v l = true) /\ (exists v l, e_chk E1 v l = false) /\
  runs E1 True e93 (rw E1 e93) /\ runs (untyped E1) True e93u (rw E1 e93) /\ no_switch e93u /\ uncaught <$> e93 = e93u /\
  run E1 world_new e93u = None /\
  Forall (any_type_op E1) e93 /\ bidi_fields E1 /\ (forall l v, length (opposites_on E1 l v) <= 1) /\
  (fun i => graph_get (rgr E1 e93 0) i) <$> [1; 2; 3; 5]%N = [Some (nB 0 [4] 1); Some (nB 0 [3] 2); Some (nA 2 [4] [] 3); Some (nA 3 [] [] 105)]%N.
Proof.
  assert (runs E1 True e93 (rw E1 e93)) as Hr. { apply run_runs; [unfold e93, bbad, bsetup; cbn [app]; sides|computes]. }
  assert (Forall (any_type_op E1) e93) as Ha.
  { unfold e93, bbad, bsetup. cbn [app]. repeat (constructor; [first [left; exact I|right; eexists _, _; reflexivity]|]). constructor. }
  split; [done|]. split; [exists 0, (Link 0 0); computes|]. split; [exact Hr|]. split.
  { exact (final_untyped E1 E1_fields True e93 (rw E1 e93) Hr Ha). }
  split. { intros kg c Hin. apply elem_of_list_In in Hin. vm_compute in Hin. repeat destruct Hin as [Hin|Hin]; try discriminate Hin; exact Hin. }
  split; [reflexivity|]. split; [computes|]. split; [exact Ha|]. split; [exact E1_fields|]. split; [exact E1_one|]. computes.
Qed.
