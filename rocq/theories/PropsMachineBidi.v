(** * Whole programs with bidirectional links run like an abstract machine: C86 *)
From stdpp Require Export gmap.
From Verif Require Import MachineBidi Sim ExHist ExTrans PropsBidi PropsExact PropsOrder PropsSame PropsSucc.

(** ** C86 *)
(** [MachineBidi.v] extends the machine of C85 to schemas with bidirectional declarations.
    A commit of the machine carries out what the transaction asks for, and then gives every
    node any contents that have exactly the prescribed links ([m_mirrored]) and are otherwise
    unchanged ([kept]).  [E] is any schema in which the links declared bidirectional are no
    [Vec]s, no variant has two opposites of one link and link types are declared on links that
    are not [Vec]s, in a debug build. *)
(** Every program is a run of the machine: some choices of the machine give exactly the
    contents of the library's contexts, graphs and transactions, and after these the next call
    returns normally exactly if the machine can make the step. *)
Theorem C86_runs_like_machine :
  forall {D} (E : env) (T : Prop) (os : list (op (D:=D))) w,
  e_dbg E = true -> bidi_fields E -> (forall l v, length (opposites_on E l v) <= 1) -> (forall v l, e_chk E v l = false -> nonvec E l) ->
  runs E T os w -> Forall plain_op os ->
  exists a, bruns E T os a /\ same_contents E T w a /\
    forall o, plain_op o -> (exists w', step E T w o w') <-> exists a', bstep E T a o a'.
Proof. intros. by apply final_runs_bidi. Qed.
Print Assumptions C86_runs_like_machine.

(** All the machine leaves open is the order inside sets: two results of one step have the same
    contexts and transactions, and graphs that know the same indices and have nodes alike. *)
Theorem C86_choices :
  forall {D} (E : env) (T : Prop) (a a1 a2 : aworld (D:=D)) o,
  bidi_fields E -> bstep E T a o a1 -> bstep E T a o a2 ->
  aw_ctx a1 = aw_ctx a2 /\ aw_trans a1 = aw_trans a2 /\
  forall kg, option_Forall2 (fun p q : nat * agraph (D:=D) => p.1 = q.1 /\ malike (ag_nodes p.2) (ag_nodes q.2) /\ forall y, ag_known p.2 y <-> ag_known q.2 y)
    (aw_graphs a1 !! kg) (aw_graphs a2 !! kg).
Proof. intros. by eapply bstep_choices. Qed.
Print Assumptions C86_choices.

(** If the closures of the program look at sets as sets ([op_same]): all its calls return
    normally exactly if the machine can make all of its steps, *)
Theorem C86_succeeds_iff :
  forall {D} (E : env) (T : Prop) (os : list (op (D:=D))),
  e_dbg E = true -> bidi_fields E -> (forall l v, length (opposites_on E l v) <= 1) -> (forall v l, e_chk E v l = false -> nonvec E l) ->
  Forall op_same os ->
  (exists w, runs E T os w) /\ Forall plain_op os <-> exists a, bruns E T os a.
Proof. intros. by apply final_bruns_iff. Qed.
Print Assumptions C86_succeeds_iff.

(** and whatever the machine has chosen, its graphs and transactions are those of the library
    up to the order inside sets. *)
Theorem C86_same_contents :
  forall {D} (E : env) (T : Prop) (os : list (op (D:=D))) w a,
  e_dbg E = true -> bidi_fields E -> (forall l v, length (opposites_on E l v) <= 1) -> (forall v l, e_chk E v l = false -> nonvec E l) ->
  Forall op_same os -> runs E T os w -> bruns E T os a ->
  w_ctx w = aw_ctx a /\
  (forall kg, option_Forall2 (fun cg ca => cg.1 = ca.1 /\ (forall i, option_Forall2 alike (graph_get cg.2 i) (ag_nodes ca.2 !! i)) /\
      forall y, listed cg.2 y <-> ag_known ca.2 y) (w_graphs w !! kg) (aw_graphs a !! kg)) /\
  (forall k, option_Forall2 (fun ct cs => ct.1 = cs.1 /\ exists s, trans_is ct.2 s /\ ts_alike s cs.2) (w_trans w !! k) (aw_trans a !! k)).
Proof.
  intros D E T os w a Hd Hbf Hone Hck Hsm Hw Ha. destruct (final_bruns_alike E T Hd Hbf Hone Hck os w a Hsm Hw Ha) as (b&(H1&H2&H3)&[K1 K2 K3]).
  split; [congruence|]. split.
  - intros kg. specialize (H2 kg). specialize (K2 kg). destruct H2 as [[c g] [c' A] (Hc&Hg&HB)|]; inversion K2 as [[c1 A1] ? (Hc1&Hm&HK)|]; subst; constructor.
    cbn in *. split; [congruence|]. split; [intros i; rewrite Hg; by apply malike_sym in Hm|].
    intros y. rewrite (known_listed E T g _ HB). by rewrite HK.
  - intros k. specialize (H3 k). specialize (K3 k). destruct H3 as [[c t] [c' s] (Hc&Hs)|]; inversion K3 as [[c1 s1] ? (Hc1&Hss&_)|]; subst; constructor.
    cbn in *. split; [congruence|]. exists s. split; [done|]. by apply ts_alike_sym.
Qed.
Print Assumptions C86_same_contents.

(** The commit of [bops] (A3.next moves from 1 to 2, A5 and B7 are inserted with links), a
    graph read from data in which B3.users = {8} but A8.next is empty, and the removal of A8. *)
Definition e86 : list opn :=
  bops ++ [OCommit 0 1; ODeser 1 (GSerial 9 [(3, nB 0 [8] 1); (8, nA 0 [] [8; 2] 2)]);
    ONewTrans 2 1; ORemove 2 8; OInsert 2 (nA 3 [] [] 4) 9; OCommit 1 2; ONewTrans 3 0; OUpdate 3 2 bump_upd]%N.
Lemma relink_same nxt peers items : mut_same (relink nxt peers items).
Proof.
  intros n n' (Hv&Hd&_). unfold relink. rewrite <- Hv. destruct (decide (nvar n = 0)); [|done]. split; [done|]. split; [done|].
  repeat (constructor; [done|]). constructor.
Qed.
Lemma e86_same : Forall op_same e86.
Proof.
  unfold e86, bops, bsetup. cbn [app].
  repeat (constructor; [first [exact I|exact bump_upd_same|exact (relink_same _ _ _)]|]). constructor.
Qed.
Example C86_case : exists w a, runs E1 True e86 w /\ bruns E1 True e86 a /\ same_contents E1 True w a /\ Forall op_same e86 /\ Forall plain_op e86 /\
  bidi_fields E1 /\ (forall l v, length (opposites_on E1 l v) <= 1) /\ (forall v l, e_chk E1 v l = false -> nonvec E1 l) /\
  (forall A, snd <$> aw_graphs a !! 0 = Some A ->
     (fun i => ag_nodes A !! i) <$> [1; 2; 3; 6; 7]%N = [Some (nB 0 [4] 101); Some (nB 0 [5; 3] 2); Some (nA 2 [4] [] 3); Some (nA 7 [] [] 6); Some (nB 0 [6] 7)]%N) /\
  (forall A, snd <$> aw_graphs a !! 1 = Some A -> (fun i => ag_nodes A !! i) <$> [3; 8; 9]%N = [Some (nB 0 [9] 1); None; Some (nA 3 [] [] 4)]%N) /\
  is_Some (aw_graphs a !! 0) /\ is_Some (aw_graphs a !! 1).
Proof.
  assert (runs E1 True e86 (rw E1 e86)) as Hr. { apply run_runs; [unfold e86, bops, bsetup; cbn [app]; sides|computes]. }
  assert (forall v l, e_chk E1 v l = false -> nonvec E1 l) as Hck by exact E1_checks.
  assert (Forall plain_op e86) as Hp. { unfold e86, bops, bsetup. cbn [app]. repeat (constructor; [exact I|]). constructor. }
  destruct (C86_runs_like_machine E1 True e86 (rw E1 e86) eq_refl E1_fields E1_one Hck Hr Hp) as (a&Ha&Hs&_).
  exists (rw E1 e86), a. split; [exact Hr|]. split; [exact Ha|]. split; [exact Hs|]. split; [exact e86_same|]. split; [exact Hp|].
  split; [exact E1_fields|]. split; [exact E1_one|]. split; [exact Hck|]. destruct Hs as (_&Hg&_).
  assert (forall kg (xs : list idx) (ns : list (option (node nat))), (fun cg : nat * graph nat => (fun i => graph_get cg.2 i) <$> xs) <$> w_graphs (rw E1 e86) !! kg = Some ns ->
    is_Some (aw_graphs a !! kg) /\ forall A, snd <$> aw_graphs a !! kg = Some A -> (fun i => ag_nodes A !! i) <$> xs = ns) as Hgr.
  { intros kg xs ns Hm. specialize (Hg kg). destruct (w_graphs (rw E1 e86) !! kg) as [[c1 g1]|] eqn:Hw; [|discriminate Hm]. cbn in Hm. injection Hm as <-.
    inversion Hg as [? [c2 A] (_&HA&_) Heq H2|]. subst. split; [by eexists|]. cbn. intros A' [= <-]. cbn in HA.
    apply list_fmap_ext. intros ? i _. by rewrite HA. }
  destruct (Hgr 0 [1; 2; 3; 6; 7]%N _ ltac:(computes)) as [S0 H0]. destruct (Hgr 1 [3; 8; 9]%N _ ltac:(computes)) as [S1 H1].
  split; [exact H0|]. split; [exact H1|]. split; [exact S0|exact S1].
Qed.
