(** * Whole programs run like an abstract machine: C85 *)
From stdpp Require Export gmap.
From Verif Require Import Machine Sim ExHist ExTrans PropsOrder PropsSame PropsApi PropsExact PropsFindings.

(** ** C85 *)
(** [Machine.v] defines the machine: its graphs are finite maps of nodes with a set of known
    indices, its transactions are what their calls ask for, and nothing of arenas, back-links
    or recorders is left.  [E] is any schema without bidirectional declarations whose link
    types are declared on links that are not [Vec]s, in a debug build.  A program is any
    sequence of calls on any number of contexts, graphs and transactions, except
    [switch_context] and going on with a graph after a caught panic of a commit, and with
    [commit_checked] only if the schema has no [Vec] links ([machine_op]). *)
(** Every call of a program returns normally, with the indices given, exactly if the machine
    can make all of its steps. *)
Theorem C85_runs_like_machine :
  forall {D} (E : env) (T : Prop) (os : list (op (D:=D))),
  e_dbg E = true -> (forall l, e_opp E l = []) -> (forall v l, e_chk E v l = false -> nonvec E l) ->
  (exists w, runs E T os w) /\ Forall (machine_op E) os <-> exists a, aruns E T os a.
Proof. intros. by apply final_runs_iff. Qed.
Print Assumptions C85_runs_like_machine.

(** Afterwards the contexts and their counters are those of the machine, every graph holds
    exactly the nodes of the machine's graph and knows the same indices, and every transaction
    holds what the machine's transaction holds. *)
Theorem C85_same_contents :
  forall {D} (E : env) (T : Prop) (os : list (op (D:=D))) w a,
  e_dbg E = true -> (forall l, e_opp E l = []) -> (forall v l, e_chk E v l = false -> nonvec E l) ->
  runs E T os w -> aruns E T os a ->
  w_ctx w = aw_ctx a /\
  (forall kg, option_Forall2 (fun cg ca => cg.1 = ca.1 /\ (forall i, graph_get cg.2 i = ag_nodes ca.2 !! i) /\ known E T cg.2 (ag_known ca.2))
     (w_graphs w !! kg) (aw_graphs a !! kg)) /\
  (forall k, option_Forall2 (fun ct cs => ct.1 = cs.1 /\ trans_is ct.2 cs.2) (w_trans w !! k) (aw_trans a !! k)).
Proof. intros. by eapply final_same. Qed.
Print Assumptions C85_same_contents.

(** After the same calls, the next call returns normally exactly if the machine can make the
    step.  A call that the machine cannot make is one that panics or that the types or usage
    rules forbid. *)
Theorem C85_next_call :
  forall {D} (E : env) (T : Prop) (os : list (op (D:=D))) w a o,
  e_dbg E = true -> (forall l, e_opp E l = []) -> (forall v l, e_chk E v l = false -> nonvec E l) ->
  runs E T os w -> aruns E T os a -> machine_op E o ->
  (exists w', step E T w o w') <-> exists a', astep E T a o a'.
Proof.
  intros D E T os w a o Hd Ho Hc Hw Ha Hp. destruct (runs_bwd E T Hd Ho Hc os a Ha) as (w1&lg&Hw1&Hl&Hs).
  assert (w1 = w) as -> by by eapply runs_det. split.
  - intros [w' Hw']. destruct (fwd E T Hd Ho Hc w lg a o w' Hl Hs Hp Hw') as (a'&Ha'&_). eauto.
  - intros [a' Ha']. by eapply bwd.
Qed.
Print Assumptions C85_next_call.

(** the machine leaves nothing open *)
Theorem C85_machine_deterministic :
  forall {D} (E : env) (T : Prop) (os : list (op (D:=D))) a1 a2, aruns E T os a1 -> aruns E T os a2 -> a1 = a2.
Proof. intros. by eapply aruns_det. Qed.
Print Assumptions C85_machine_deterministic.

(** A release build, with any order of hash sets, can make all the steps the machine can, and
    the nodes and transactions are the same. *)
Theorem C85_release :
  forall {D} (E E' : env) (T : Prop) (os : list (op (D:=D))) a,
  e_dbg E = true -> (forall l, e_opp E l = []) -> (forall v l, e_chk E v l = false -> nonvec E l) ->
  e_kinds E' = e_kinds E -> (forall l, e_opp E' l = []) -> (forall v l, e_chk E' v l = e_chk E v l) ->
  aruns E T os a ->
  exists w, runs E' T os w /\ w_ctx w = aw_ctx a /\
  (forall kg, option_Forall2 (fun cg ca => cg.1 = ca.1 /\ forall i, graph_get cg.2 i = ag_nodes ca.2 !! i) (w_graphs w !! kg) (aw_graphs a !! kg)) /\
  (forall k, option_Forall2 (fun ct cs => ct.1 = cs.1 /\ trans_is ct.2 cs.2) (w_trans w !! k) (aw_trans a !! k)).
Proof.
  intros D E E' T os a Hd Ho Hc Hk Ho' Hc' Ha. destruct (runs_bwd E T Hd Ho Hc os a Ha) as (w&lg&Hw&_).
  destruct (final_same E T Hd Ho Hc os w a Hw Ha) as (H1&H2&H3).
  destruct (runs_sim E E' (eq_sym Hk) Ho Ho' (fun v l => eq_sym (Hc' v l)) (fun _ => Hd) T os w Hw) as (v&Hv&Hs1&Hs2&Hs3).
  { intros kg k p Hin. pose proof (aruns_plain E T os a Ha) as Hpl. rewrite Forall_forall in Hpl. by apply (Hpl _ Hin). }
  exists v. split; [done|]. split; [congruence|]. split; [|by rewrite <- Hs2].
  intros kg. specialize (H2 kg). specialize (Hs3 kg). destruct H2 as [[c1 g1] [c2 A] (Hcc&Hg&_)|].
  - inversion Hs3 as [? [c3 g3] [Hcc' (_&Hn&_)]|]; subst. constructor. cbn in *. split; [congruence|]. intros i. rewrite <- Hg. unfold graph_get. by rewrite Hn.
  - inversion Hs3. constructor.
Qed.
Print Assumptions C85_release.

Local Instance linkval_eq_dec : EqDecision linkval.
Proof. solve_decision. Defined.
Local Instance node_eq_dec : EqDecision (node nat).
Proof. solve_decision. Defined.
(** All kinds of calls: the two transactions of [busy], a graph read from a serialized form in
    a context of its own, a graph merged into a transaction, reservations filled and given up. *)
Definition e85 : list opn :=
  busy ++ [OCommit 0 1; ODeser 1 (GSerial 9 [(3, nB 0 [5] 1); (8, nA 3 [] [8; 2] 2)]);
    ONewTrans 2 1; OMutate 2 8 bump_mut; OInsert 2 (nA 8 [3] [] 3) 9; OCommit 1 2;
    ONewGraph 2 0; ONewTrans 3 0; OInsert 3 (nB 0 [] 7) 7; OCommit 2 3;
    ONewTrans 4 0; OMerge 4 2; OAllocUntyped 4 8; OFillUntyped 4 8 (nB 7 [] 8); OUpdate 4 7 bump_upd; ORedirect 4 2 7; OCommit 0 4;
    ONewTrans 5 0; OAlloc 5 0 9; ORemove 5 9; ORemove 5 3; OGiveUp 5; ONewTrans 6 0; OAllocUntyped 6 10; ORedirectAll 6 3 7]%N.
Example C85_case : exists w a, runs E0 True e85 w /\ aruns E0 True e85 a /\
  ag_nodes <$> (snd <$> aw_graphs a !! 0) = Some (list_to_map
    [(2, nA 4 [4] [4; 0; 4] 102); (3, nA 7 [4; 7] [7] 3); (5, nA 0 [7] [7; 7] 105); (4, nB 0 [] 104); (6, nB 5 [7] 6); (7, nB 0 [] 107); (8, nB 7 [] 8)]%N) /\
  ag_nodes <$> (snd <$> aw_graphs a !! 1) = Some (list_to_map [(3, nB 0 [5] 1); (8, nA 3 [] [8; 2] 102); (9, nA 8 [3] [] 3)]%N) /\
  aw_graphs a !! 2 = None /\ aw_ctx a = [(7, 10); (9, 9)]%N /\
  exists s, aw_trans a !! 6 = Some (0, s) /\ ts_redir_all s = [(3, 7)]%N /\ is_Some (ts_res s !! 10%N).
Proof.
  assert (runs E0 True e85 (rw E0 e85)) as Hr. { apply run_runs; [unfold e85, busy, setup; cbn [app]; sides|computes]. }
  destruct (proj1 (C85_runs_like_machine E0 True e85 eq_refl (fun _ => eq_refl) (fun v l H => match Bool.diff_true_false H with end))) as [a Ha].
  { split; [by exists (rw E0 e85)|]. unfold e85, busy, setup. cbn [app]. repeat (constructor; [exact I|]). constructor. }
  destruct (C85_same_contents E0 True e85 (rw E0 e85) a eq_refl (fun _ => eq_refl) (fun v l H => match Bool.diff_true_false H with end) Hr Ha) as (Hc&Hg&Ht).
  assert (forall kg c m, (fun cg => (cg.1, gmap_of cg.2)) <$> w_graphs (rw E0 e85) !! kg = Some (c, m) -> ag_nodes <$> (snd <$> aw_graphs a !! kg) = Some m) as Hgr.
  { intros kg c m Hm. specialize (Hg kg). destruct (w_graphs (rw E0 e85) !! kg) as [[c1 g1]|] eqn:Hw; [|discriminate Hm]. cbn in Hm. injection Hm as _ <-.
    inversion Hg as [? [c2 A] (_&HA&_) Heq H2|]. subst. cbn [fmap option_fmap option_map snd]. f_equal. apply map_eq. intros i. cbn [snd] in HA. rewrite <- HA.
    rewrite (gmap_of_get E0); [reflexivity|]. assert (inv E0 True (rw E0 e85)) as Hi by (eapply reachable_inv, runs_reachable; exact Hr).
    exact (proj1 (iv_graph _ _ _ Hi _ _ _ Hw)). }
  exists (rw E0 e85), a. split; [exact Hr|]. split; [exact Ha|].
  split; [apply (Hgr 0 0); decides|]. split; [apply (Hgr 1 1); decides|]. split; [|split].
  - specialize (Hg 2). assert (w_graphs (rw E0 e85) !! 2 = None) as Hn by computes. rewrite Hn in Hg. inversion Hg. reflexivity.
  - rewrite <- Hc. computes.
  - specialize (Ht 6). assert (exists t, w_trans (rw E0 e85) !! 6 = Some (0, t) /\ t_redir_all t = [(3, 7)]%N /\ t_alloc t = [10%N]) as (t&Hw&H1&H2).
    { eexists. split; [computes|]. split; reflexivity. }
    rewrite Hw in Ht. inversion Ht as [? [c s] [Hcc Hs] Heq|]. subst. cbn in Hcc, Hs. subst. exists s. split; [reflexivity|].
    destruct Hs as (_&Hal&_&_&_&Hra&_). split; [congruence|]. apply Hal. rewrite H2. left.
Qed.
(** Checked commits, in a schema without [Vec] links ([E30]): the first is made, a check that
    refuses every added link stops the second, for the machine too. *)
Definition e85c : list opn :=
  [ONewCtx 7; ONewGraph 0 0; ONewTrans 0 0; OInsert 0 (nB 0 [] 1) 1; OInsert 0 (nC 1 [] 2) 2;
   OCommitChecked 0 0 (GraphCheck [("n"%string, fun _ _ => true)] [("a"%string, yes_chk)] []); ONewTrans 1 0; OInsert 1 (nC 2 [1] 3) 3; OMutate 1 2 bump_mut]%N.
Example C85_checked_case : exists w a, runs E30 True e85c w /\ aruns E30 True e85c a /\
  ag_nodes <$> (snd <$> aw_graphs a !! 0) = Some (list_to_map [(1, nB 0 [] 1); (2, nC 1 [] 2)]%N) /\
  (exists a', astep E30 True a (OCommitChecked 0 1 (GraphCheck [] [("a"%string, yes_chk)] [])) a') /\
  ~ exists a', astep E30 True a (OCommitChecked 0 1 (GraphCheck [] [("a"%string, no_chk)] [])) a'.
Proof.
  assert (runs E30 True e85c (rw E30 e85c)) as Hr. { apply run_runs; [unfold e85c; cbn [app]; sides|computes]. }
  destruct (proj1 (C85_runs_like_machine E30 True e85c eq_refl (fun _ => eq_refl) (fun v l H => match Bool.diff_true_false H with end))) as [a Ha].
  { split; [by exists (rw E30 e85c)|]. unfold e85c. repeat (constructor; [first [exact I|exact E30_nonvec]|]). constructor. }
  destruct (C85_same_contents E30 True e85c (rw E30 e85c) a eq_refl (fun _ => eq_refl) (fun v l H => match Bool.diff_true_false H with end) Hr Ha) as (_&Hg&_).
  exists (rw E30 e85c), a. split; [exact Hr|]. split; [exact Ha|]. split.
  { specialize (Hg 0). destruct (w_graphs (rw E30 e85c) !! 0) as [[c1 g1]|] eqn:Hw; [|vm_compute in Hw; discriminate Hw].
    inversion Hg as [? [c2 A] (_&HA&_) Heq H2|]. subst. cbn [fmap option_fmap option_map snd]. f_equal. apply map_eq. intros i. cbn [snd] in HA. rewrite <- HA.
    rewrite <- (gmap_of_get E30); [|assert (inv E30 True (rw E30 e85c)) as Hi by (eapply reachable_inv, runs_reachable; exact Hr); exact (proj1 (iv_graph _ _ _ Hi _ _ _ Hw))].
    f_equal. assert ((fun cg => gmap_of cg.2) <$> w_graphs (rw E30 e85c) !! 0 = Some (list_to_map [(1, nB 0 [] 1); (2, nC 1 [] 2)]%N)) as Hm by decides.
    rewrite Hw in Hm. cbn in Hm. by injection Hm. }
  assert (forall o, machine_op E30 o -> (exists w', step E30 True (rw E30 e85c) o w') <-> exists a', astep E30 True a o a') as Hnext.
  { intros o Ho. exact (C85_next_call E30 True e85c _ a o eq_refl (fun _ => eq_refl) (fun v l H => match Bool.diff_true_false H with end) Hr Ha Ho). }
  split.
  - apply Hnext; [exact E30_nonvec|]. eexists. eapply st_commit_checked; [computes|computes|computes].
  - intros Hn. apply Hnext in Hn as [w' Hw']; [|exact E30_nonvec]. inversion Hw'. subst. match goal with H : commit_checked _ ?t0 _ ?g0 = Done ?g1 tt |- _ => rename H into Hc, t0 into t, g0 into g end. match goal with H : w_trans _ !! _ = Some _ |- _ => rename H into Ht end. match goal with H : w_graphs _ !! _ = Some _ |- _ => rename H into Hg0 end.
    assert (commit_checked E30 (kt E30 e85c 1) (GraphCheck [] [("a"%string, no_chk)] []) (kg E30 e85c 1) = Panicked PCheckFailed (kc E30 e85c 1)) as Hp by computes.
    assert (t = kt E30 e85c 1) as ->. { assert (snd <$> w_trans (rw E30 e85c) !! 1 = Some (kt E30 e85c 1)) as H by computes. rewrite Ht in H. cbn in H. congruence. }
    assert (g = kg E30 e85c 1) as ->. { assert (snd <$> w_graphs (rw E30 e85c) !! 0 = Some (kg E30 e85c 1)) as H by computes. rewrite Hg0 in H. cbn in H. congruence. }
    rewrite Hp in Hc. discriminate Hc.
Qed.
