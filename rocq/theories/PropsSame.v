(** * The same program builds the same graphs: C67 *)
From Verif Require Import Sim Release ExHist ExTrans PropsOrder PropsBidi.

(** ** C67 *)
(** Full statement: as below without [e_opp E l = []].  It is false
    ([C67_bidirectional_refuted]); missing is nothing else but schemas with declarations. *)
(** The iteration order of [HashSet] links and the kind of build are the only things the code
    takes from outside.  Without bidirectional declarations neither can be observed: if a
    sequence of calls succeeds in both environments, all nodes, all iteration orders, all
    transactions and all counters are equal.  [E] and [E'] share the declarations only. *)
Theorem C67_same_graphs_partial :
  forall {D} (E E' : env) (T : Prop) (os : list (op (D:=D))) w w',
  e_kinds E = e_kinds E' -> (forall l, e_opp E l = []) -> (forall l, e_opp E' l = []) ->
  (forall v l, e_chk E v l = e_chk E' v l) -> (e_dbg E' = true -> e_dbg E = true) ->
  no_caught_panic os -> runs E T os w -> runs E' T os w' ->
  w_ctx w' = w_ctx w /\ w_trans w' = w_trans w /\
  (forall kg c, (exists g, w_graphs w !! kg = Some (c, g)) <-> (exists g', w_graphs w' !! kg = Some (c, g'))) /\
  forall kg c c' g g', w_graphs w !! kg = Some (c, g) -> w_graphs w' !! kg = Some (c', g') ->
    c' = c /\ g_ctx g' = g_ctx g /\ (forall x, graph_get g' x = graph_get g x) /\
    graph_iter g' = graph_iter g /\ (forall d, graph_iter_type g' d = graph_iter_type g d).
Proof.
  intros D E E' T os w w' Hk Ho Ho' Hc Hd Hn Hr Hr'. destruct (runs_sim E E' Hk Ho Ho' Hc Hd T os w Hr Hn) as (v&Hv&H1&H2&H3).
  rewrite (runs_det E' T os w' v Hr' Hv). split; [done|]. split; [done|]. split.
  - intros kg c. specialize (H3 kg). destruct H3 as [[c1 g1] [c2 g2] [Hc1 _]|]; cbn in *; [|naive_solver]. subst. naive_solver.
  - intros kg c c' g g' Hg Hg'. specialize (H3 kg). rewrite Hg, Hg' in H3. inversion H3 as [? ? [Hcc (Hgc&Hgn&_)]|]. cbn in *.
    split; [done|]. split; [done|]. unfold graph_get, graph_iter, graph_iter_type. by rewrite Hgn.
Qed.
Print Assumptions C67_same_graphs_partial.

(** A sequence of calls that succeeds in a debug build succeeds in a release build, and a
    sequence that succeeds for one iteration order succeeds for every other. *)
Theorem C67_same_success_partial :
  forall {D} (E E' : env) (T : Prop) (os : list (op (D:=D))) w,
  e_kinds E = e_kinds E' -> (forall l, e_opp E l = []) -> (forall l, e_opp E' l = []) ->
  (forall v l, e_chk E v l = e_chk E' v l) -> (e_dbg E' = true -> e_dbg E = true) ->
  no_caught_panic os -> runs E T os w -> exists w', runs E' T os w'.
Proof.
  intros D E E' T os w Hk Ho Ho' Hc Hd Hn Hr. destruct (runs_sim E E' Hk Ho Ho' Hc Hd T os w Hr Hn) as (v&Hv&_). by exists v.
Qed.
Print Assumptions C67_same_success_partial.

(** After the same calls the same further calls succeed and the same panic. *)
Theorem C67_same_panics_partial :
  forall {D} (E E' : env) (T : Prop) (os : list (op (D:=D))) w w' o,
  e_kinds E = e_kinds E' -> (forall l, e_opp E l = []) -> (forall l, e_opp E' l = []) ->
  (forall v l, e_chk E v l = e_chk E' v l) -> e_dbg E' = e_dbg E ->
  no_caught_panic (os ++ [o]) -> runs E T os w -> runs E' T os w' ->
  (exists w1, step E T w o w1) <-> (exists w1', step E' T w' o w1').
Proof.
  assert (forall {D} (E E' : env) (T : Prop) (os : list (op (D:=D))) w w' o,
    e_kinds E = e_kinds E' -> (forall l, e_opp E l = []) -> (forall l, e_opp E' l = []) ->
    (forall v l, e_chk E v l = e_chk E' v l) -> e_dbg E' = e_dbg E ->
    no_caught_panic (os ++ [o]) -> runs E T os w -> runs E' T os w' ->
    (exists w1, step E T w o w1) -> (exists w1', step E' T w' o w1')) as H.
  { intros D E E' T os w w' o Hk Ho Ho' Hc Hd Hn Hr Hr' [w1 Hs].
    destruct (runs_sim E E' Hk Ho Ho' Hc (fun H => eq_trans (eq_sym Hd) H) T (os ++ [o]) w1 (runs_snoc _ _ _ _ _ _ Hr Hs) Hn) as (v&Hv&_).
    destruct (runs_snoc_inv _ _ _ _ _ Hv) as (w0&Hr0&Hs0). rewrite (runs_det E' T os w' w0 Hr' Hr0). by exists v. }
  intros D E E' T os w w' o Hk Ho Ho' Hc Hd Hn Hr Hr'. split; [by apply (H D E E' T os)|]. by apply (H D E' E T os).
Qed.
Print Assumptions C67_same_panics_partial.

(** two B nodes with users are inserted, links to 4 redirected, then a user is removed and
    the context switched; [E61] iterates backwards and is a release build *)
Definition e67 : list opn :=
  setup ++ [ONewTrans 1 0; OInsert 1 (nB 1 [2; 3] 5) 5; OInsert 1 (nB 1 [3; 4; 2] 6) 6; OMutate 1 2 bump_mut; ORedirectAll 1 4 1; OCommit 0 1;
    ONewTrans 2 0; ORemove 2 3; OMutate 2 2 (relink 6 [1; 5] [5]); OCommit 0 2; OSwitch 0 0]%N.
Example C67_case :
  e_kinds E0 = e_kinds E61 /\ (e_dbg E61 = true -> e_dbg E0 = true) /\ no_caught_panic e67 /\
  runs E0 True e67 (rw E0 e67) /\ runs E61 True e67 (rw E61 e67) /\
  iter_sources E0 (nB 1 [2; 3] 5)%N <> iter_sources E61 (nB 1 [2; 3] 5)%N /\
  graph_iter (rgr E0 e67 0) = graph_iter (rgr E61 e67 0) /\ length (graph_iter (rgr E0 e67 0)) = 5.
Proof.
  split; [done|]. split; [done|]. split; [apply npb_sound; computes|].
  split; [apply run_runs; [unfold e67, setup; sides|computes]|]. split; [apply run_runs; [unfold e67, setup; sides|computes]|].
  split; [vm_compute; discriminate|]. split; computes.
Qed.
(** the last call of the first sequence succeeds, that of the second panics: 99 is unknown *)
Definition E67d : env := Env ex_kinds (fun _ => []) (fun _ _ => true) (fun _ l => rev l) true.
Definition e67r : list opn := e67 ++ [ONewTrans 3 0; OInsert 3 (nB 0 [7; 8] 1) 12; ORemove 3 99]%N.
Example C67_case_same_panics :
  e_kinds E0 = e_kinds E67d /\ e_dbg E67d = e_dbg E0 /\ no_caught_panic (e67r ++ [OCommit 0 3]) /\
  runs E0 True e67r (rw E0 e67r) /\ runs E67d True e67r (rw E67d e67r) /\
  exec E0 (rw E0 e67r) (OCommit 0 3) = None /\ exec E67d (rw E67d e67r) (OCommit 0 3) = None /\
  is_Some (exec E0 (rw E0 e67r) (OSwitch 0 0)) /\ is_Some (exec E67d (rw E67d e67r) (OSwitch 0 0)).
Proof.
  split; [done|]. split; [done|]. split; [apply npb_sound; computes|].
  split; [apply run_runs; [unfold e67r, e67, setup; sides|computes]|]. split; [apply run_runs; [unfold e67r, e67, setup; sides|computes]|].
  split; [computes|]. split; [computes|]. split; vm_compute; eauto.
Qed.

(** ** Debug and release builds *)
(** For every schema, with or without bidirectional declarations, and also with caught
    panics: a program that runs in a debug build runs in a release build, through exactly the
    same states. *)
Theorem C67_release_build :
  forall {D} (E : env) (T : Prop) (os : list (op (D:=D))) w, runs E T os w -> runs (release E) T os w.
Proof. intros. by apply runs_release. Qed.
Print Assumptions C67_release_build.
(** Conversely a call that succeeds in the release build succeeds with the same result in the
    debug build, unless it commits a transaction with reserved indices that were not filled. *)
Theorem C67_debug_build :
  forall {D} (E : env) (T : Prop) (w : world (D:=D)) lg o w', lreach E T w lg -> step (release E) T w o w' ->
  step E T w o w' \/ exists k s, op_commits o k /\ ts_run ts_empty (lg k) = Some s /\ ts_res s <> ∅.
Proof. intros. by eapply step_debug. Qed.
Print Assumptions C67_debug_build.
(** a debug run with bidirectional links; and a commit that only the release build accepts *)
Definition e67u : list opn := setup ++ [ONewTrans 1 0; OAlloc 1 1 5; OInsert 1 (nA 5 [] [] 6) 6]%N.
Example C67_case_builds :
  runs E1 True (bops ++ [OCommit 0 1]) (rw E1 (bops ++ [OCommit 0 1])) /\ e_dbg E1 = true /\ length (graph_iter (rgr E1 (bops ++ [OCommit 0 1]) 0)) = 7 /\
  (exists (w : world (D:=nat)) lg, lreach E0 True w lg /\ is_Some (w_trans w !! 1) /\
    exec E0 w (OCommit 0 1) = None /\ is_Some (exec (release E0) w (OCommit 0 1)) /\
    is_Some (exec E0 w (OGiveUp 1)) /\ is_Some (exec (release E0) w (OGiveUp 1))).
Proof.
  split; [apply run_runs; [unfold bops, bsetup; sides|computes]|]. split; [done|]. split; [computes|].
  exists (the_w (run_lw E0 e67u)), (the_lg (run_lw E0 e67u)). split; [apply run_lw_lreach; [sides|runs]|].
  split; [vm_compute; eauto|]. split; [computes|]. split; [vm_compute; eauto|]. split; vm_compute; eauto.
Qed.

(** With bidirectional declarations the order of a [HashSet] can be observed: the change
    record is an ordered set from which entries are removed by swapping, so the order in
    which opposite links are added depends on the order of entries that are no longer in it.
    Variants: 0 with a HashSet link, 1 with [parent : NodeIndex], 2 with
    [children : IndexSet<NodeIndex>]; parent and children are declared bidirectional. *)
Definition opp67 (l : link) : list link :=
  if decide (l = Link 1 0) then [Link 2 0] else if decide (l = Link 2 0) then [Link 1 0] else [].
Definition E67 (ho : N -> list idx -> list idx) : env := Env [[KSet SHash]; [KDirect]; [KSet SIndex]] opp67 (fun _ _ => true) ho true.
Definition e67b : list opn :=
  [ONewCtx 7; ONewGraph 0 0; ONewTrans 0 0; OInsert 0 (Node 1 [LDirect 0] []) 1; OInsert 0 (Node 1 [LDirect 0] []) 2;
   OInsert 0 (Node 2 [LSet SIndex []] []) 3; OCommit 0 0;
   ONewTrans 1 0; OInsert 1 (Node 0 [LSet SHash [1; 2]] []) 4; OInsert 1 (Node 1 [LDirect 3] []) 5; OInsert 1 (Node 1 [LDirect 3] []) 6;
   ORemove 1 1; ORemove 1 2; OCommit 0 1]%N.
Theorem C67_bidirectional_refuted :
  exists (ho ho' : N -> list idx -> list idx) (os : list opn) w w' c g g',
  no_caught_panic os /\ runs (E67 ho) True os w /\ runs (E67 ho') True os w' /\
  w_graphs w !! 0 = Some (c, g) /\ w_graphs w' !! 0 = Some (c, g') /\
  graph_get g 3%N = Some (Node 2 [LSet SIndex [6; 5]] [])%N /\ graph_get g' 3%N = Some (Node 2 [LSet SIndex [5; 6]] [])%N.
Proof.
  exists (fun _ l => l), (fun _ l => rev l), e67b, (rw (E67 (fun _ l => l)) e67b), (rw (E67 (fun _ l => rev l)) e67b), 0,
    (rgr (E67 (fun _ l => l)) e67b 0), (rgr (E67 (fun _ l => rev l)) e67b 0).
  split; [apply npb_sound; computes|].
  split; [apply run_runs; [unfold e67b; sides|computes]|]. split; [apply run_runs; [unfold e67b; sides|computes]|].
  split; [computes|]. split; [computes|]. split; computes.
Qed.
Print Assumptions C67_bidirectional_refuted.
