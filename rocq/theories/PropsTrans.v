(** * Property theorems: transactions *)
From Verif Require Import ExTrans.

(** ** C35 merge *)
(** The graphs never clash, so merging is possible and overwrites nothing; after merging
    into a new transaction and committing it, the graph holds exactly the nodes of both,
    unchanged up to fields declared bidirectional. *)
Theorem C35_merge_commit :
  forall {D} (E : env) (T : Prop) (g g2 : graph D) (t t' : trans D) (g' : graph D),
  two_graphs E T g g2 t [] -> trans_merge g2 t = Done t' tt -> commit E t' g = Done g' tt ->
  forall i, option_Forall2 (agree_nonbidi E)
    (match graph_get g i with Some n => Some n | None => graph_get g2 i end) (graph_get g' i).
Proof. intros. by eapply final_merge. Qed.
Print Assumptions C35_merge_commit.
Theorem C35_merge_possible :
  forall {D} (E : env) (T : Prop) (g g2 : graph D) (t : trans D) L,
  two_graphs E T g g2 t L ->
  (forall i, graph_get g i = None \/ graph_get g2 i = None) /\ exists t', trans_merge g2 t = Done t' tt.
Proof. intros. split; [intros; by eapply two_graphs_disjoint|by eapply two_graphs_ctx]. Qed.
Print Assumptions C35_merge_possible.
(** In general a merge adds the nodes of the graph to those of the transaction (and the
    theorems about inserted nodes apply to them).  [tight]: every index known to the graph
    holds a node.  In debug builds it always does; see [C38_leftover_refuted]. *)
Theorem C35_merge_adds_nodes :
  forall {D} (E : env) (T : Prop) (g g2 : graph D) (t t' : trans D) L (s : tspec D),
  two_graphs E T g g2 t L -> (e_dbg E = false -> tight g2) -> ts_run ts_empty L = Some s -> trans_merge g2 t = Done t' tt ->
  exists m2, nodes_are g2 m2 /\
    history E T g t' (TS (ts_res s) (m2 ∪ ts_new s) (ts_del s) (ts_mut s) (ts_upd s) (ts_redir_all s) (ts_redir s)).
Proof.
  intros D E T g g2 t t' L s H2 Hcl Hs Hm. exists (gmap_of g2). split; [by eapply two_graphs_nodes|].
  exists (L ++ [EvMerge (gmap_of g2)]). split; [by eapply two_graphs_merge|]. by rewrite ts_run_app, Hs.
Qed.
Print Assumptions C35_merge_adds_nodes.

Definition C35_ops : list opn := setup ++
  [ONewGraph 1 0; ONewTrans 1 0; OInsert 1 (nB 6 [] 8) 5; OInsert 1 (nA 5 [5; 6] [6] 9) 6; OCommit 1 1; ONewTrans 2 0]%N.
Definition C35_t' : trans nat := match trans_merge (ex_g E0 C35_ops 1) (ex_t E0 C35_ops 2) with Done t _ => t | Panicked _ t => t end.
Example C35_case :
  two_graphs E0 True (ex_g E0 C35_ops 0) (ex_g E0 C35_ops 1) (ex_t E0 C35_ops 2) (ex_L E0 C35_ops 2) /\
  ex_L E0 C35_ops 2 = [] /\
  trans_merge (ex_g E0 C35_ops 1) (ex_t E0 C35_ops 2) = Done C35_t' tt /\
  commit E0 C35_t' (ex_g E0 C35_ops 0) = Done (done_g (commit E0 C35_t' (ex_g E0 C35_ops 0))) tt /\
  graph_len (ex_g E0 C35_ops 0) = 4 /\ graph_len (ex_g E0 C35_ops 1) = 2 /\
  graph_len (done_g (commit E0 C35_t' (ex_g E0 C35_ops 0))) = 6.
Proof. split; [apply run_two; [sides|done|computes]|]. repeat (split; [computes|]). computes. Qed.

(** [tight] is needed in release builds.  A release build commits a transaction with a
    reserved index nobody filled in; the graph then knows the index and has no node there.
    Moved into another transaction, on which nothing was called, [fill_back] accepts the
    index, although the transaction never reserved it. *)
Definition is_done {S A} (o : out S A) : bool := match o with Done _ _ => true | Panicked _ _ => false end.
Definition C38_left : list opn := setup ++
  [ONewGraph 1 0; ONewTrans 1 0; OAlloc 1 1 5; OInsert 1 (nA 5 [] [] 9) 6; OCommit 1 1; ONewTrans 2 0]%N.
Definition C38_left_t' : trans nat := match trans_merge (ex_g E0r C38_left 1) (ex_t E0r C38_left 2) with Done t _ => t | Panicked _ t => t end.
Theorem C38_leftover_refuted :
  exists g g2 (t t' : trans nat), two_graphs E0r True g g2 t [] /\ trans_merge g2 t = Done t' tt /\ graph_get g2 5%N = None /\
    is_done (trans_fill_back 5%N (nB 0 [] 7) t) = false /\ is_done (trans_fill_back 5%N (nB 0 [] 7) t') = true.
Proof.
  exists (ex_g E0r C38_left 0), (ex_g E0r C38_left 1), (ex_t E0r C38_left 2), C38_left_t'.
  split; [apply (run_two E0r True C38_left 0 1 2); [sides|done|computes]|]. repeat (split; [computes|]). computes.
Qed.
Print Assumptions C38_leftover_refuted.

(** ** C36 the empty transaction *)
Theorem C36_is_empty_accurate :
  forall {D} (E : env) (T : Prop) (g : graph D) (t : trans D) (s : tspec D),
  history E T g t s ->
  trans_is_empty t = true <->
    ts_res s = ∅ /\ ts_new s = ∅ /\ ts_del s = [] /\ ts_mut s = [] /\ ts_upd s = [] /\ ts_redir_all s = [] /\ ts_redir s = [].
Proof. intros. by eapply final_empty. Qed.
Print Assumptions C36_is_empty_accurate.
Theorem C36_empty_commit_noop :
  forall {D} (E : env) (T : Prop) (g : graph D) (t : trans D) (s : tspec D),
  history E T g t s -> trans_is_empty t = true -> commit E t g = Done g tt.
Proof. intros. by eapply final_empty. Qed.
Print Assumptions C36_empty_commit_noop.
Definition C36_ops : list opn := setup ++ [ONewTrans 1 0; OInsert 1 (nB 0 [] 8) 5; OAlloc 1 0 6; OAllocUntyped 1 7; ORemove 1 6; ORemove 1 7; ORemove 1 5]%N.
Example C36_case :
  history E0 True (pick3_g (run_hist E0 C36_ops 0 1)) (pick3_t (run_hist E0 C36_ops 0 1)) (pick3_s (run_hist E0 C36_ops 0 1)) /\
  trans_is_empty (pick3_t (run_hist E0 C36_ops 0 1)) = true /\
  history E0 True busy_g busy_t busy_s /\ trans_is_empty busy_t = false.
Proof. split; [apply run_hist_pick; [sides|runs]|]. split; [computes|]. split; [apply busy_hist|computes]. Qed.

(** ** C37 wrong context, unfilled reservations *)
(** debug build: the commit panics and the graph is untouched *)
Theorem C37_wrong_context_rejected :
  forall {D} (E : env) (t : trans D) (g : graph D),
  e_dbg E = true -> t_ctx t <> g_ctx g -> commit E t g = Panicked PCtxMismatch g.
Proof. intros. by apply commit_ctx_mismatch. Qed.
Print Assumptions C37_wrong_context_rejected.
Theorem C37_unfilled_rejected :
  forall {D} (E : env) (T : Prop) (g : graph D) (t : trans D) (s : tspec D),
  e_dbg E = true -> history E T g t s -> ts_res s <> ∅ -> commit E t g = Panicked PUnfilled g.
Proof. intros. by eapply final_unfilled. Qed.
Print Assumptions C37_unfilled_rejected.
(** merge checks in every build *)
Theorem C37_merge_wrong_context :
  forall {D} (g : graph D) (t : trans D), t_ctx t <> g_ctx g -> trans_merge g t = Panicked PCtxMismatch t.
Proof. intros. by apply merge_mismatch. Qed.
Print Assumptions C37_merge_wrong_context.
(** release build: the commit does not depend on the context id or the reservations *)
Theorem C37_release_unchecked :
  forall {D} (E : env) (t : trans D) (g : graph D) u xs,
  e_dbg E = false ->
  commit E (Trans u xs (t_inc t) (t_dec t) (t_mut t) (t_upd t) (t_redir_all t) (t_redir t)) g = commit E t g.
Proof. intros. by apply commit_release. Qed.
Print Assumptions C37_release_unchecked.
Definition C37_ops : list opn := setup ++ [ONewTrans 1 0; OAlloc 1 1 5; OMutate 1 2 bump_mut]%N.
Definition C37_g := pick3_g (run_hist E0 C37_ops 0 1).
Definition C37_t := pick3_t (run_hist E0 C37_ops 0 1).
Definition C37_s := pick3_s (run_hist E0 C37_ops 0 1).
Example C37_case :
  history E0 True C37_g C37_t C37_s /\ ts_res C37_s <> ∅ /\ t_ctx (trans_new (D:=nat) E0 8) <> g_ctx C37_g /\
  is_done (commit E0r C37_t C37_g) = true /\ is_done (commit E0r (with_inc (trans_new E0r 8) (t_inc busy_t)) C37_g) = true.
Proof.
  split; [apply run_hist_pick; [sides|runs]|]. split; [intros H; apply (f_equal (lookup 5%N)) in H; vm_compute in H; done|].
  split; [vm_compute; done|]. split; computes.
Qed.

(** ** C38 reservations *)
(** Every call on a transaction has the effect [ts_call] describes, panics exactly if
    [ts_call] says so, and a call that hands out an index returns the next one. *)
Theorem C38_calls_refine_spec :
  forall {D} (E : env) (T : Prop) cnt (t : trans D) L (c : tcall D) (s : tspec D),
  open_trans E T cnt t L -> ts_run ts_empty L = Some s -> tc_ok E t c -> (allocates c = true -> cnt + 1 < usize_mod)%N ->
  match tc_run E c (cnt, t) with
  | Done (cnt', t') i => exists s', ts_call i s c = Some s' /\ trans_is t' s' /\
      (if allocates c then i = (cnt + 1)%N /\ cnt' = (cnt + 1)%N else cnt' = cnt)
  | Panicked p (cnt', t') => (forall i, ts_call i s c = None) /\ cnt' = cnt
  end.
Proof. intros. by eapply open_call. Qed.
Print Assumptions C38_calls_refine_spec.
(** fill_back returns exactly on a typed, unfilled reservation of the node's variant *)
Theorem C38_fill_back_exact :
  forall {D} (E : env) (T : Prop) cnt (t : trans D) L (s : tspec D) i n,
  open_trans E T cnt t L -> ts_run ts_empty L = Some s -> node_ok E n ->
  (exists t', trans_fill_back i n t = Done t' tt) <-> ts_res s !! i = Some (Some (nvar n)).
Proof. intros. by eapply open_fill. Qed.
Print Assumptions C38_fill_back_exact.
(** remove of an own node or reservation cancels it and queues no removal *)
Theorem C38_remove_cancels :
  forall {D} (E : env) (T : Prop) cnt (t : trans D) L (s : tspec D) i,
  open_trans E T cnt t L -> ts_run ts_empty L = Some s ->
  is_Some (ts_new s !! i) \/ is_Some (ts_res s !! i) ->
  t_dec (trans_remove i t) = t_dec t /\ arena_get (t_inc (trans_remove i t)) i = None /\ (i ∉ t_alloc (trans_remove i t)) /\
  forall j, j <> i -> arena_get (t_inc (trans_remove i t)) j = arena_get (t_inc t) j /\
                      (j ∈ t_alloc (trans_remove i t) <-> j ∈ t_alloc t).
Proof. intros. by eapply open_remove_own. Qed.
Print Assumptions C38_remove_cancels.
Definition C38_ops : list opn := setup ++ [ONewTrans 1 0; OAlloc 1 1 5; OAllocUntyped 1 6; OInsert 1 (nA 5 [] [6] 7) 7; OAlloc 1 0 8; OFill 1 8 (nA 0 [] [] 8)]%N.
Example C38_case :
  (open_trans E0 True (ex_cnt E0 C38_ops 1) (ex_t E0 C38_ops 1) (ex_L E0 C38_ops 1) /\
   ts_run ts_empty (ex_L E0 C38_ops 1) = Some (ex_s E0 C38_ops 1)) /\ ex_cnt E0 C38_ops 1 = 8%N /\
  ts_res (ex_s E0 C38_ops 1) !! 5%N = Some (Some 1) /\ ts_res (ex_s E0 C38_ops 1) !! 6%N = Some None /\
  ts_res (ex_s E0 C38_ops 1) !! 8%N = None /\ is_Some (ts_new (ex_s E0 C38_ops 1) !! 7%N) /\
  is_done (trans_fill_back 5%N (nB 0 [] 1) (ex_t E0 C38_ops 1)) = true /\
  is_done (trans_fill_back 5%N (nA 0 [] [] 1) (ex_t E0 C38_ops 1)) = false.
Proof.
  split; [apply run_open; [sides|computes]|]. repeat (split; [computes|]). split; [runs|]. split; computes.
Qed.

(** ** C39 fill_back_untyped *)
(** it panics on an occupied index if the node has the variant that occupies it *)
Theorem C39_occupied_same_variant_partial :
  forall {D} (E : env) cnt (t : trans D) L (s : tspec D) i n n0,
  open_trans E True cnt t L -> ts_run ts_empty L = Some s ->
  ts_new s !! i = Some n0 -> nvar n0 = nvar n ->
  exists t', trans_fill_back_untyped i n t = Panicked PFillOccupied t'.
Proof. intros. by eapply (open_fill_untyped_occupied E True). Qed.
Print Assumptions C39_occupied_same_variant_partial.
(** With another variant it succeeds: the index is then in two containers. *)
Theorem C39_occupied_refuted :
  exists cnt (t : trans nat) L s t', open_trans E0 True cnt t L /\ ts_run ts_empty L = Some s /\
    ts_new s !! 7%N = Some (nA 5 [] [6] 7)%N /\
    trans_fill_back_untyped 7%N (nB 0 [] 70) t = Done t' tt /\
    7%N ∈ (cont (t_inc t') 0).*1 /\ 7%N ∈ (cont (t_inc t') 1).*1 /\
    arena_len (t_inc t') = S (arena_len (t_inc t)).
Proof.
  exists (ex_cnt E0 C38_ops 1), (ex_t E0 C38_ops 1), (ex_L E0 C38_ops 1), (ex_s E0 C38_ops 1).
  eexists. split; [apply C38_case|].
  split; [computes|]. split; [computes|]. split; [vm_compute; reflexivity|]. split; [decides|]. split; [decides|computes].
Qed.
Print Assumptions C39_occupied_refuted.
(** Filling the index of a node of the graph succeeds and the commit overwrites it. *)
Theorem C39_graph_index_refuted :
  exists (g : graph nat) (t t' : trans nat) s g', history E0 True g t s /\
    graph_get g 1%N = Some (nB 0 [] 1) /\
    trans_fill_back_untyped 1%N (nB 0 [] 99) t = Done t' tt /\
    commit E0 t' g = Done g' tt /\ graph_get g' 1%N = Some (nB 0 [] 99).
Proof.
  exists (pick3_g (run_hist E0 (setup ++ [ONewTrans 1 0]) 0 1)), (pick3_t (run_hist E0 (setup ++ [ONewTrans 1 0]) 0 1)).
  eexists _, (pick3_s (run_hist E0 (setup ++ [ONewTrans 1 0]) 0 1)), _.
  split; [apply run_hist_pick; [sides|runs]|]. split; [computes|]. split; [vm_compute; reflexivity|].
  split; [vm_compute; reflexivity|computes].
Qed.
Print Assumptions C39_graph_index_refuted.

(** ** C40 atomicity *)
(** Panics of the first checks leave the graph as it was. *)
Theorem C40_early_panics_atomic_partial :
  forall {D} (E : env) (T : Prop) (g : graph D) (t : trans D) (s : tspec D),
  history E T g t s ->
  (e_dbg E = true /\ ts_res s <> ∅) \/ (NoDup (ts_redir s).*1 /\ redir_loop (ts_redir s)) ->
  exists p, commit E t g = Panicked p g.
Proof. intros D E T g t s Hh [?|[??]]; (eapply final_early_panics; [done|]); [by left|right; by apply loop_bad]. Qed.
Print Assumptions C40_early_panics_atomic_partial.
Example C40_case : history E0 True C37_g C37_t C37_s /\ ts_res C37_s <> ∅.
Proof. split; apply C37_case. Qed.
(** Later panics do not: a mutate of a missing node after one of an existing node. *)
Definition C40_ops : list opn := setup ++ [ONewTrans 1 0; OMutate 1 2 bump_mut; OMutate 1 99 bump_mut]%N.
Theorem C40_atomic_refuted :
  exists (g : graph nat) (t : trans nat) s p g', history E0 True g t s /\ commit E0 t g = Panicked p g' /\
    graph_get g 2%N = Some (nA 1 [1] [1; 0; 1] 2)%N /\ graph_get g' 2%N = Some (nA 1 [1] [1; 0; 1] 102)%N.
Proof.
  exists (pick3_g (run_hist E0 C40_ops 0 1)), (pick3_t (run_hist E0 C40_ops 0 1)), (pick3_s (run_hist E0 C40_ops 0 1)).
  eexists _, _. split; [apply run_hist_pick; [sides|runs]|]. split; [vm_compute; reflexivity|]. split; computes.
Qed.
Print Assumptions C40_atomic_refuted.

(** ** C41 success, C42 integrity *)
Theorem C41_valid_commits_succeed :
  forall {D} (E : env) (T : Prop) (g : graph D) (t : trans D) (s : tspec D) m,
  history E T g t s -> (forall l, e_opp E l = []) -> (forall v l, e_chk E v l = true) ->
  nodes_are g m -> e_dbg E = false \/ ts_res s = ∅ -> sp_valid (ts_txn s) m ->
  exists g' m', commit E t g = Done g' tt /\ sp_commit (ts_txn s) m m' /\ nodes_are g' m'.
Proof. intros. by eapply final_succeeds. Qed.
Print Assumptions C41_valid_commits_succeed.
Example C41_case :
  history E0 True busy_g busy_t busy_s /\ (forall l, e_opp E0 l = []) /\ (forall v l, e_chk E0 v l = true) /\
  nodes_are busy_g (gmap_of busy_g) /\ ts_res busy_s = ∅ /\ sp_valid (ts_txn busy_s) (gmap_of busy_g) /\
  (ts_redir busy_s, ts_redir_all busy_s, ts_del busy_s) = ([(1, 4)], [(3, 2)], [1])%N.
Proof.
  split; [apply busy_hist|]. split; [done|]. split; [done|]. split; [exact (history_nodes _ _ _ _ _ (busy_hist True))|].
  split; [apply (proj1 (map_to_list_empty_iff _)); computes|]. split; [apply (sp_validb_sound _ _ [(1, 4)]%N [(3, 2)]%N); computes|computes].
Qed.

Theorem C42_integrity_kept :
  forall {D} (E : env) (T : Prop) (g : graph D) (t : trans D) (s : tspec D) (g' : graph D),
  history E T g t s ->
  let U := fun y => is_Some (ts_new s !! y) \/ is_Some (graph_get g y) in
  (forall z, z ∈ (ts_redir s).*2 ++ (ts_redir_all s).*2 -> z = 0%N \/ U z) ->
  (forall x n, graph_get g x = Some n -> targets_in U n) ->
  (forall x n, ts_new s !! x = Some n -> targets_in U n) ->
  (forall i f n n', (i, f) ∈ ts_mut s -> f n = Done n' tt -> targets_in U n -> targets_in U n') ->
  (forall i f n n', (i, f) ∈ ts_upd s -> f n = Ok n' -> targets_in U n -> targets_in U n') ->
  commit E t g = Done g' tt -> closed g' /\ no_empty_in_sets g' /\ check_integrity E g' = true.
Proof. intros. by eapply final_closed. Qed.
Print Assumptions C42_integrity_kept.
Definition C42_ops : list opn := setup ++
  [ONewTrans 1 0; OInsert 1 (nA 1 [3; 5] [3; 0] 5) 5; OMutate 1 2 (relink 4 [3; 5] [5]); ORedirect 1 1 4; ORemove 1 1]%N.
Definition C42_g := pick3_g (run_hist E0 C42_ops 0 1).
Definition C42_t := pick3_t (run_hist E0 C42_ops 0 1).
Definition C42_s := pick3_s (run_hist E0 C42_ops 0 1).
Definition C42_m : gmap N (node nat) := ts_new C42_s ∪ gmap_of C42_g.
Example C42_case :
  history E0 True C42_g C42_t C42_s /\
  (let U := fun y => is_Some (ts_new C42_s !! y) \/ is_Some (graph_get C42_g y) in
   (forall z, z ∈ (ts_redir C42_s).*2 ++ (ts_redir_all C42_s).*2 -> z = 0%N \/ U z) /\
   (forall x n, graph_get C42_g x = Some n -> targets_in U n) /\
   (forall x n, ts_new C42_s !! x = Some n -> targets_in U n) /\
   (forall i f n n', (i, f) ∈ ts_mut C42_s -> f n = Done n' tt -> targets_in U n -> targets_in U n') /\
   (forall i f n n', (i, f) ∈ ts_upd C42_s -> f n = Ok n' -> targets_in U n -> targets_in U n')) /\
  commit E0 C42_t C42_g = Done (done_g (commit E0 C42_t C42_g)) tt /\
  graph_get (done_g (commit E0 C42_t C42_g)) 2%N = Some (nA 4 [3; 5] [5] 2)%N.
Proof.
  assert (history E0 True C42_g C42_t C42_s) as Hh by (apply run_hist_pick; [sides|runs]).
  split; [done|]. pose proof (history_nodes _ _ _ _ _ Hh) as Hm.
  set (U := fun y => is_Some (ts_new C42_s !! y) \/ is_Some (graph_get C42_g y)).
  assert (forall y, inb C42_m y = true -> U y) as HU.
  { intros y Hy. apply inb_sound in Hy as [n Hn]. apply lookup_union_Some_raw in Hn as [Hn|[_ Hn]].
    - left. by rewrite Hn.
    - right. by rewrite <- Hm, Hn. }
  assert (forall (m : gmap N (node nat)) x (n : node nat), forallb (fun p => targets_inb (inb C42_m) p.2) (map_to_list m) = true -> m !! x = Some n -> targets_in U n) as Hall.
  { intros m x n Hf Hx. rewrite forallb_forall in Hf. eapply targets_inb_sound; [exact HU|].
    apply (Hf (x, n)). apply elem_of_list_In. by apply elem_of_map_to_list. }
  split; [|split; computes]. cbv zeta. split; [|split; [|split; [|split]]].
  - intros z Hz. right. apply HU.
    assert (forallb (inb C42_m) ((ts_redir C42_s).*2 ++ (ts_redir_all C42_s).*2) = true) as Hf by computes.
    rewrite forallb_forall in Hf. apply Hf. by apply elem_of_list_In.
  - intros x n. rewrite <- Hm. apply Hall. computes.
  - intros x n. apply Hall. computes.
  - intros i f n n' Hf. assert (ts_mut C42_s = [(2, relink 4 [3; 5] [5])]%N) as Hq by computes. rewrite Hq in Hf.
    apply elem_of_list_singleton in Hf as [= -> ->]. unfold relink. case_decide; [|done]. intros [= <-] _.
    eapply targets_inb_sound; [exact HU|]. computes.
  - intros i f n n' Hf. assert (ts_upd C42_s = []) as Hq by computes. rewrite Hq in Hf. exfalso. exact (not_elem_of_nil _ Hf).
Qed.

(** ** C43 ownership *)
(** [holder_has w h c i]: graph or transaction [h] (of context object [c]) has a node or
    a reservation under [i] *)
Theorem C43_one_owner :
  forall {D} (E : env) (T : Prop) (w : world (D:=D)) h h' c i,
  reachable E T w -> holder_has w h c i -> holder_has w h' c i -> h = h'.
Proof. intros. by eapply one_holder. Qed.
Print Assumptions C43_one_owner.
(** commit never overwrites a node *)
Theorem C43_commit_no_overwrite :
  forall {D} (E : env) (T : Prop) (g : graph D) (t : trans D) (s : tspec D) i,
  history E T g t s -> is_Some (ts_new s !! i) \/ is_Some (ts_res s !! i) -> graph_get g i = None.
Proof. intros. by eapply final_fresh. Qed.
Print Assumptions C43_commit_no_overwrite.
Theorem C43_merge_no_overwrite :
  forall {D} (E : env) (T : Prop) (g g2 : graph D) (t : trans D) L i,
  two_graphs E T g g2 t L -> graph_get g i = None \/ graph_get g2 i = None.
Proof. intros. by eapply two_graphs_disjoint. Qed.
Print Assumptions C43_merge_no_overwrite.
Definition C43_w : world := the_w (run_lw E0 (C35_ops ++ [OInsert 2 (nB 0 [] 7) 7; OAlloc 2 0 8])%N).
Example C43_case : reachable E0 True C43_w /\ holder_has C43_w (inl 0) 0 2 /\ holder_has C43_w (inl 1) 0 6 /\
  holder_has C43_w (inr 2) 0 7 /\ holder_has C43_w (inr 2) 0 8 /\
  two_graphs E0 True (ex_g E0 C35_ops 0) (ex_g E0 C35_ops 1) (ex_t E0 C35_ops 2) (ex_L E0 C35_ops 2).
Proof.
  split; [apply run_reach; [sides|runs]|].
  split; [eexists; split; [vm_compute; reflexivity|runs]|]. split; [eexists; split; [vm_compute; reflexivity|runs]|].
  split; [eexists; split; [vm_compute; reflexivity|left; runs]|].
  split; [eexists; split; [vm_compute; reflexivity|right; decides]|]. apply C35_case.
Qed.

(** ** C44 dropping a transaction *)
Theorem C44_give_up_frame :
  forall {D} (E : env) (T : Prop) (w w' : world (D:=D)) k,
  step E T w (OGiveUp k) w' ->
  w_ctx w' = w_ctx w /\ (forall kg, w_graphs w' !! kg = w_graphs w !! kg) /\
  (forall k', k' <> k -> w_trans w' !! k' = w_trans w !! k') /\ w_trans w' !! k = None.
Proof. intros. by eapply give_up_frame. Qed.
Print Assumptions C44_give_up_frame.
(** Whatever a transaction holds when it is dropped, no later insert or alloc returns it:
    all indices returned afterwards are larger. *)
Theorem C44_never_handed_out_again :
  forall {D} (E : env) (T : Prop) (w w1 w2 w3 : world (D:=D)) k c i o j,
  reachable E T w -> holder_has w (inr k) c i -> step E T w (OGiveUp k) w1 -> rtc (any_step E T) w1 w2 ->
  step E T w2 o w3 -> handed w2 o c j -> (i < j)%N.
Proof.
  intros D E T w w1 w2 w3 k c i o j Hr Hh H1 Hs. eapply held_never_handed; [done..|].
  eapply rtc_l; [by exists (OGiveUp k)|done].
Qed.
Print Assumptions C44_never_handed_out_again.
Definition C44_ops : list opn := setup ++ [ONewTrans 1 0; OAlloc 1 1 5; OInsert 1 (nB 0 [] 6) 6]%N.
Definition C44_w (n : nat) : world := the_w (run_lw E0 (C44_ops ++ take n [OGiveUp 1; ONewTrans 2 0; OAllocUntyped 2 7])%N).
Example C44_case : reachable E0 True (C44_w 0) /\ holder_has (C44_w 0) (inr 1) 0 5 /\ holder_has (C44_w 0) (inr 1) 0 6 /\
  step E0 True (C44_w 0) (OGiveUp 1) (C44_w 1) /\ rtc (any_step E0 True) (C44_w 1) (C44_w 2) /\
  step E0 True (C44_w 2) (OAllocUntyped 2 7) (C44_w 3) /\ handed (C44_w 2) (OAllocUntyped 2 7) 0 7.
Proof.
  split; [apply run_reach; [sides|runs]|].
  split; [eexists; split; [vm_compute; reflexivity|right; decides]|].
  split; [eexists; split; [vm_compute; reflexivity|left; runs]|].
  split; [apply (run_step E0 True (C44_ops ++ []) (OGiveUp 1)); [sides|exact I|runs]|].
  split; [apply rtc_once; exists (ONewTrans 2 0); apply (run_step E0 True (C44_ops ++ [OGiveUp 1]) (ONewTrans 2 0)); [sides|exact I|runs]|].
  split; [apply (run_step E0 True (C44_ops ++ [OGiveUp 1; ONewTrans 2 0]) (OAllocUntyped 2 7)); [sides|exact I|runs]|].
  eexists 2, _. split; [vm_compute; reflexivity|]. by right; right.
Qed.

(** ** C48 closures *)
(** A node of the graph: between the two redirects, the closures queued on its index are
    applied, mutates first, each once and in call order ([queued] keeps the order). *)
Theorem C48_closures_once_in_order :
  forall {D} (E : env) (T : Prop) (g : graph D) (t : trans D) (s : tspec D) (g' : graph D) i n,
  history E T g t s -> commit E t g = Done g' tt ->
  i ∉ ts_del s -> graph_get g i = Some n ->
  exists n1 n2 n3 n4 n5 n', node_rel (lv_redirected (ts_redir s)) n n1 /\
    run_mutates (queued i (ts_mut s)) n1 = Some n2 /\ run_updates (queued i (ts_upd s)) n2 = Some n3 /\
    node_rel (lv_redirected (ts_redir_all s)) n3 n4 /\ node_rel (lv_cleared (ts_del s)) n4 n5 /\
    graph_get g' i = Some n' /\ agree_nonbidi E n5 n'.
Proof. intros. by eapply final_closures. Qed.
Print Assumptions C48_closures_once_in_order.
(** A node of the transaction: likewise for closures that were queued while it was only reserved. *)
Theorem C48_closures_own_node :
  forall {D} (E : env) (T : Prop) (g : graph D) (t : trans D) (s : tspec D) (g' : graph D) i n,
  history E T g t s -> commit E t g = Done g' tt ->
  i ∉ ts_del s -> ts_new s !! i = Some n ->
  exists n2 n3 n4 n5 n', run_mutates (queued i (ts_mut s)) n = Some n2 /\ run_updates (queued i (ts_upd s)) n2 = Some n3 /\
    node_rel (lv_redirected (ts_redir_all s)) n3 n4 /\ node_rel (lv_cleared (ts_del s)) n4 n5 /\
    graph_get g' i = Some n' /\ agree_nonbidi E n5 n'.
Proof. intros. by eapply final_closures_own. Qed.
Print Assumptions C48_closures_own_node.
(** A closure on a node the transaction has runs at once and is not queued. *)
Theorem C48_immediate :
  forall {D} (E : env) (T : Prop) cnt (t : trans D) L (s : tspec D) i n (f : mut_fn D),
  open_trans E T cnt t L -> ts_run ts_empty L = Some s -> ts_new s !! i = Some n ->
  match f n with
  | Done n' _ => exists t', trans_mutate i f t = Done t' tt /\ arena_get (t_inc t') i = Some n' /\ t_mut t' = t_mut t
  | Panicked _ _ => exists p t', trans_mutate i f t = Panicked p t'
  end.
Proof. intros. by eapply open_mutate_own. Qed.
Print Assumptions C48_immediate.
Theorem C48_immediate_update :
  forall {D} (E : env) (T : Prop) cnt (t : trans D) L (s : tspec D) i n (f : upd_fn D),
  open_trans E T cnt t L -> ts_run ts_empty L = Some s -> ts_new s !! i = Some n ->
  match f n with
  | Ok n' => exists t', trans_update i f t = Done t' tt /\ arena_get (t_inc t') i = Some n' /\ t_upd t' = t_upd t
  | Err _ => exists p t', trans_update i f t = Panicked p t'
  end.
Proof. intros. by eapply open_update_own. Qed.
Print Assumptions C48_immediate_update.
(** The macros: another variant panics, otherwise the variant stays. *)
Theorem C48_macros_keep_variant :
  forall {D} v (f : M (list linkval * list (string * D)) unit) f' (n : node D),
  (nvar n <> v -> mut_node_closure v f n = Panicked PTypeMacro n /\ update_node_closure v f' n = Err PTypeMacro) /\
  (forall n' u, mut_node_closure v f n = Done n' u -> nvar n = v /\ nvar n' = v) /\
  (forall n', update_node_closure v f' n = Ok n' -> nvar n = v /\ nvar n' = v).
Proof. intros. apply macros_keep_variant. Qed.
Print Assumptions C48_macros_keep_variant.

Definition times2 : mut_fn nat := fun n => Done (Node (nvar n) (nlinks n) ((fun '(s, d) => (s, d * 2)) <$> ndata n)) tt.
Lemma times2_ok E T : mut_ok E T times2.
Proof. intros n n' Hok [= <-]. done. Qed.
Definition C48_ops : list opn := setup ++
  [ONewTrans 1 0; OUpdate 1 2 bump_upd; OMutate 1 2 times2; OMutate 1 2 bump_mut; OMutate 1 2 times2;
   OAlloc 1 1 5; OMutate 1 5 times2; OFill 1 5 (nB 0 [] 1); OMutate 1 5 bump_mut]%N.
Definition C48_g := pick3_g (run_hist E0 C48_ops 0 1).
Definition C48_t := pick3_t (run_hist E0 C48_ops 0 1).
Definition C48_s := pick3_s (run_hist E0 C48_ops 0 1).
Lemma side_C48 T : Forall (op_side E0 T) C48_ops.
Proof. unfold C48_ops, setup. cbn. repeat (constructor; [first [exact I|apply bump_mut_ok|apply bump_upd_ok|apply times2_ok]|]). constructor. Qed.
Example C48_case : history E0 True C48_g C48_t C48_s /\
  commit E0 C48_t C48_g = Done (done_g (commit E0 C48_t C48_g)) tt /\
  ts_redir C48_s = [] /\ ts_redir_all C48_s = [] /\ ts_del C48_s = [] /\
  queued 2%N (ts_mut C48_s) = [times2; bump_mut; times2] /\ queued 2%N (ts_upd C48_s) = [bump_upd] /\
  graph_get C48_g 2%N = Some (nA 1 [1] [1; 0; 1] 2)%N /\
  graph_get (done_g (commit E0 C48_t C48_g)) 2%N = Some (nA 1 [1] [1; 0; 1] 308)%N /\
  ts_new C48_s !! 5%N = Some (nB 0 [] 101) /\ graph_get (done_g (commit E0 C48_t C48_g)) 5%N = Some (nB 0 [] 202).
Proof. split; [apply run_hist_pick; [apply side_C48|runs]|]. repeat (split; [computes|]). computes. Qed.
Example C48_case_open :
  (open_trans E0 True (ex_cnt E0 C48_ops 1) (ex_t E0 C48_ops 1) (ex_L E0 C48_ops 1) /\
   ts_run ts_empty (ex_L E0 C48_ops 1) = Some (ex_s E0 C48_ops 1)) /\
  ts_new (ex_s E0 C48_ops 1) !! 5%N = Some (nB 0 [] 101).
Proof. split; [apply run_open; [apply side_C48|computes]|computes]. Qed.
