(** * Properties of commit: C03 - C06, C08 - C12

    [history E T g t s]: in some program that uses the library, [g] is a graph and [t] a
    transaction of the same context, and the calls made on [t] add up to [s].
    [E] is the schema (kinds of links, opposite links, link types, hash order, debug or
    release build); [T] says whether closures keep the variant of a node ([False]: no
    assumption). *)
From Verif Require Import ExHist.

(** ** C03 *)
(** A successful commit leaves the nodes the sequential specification gives, up to link
    fields declared bidirectional. *)
Theorem C03_commit_refines_spec :
  forall {D} (E : env) (T : Prop) (g : graph D) (t : trans D) (s : tspec D) (g' : graph D),
  history E T g t s -> commit E t g = Done g' tt ->
  exists m m', nodes_are g m /\ sp_commit (ts_txn s) m m' /\ holds_nonbidi E g' m'.
Proof. intros. by eapply final_refines. Qed.
Print Assumptions C03_commit_refines_spec.

(** Without bidirectional declarations the graph holds exactly those nodes. *)
Theorem C03_commit_exact :
  forall {D} (E : env) (T : Prop) (g : graph D) (t : trans D) (s : tspec D) (g' : graph D),
  history E T g t s -> (forall l, e_opp E l = []) -> commit E t g = Done g' tt ->
  exists m m', nodes_are g m /\ sp_commit (ts_txn s) m m' /\ nodes_are g' m'.
Proof. intros. by eapply final_exact. Qed.
Print Assumptions C03_commit_exact.

(** The specification has one result. *)
Theorem C03_spec_functional :
  forall {D} (s : tspec D) m m1 m2,
  sp_commit (ts_txn s) m m1 -> sp_commit (ts_txn s) m m2 -> m1 = m2.
Proof. intros. by eapply (sp_commit_det (ts_txn s)). Qed.
Print Assumptions C03_spec_functional.

Example C03_case :
  history E0 True busy_g busy_t busy_s /\ commit E0 busy_t busy_g = Done busy_g' tt /\
  (forall l, e_opp E0 l = []) /\
  graph_get busy_g 2%N = Some (nA 1 [1] [1; 0; 1] 2)%N /\ graph_get busy_g' 2%N = Some (nA 4 [4] [4; 0; 4] 102)%N.
Proof.
  split; [apply busy_hist|]. split; [apply busy_commit|]. split; [done|]. split; computes.
Qed.

(** ** C04 *)
(** A node put into the transaction arrives in the graph with its data and its links. *)
Theorem C04_insert_commit_get :
  forall {D} (E : env) (T : Prop) (g : graph D) (t : trans D) (s : tspec D) (g' : graph D) i n,
  history E T g t s -> commit E t g = Done g' tt ->
  ts_new s !! i = Some n -> untouched s i -> avoids n ((ts_redir_all s).*1 ++ ts_del s) ->
  exists n', graph_get g' i = Some n' /\ agree_nonbidi E n n'.
Proof. intros. by eapply final_new_kept. Qed.
Print Assumptions C04_insert_commit_get.

(** A node of the graph the transaction does not name stays as it was. *)
Theorem C04_old_nodes_kept :
  forall {D} (E : env) (T : Prop) (g : graph D) (t : trans D) (s : tspec D) (g' : graph D) i n,
  history E T g t s -> commit E t g = Done g' tt ->
  graph_get g i = Some n -> untouched s i -> avoids n ((ts_redir s).*1 ++ (ts_redir_all s).*1 ++ ts_del s) ->
  exists n', graph_get g' i = Some n' /\ agree_nonbidi E n n'.
Proof. intros. by eapply final_old_kept. Qed.
Print Assumptions C04_old_nodes_kept.

(** Node 6 of the history [busy] is new; node 1 of the history [C04_ops] is old and
    unnamed while other nodes are inserted, changed, removed and redirected. *)
Definition C04_ops : list opn := setup ++ [ONewTrans 1 0; OInsert 1 (nA 3 [2] [4; 2] 5) 5; OMutate 1 2 bump_mut; ORemove 1 4; ORedirect 1 2 1]%N.
Definition C04_g := pick3_g (run_hist E0 C04_ops 0 1).
Definition C04_t := pick3_t (run_hist E0 C04_ops 0 1).
Definition C04_s := pick3_s (run_hist E0 C04_ops 0 1).
Example C04_case :
  (history E0 True busy_g busy_t busy_s /\ commit E0 busy_t busy_g = Done busy_g' tt /\
   ts_new busy_s !! 6%N = Some (nB 5 [2] 6)%N /\ untouched busy_s 6%N /\ avoids (nB 5 [2] 6)%N ((ts_redir_all busy_s).*1 ++ ts_del busy_s)) /\
  (history E0 True C04_g C04_t C04_s /\ (exists g', commit E0 C04_t C04_g = Done g' tt) /\
   graph_get C04_g 1%N = Some (nB 0 [] 1) /\ untouched C04_s 1%N /\ avoids (nB 0 [] 1) ((ts_redir C04_s).*1 ++ (ts_redir_all C04_s).*1 ++ ts_del C04_s)).
Proof.
  assert (forall (n : node nat) xs, forallb (fun lv => forallb (fun y => negb (bool_decide (y ∈ xs))) (lv_elems lv)) (nlinks n) = true -> avoids n xs) as Hav.
  { intros n xs Hb y (l&_&_&lv&Hlv&Hy) Hin. rewrite forallb_forall in Hb. specialize (Hb lv).
    rewrite <- elem_of_list_In, forallb_forall in Hb. specialize (Hb (elem_of_list_lookup_2 _ _ _ Hlv) y).
    rewrite <- elem_of_list_In in Hb. specialize (Hb Hy). by rewrite bool_decide_eq_true_2 in Hb. }
  split.
  - split; [apply busy_hist|]. split; [apply busy_commit|]. split; [computes|]. split; [split_and!; decides|].
    apply Hav. computes.
  - split; [apply run_hist_pick; [sides|]; vm_compute; eauto|]. split; [vm_compute; eauto|]. split; [computes|].
    split; [split_and!; decides|]. apply Hav. computes.
Qed.

(** ** C05 *)
(** If remove(x) was called for a node of the graph then afterwards no node mentions x. *)
Theorem C05_remove_leaves_no_link :
  forall {D} (E : env) (T : Prop) (g : graph D) (t : trans D) (L : list (tevent D)) (g' : graph D) x j,
  pair_log E T g t L -> EvCall j (CRemove x) ∈ L -> is_Some (graph_get g x) -> commit E t g = Done g' tt ->
  graph_get g' x = None /\ forall i n, graph_get g' i = Some n -> ~ mentions n x.
Proof.
  intros D E T g t L g' x j Hp Hin Hx Hc. destruct (pair_log_rep E T g t L Hp) as (s&Hs&_).
  eapply final_removed; [by exists L|done|]. by eapply pair_log_removes.
Qed.
Print Assumptions C05_remove_leaves_no_link.

Example C05_case :
  pair_log E0 True busy_g busy_t busy_L /\ EvCall 0%N (CRemove 1%N) ∈ busy_L /\ is_Some (graph_get busy_g 1%N) /\
  commit E0 busy_t busy_g = Done busy_g' tt /\
  (exists i n, graph_get busy_g i = Some n /\ mentions n 1%N).
Proof.
  split; [apply busy_log|]. split; [apply elem_of_list_In; vm_compute; tauto|].
  split; [vm_compute; eauto|]. split; [apply busy_commit|].
  exists 2%N, (nA 1 [1] [1; 0; 1] 2)%N. split; [computes|]. exists 0, (LDirect 1). split; [done|]. by left.
Qed.

(** ** C06 *)
(** [m4] is the result of the same transaction without its remove calls.  The remaining
    nodes are those of [m4] with the removed indices cleared out of their links. *)
Theorem C06_removal_frame :
  forall {D} (E : env) (T : Prop) (g : graph D) (t : trans D) (s : tspec D) (g' : graph D),
  history E T g t s -> commit E t g = Done g' tt ->
  exists m m4, nodes_are g m /\ sp_commit (ts_txn (without_removals s)) m m4 /\
    (forall x, x ∈ ts_del s -> is_Some (m4 !! x)) /\
    forall i, if decide (i ∈ ts_del s) then graph_get g' i = None
      else option_Forall2 (fun n n' => exists n3, node_rel (lv_cleared (ts_del s)) n n3 /\ agree_nonbidi E n3 n')
             (m4 !! i) (graph_get g' i).
Proof. intros. by eapply final_remove_step. Qed.
Print Assumptions C06_removal_frame.

Example C06_case : history E0 True busy_g busy_t busy_s /\ commit E0 busy_t busy_g = Done busy_g' tt /\ ts_del busy_s = [1%N].
Proof. split; [apply busy_hist|]. split; [apply busy_commit|computes]. Qed.

(** ** C08, C11 *)
(** Links of an old node follow both redirect lists to their final destinations ... *)
Theorem C08_redirect_final_destination :
  forall {D} (E : env) (T : Prop) (g : graph D) (t : trans D) (s : tspec D) (g' : graph D) i n,
  history E T g t s -> commit E t g = Done g' tt ->
  graph_get g i = Some n -> untouched s i ->
  exists n1 n2 n3 n', node_rel (lv_redirected (ts_redir s)) n n1 /\
    node_rel (lv_redirected (ts_redir_all s)) n1 n2 /\
    node_rel (lv_cleared (ts_del s)) n2 n3 /\ graph_get g' i = Some n' /\ agree_nonbidi E n3 n'.
Proof. intros. by eapply final_old_path. Qed.
Print Assumptions C08_redirect_final_destination.

(** ... of which there is one, and it is the end of the chain of calls, if no index is
    redirected twice (otherwise see C66 in PropsRedirect.v). *)
Theorem C08_destination_unique :
  forall (reps : list (idx * idx)) x z z', redir_dest reps x z -> redir_dest reps x z' -> z = z'.
Proof. intros. by eapply redir_dest_det. Qed.
Print Assumptions C08_destination_unique.
Theorem C08_destination_end_of_chain :
  forall {D} (E : env) (T : Prop) (g : graph D) (t : trans D) (s : tspec D) (g' : graph D),
  history E T g t s -> commit E t g = Done g' tt ->
  (NoDup (ts_redir s).*1 -> forall x z, redir_dest (ts_redir s) x z <-> redir_final (ts_redir s) x z) /\
  (NoDup (ts_redir_all s).*1 -> forall x z, redir_dest (ts_redir_all s) x z <-> redir_final (ts_redir_all s) x z).
Proof. intros. by eapply final_dest_distinct. Qed.
Print Assumptions C08_destination_end_of_chain.

(** Links of a node put into the transaction are changed by redirect_all_links only. *)
Theorem C11_redirect_spares_new_nodes :
  forall {D} (E : env) (T : Prop) (g : graph D) (t : trans D) (s : tspec D) (g' : graph D) i n,
  history E T g t s -> commit E t g = Done g' tt ->
  ts_new s !! i = Some n -> untouched s i ->
  exists n2 n3 n', node_rel (lv_redirected (ts_redir_all s)) n n2 /\
    node_rel (lv_cleared (ts_del s)) n2 n3 /\ graph_get g' i = Some n' /\ agree_nonbidi E n3 n'.
Proof. intros. by eapply final_new_path. Qed.
Print Assumptions C11_redirect_spares_new_nodes.

Definition C08_ops : list opn := setup ++
  [ONewTrans 1 0; OInsert 1 (nA 1 [3] [3; 2] 5) 5; ORedirect 1 1 2; ORedirect 1 2 4; ORedirectAll 1 3 1]%N.
Definition C08_g := pick3_g (run_hist E0 C08_ops 0 1).
Definition C08_t := pick3_t (run_hist E0 C08_ops 0 1).
Definition C08_s := pick3_s (run_hist E0 C08_ops 0 1).
Definition C08_g' := done_g (commit E0 C08_t C08_g).
Example C08_case :
  history E0 True C08_g C08_t C08_s /\ commit E0 C08_t C08_g = Done C08_g' tt /\
  NoDup (ts_redir C08_s).*1 /\ NoDup (ts_redir_all C08_s).*1 /\ untouched C08_s 3%N /\ untouched C08_s 5%N /\
  redir_final (ts_redir C08_s) 1%N 4%N /\
  graph_get C08_g 3%N = Some (nA 2 [1; 2] [2] 3)%N /\ graph_get C08_g' 3%N = Some (nA 4 [4] [4] 3)%N /\
  ts_new C08_s !! 5%N = Some (nA 1 [3] [3; 2] 5)%N /\ graph_get C08_g' 5%N = Some (nA 1 [1] [1; 2] 5)%N.
Proof.
  split; [apply run_hist_pick; [sides|]; vm_compute; eauto|]. split; [computes|]. split; [decides|]. split; [decides|].
  split; [split_and!; decides|]. split; [split_and!; decides|]. split.
  { split; [|decides]. eapply rtc_l; [|eapply rtc_l; [|apply rtc_refl]]; cbn beta.
    - apply elem_of_list_In. vm_compute. tauto.
    - apply elem_of_list_In. vm_compute. tauto. }
  split_and!; computes.
Qed.

(** ** C09 *)
(** After redirect_all_links no node links to the redirected index, through a field not
    declared bidirectional. *)
Theorem C09_redirect_all_nobody_left :
  forall {D} (E : env) (T : Prop) (g : graph D) (t : trans D) (s : tspec D) (g' : graph D) i n f lv o,
  history E T g t s -> commit E t g = Done g' tt -> o ∈ (ts_redir_all s).*1 ->
  graph_get g' i = Some n -> ~ declared E (Link (nvar n) f) -> nlinks n !! f = Some lv -> o ∉ lv_elems lv.
Proof. intros D E T g t s g' i n f lv o Hh. by eapply final_redir_all_none. Qed.
Print Assumptions C09_redirect_all_nobody_left.

(** After redirect_links no old node the closures leave alone does, unless
    redirect_all_links brings the index back. *)
Theorem C09_redirect_nobody_left :
  forall {D} (E : env) (T : Prop) (g : graph D) (t : trans D) (s : tspec D) (g' : graph D) i n f lv o,
  history E T g t s -> commit E t g = Done g' tt -> o ∈ (ts_redir s).*1 ->
  o ∉ (ts_redir_all s).*2 -> graph_get g i <> None -> untouched s i ->
  graph_get g' i = Some n -> ~ declared E (Link (nvar n) f) -> nlinks n !! f = Some lv -> o ∉ lv_elems lv.
Proof. intros D E T g t s g' i n f lv o Hh. by eapply final_redir_none. Qed.
Print Assumptions C09_redirect_nobody_left.

(** two targets for the same index: 1 is redirected to 4 and to 3 *)
Definition C09_ops : list opn := setup ++ [ONewTrans 1 0; ORedirect 1 1 4; ORedirect 1 1 3; ORedirectAll 1 2 4; ORedirectAll 1 2 1]%N.
Definition C09_g := pick3_g (run_hist E0 C09_ops 0 1).
Definition C09_t := pick3_t (run_hist E0 C09_ops 0 1).
Definition C09_s := pick3_s (run_hist E0 C09_ops 0 1).
Example C09_case :
  (history E0 True C09_g C09_t C09_s /\ (exists g', commit E0 C09_t C09_g = Done g' tt) /\ 2%N ∈ (ts_redir_all C09_s).*1) /\
  (history E0 True busy_g busy_t busy_s /\ commit E0 busy_t busy_g = Done busy_g' tt /\ 1%N ∈ (ts_redir busy_s).*1 /\
   1%N ∉ (ts_redir_all busy_s).*2 /\ graph_get busy_g 3%N <> None /\ untouched busy_s 3%N).
Proof.
  split.
  - split; [apply run_hist_pick; [sides|]; vm_compute; eauto|]. split; [vm_compute; eauto|decides].
  - split; [apply busy_hist|]. split; [apply busy_commit|]. split; [decides|]. split; [decides|]. split; [vm_compute; done|].
    split_and!; decides.
Qed.

(** ** C10 *)
(** A loop among the redirect_links calls makes the commit panic with the loop message
    and leaves the graph alone. *)
Theorem C10_loop_panics :
  forall {D} (E : env) (T : Prop) (g : graph D) (t : trans D) (s : tspec D),
  history E T g t s -> e_dbg E = false \/ ts_res s = ∅ -> NoDup (ts_redir s).*1 -> redir_loop (ts_redir s) ->
  commit E t g = Panicked PLoop g.
Proof. intros. eapply final_loop_panics; [done..|]. by apply loop_bad. Qed.
Print Assumptions C10_loop_panics.
(** No commit with a loop in either list succeeds. *)
Theorem C10_success_no_loop :
  forall {D} (E : env) (T : Prop) (g : graph D) (t : trans D) (s : tspec D) (g' : graph D),
  history E T g t s -> commit E t g = Done g' tt ->
  (NoDup (ts_redir s).*1 -> ~ redir_loop (ts_redir s)) /\ (NoDup (ts_redir_all s).*1 -> ~ redir_loop (ts_redir_all s)).
Proof.
  intros D E T g t s g' Hh Hc. destruct (final_no_loop E T g t s Hh g' Hc) as [H1 H2].
  split; intros Hnd; by apply (ptrs_distinct _ Hnd).
Qed.
Print Assumptions C10_success_no_loop.
(** The loop message is given only if there is a loop. *)
Theorem C10_loop_message_real :
  forall {D} (E : env) (T : Prop) (g : graph D) (t : trans D) (s : tspec D) (g' : graph D),
  history E T g t s -> plain_closures s -> commit E t g = Panicked PLoop g' ->
  redir_loop (ts_redir s) \/ redir_loop (ts_redir_all s).
Proof.
  intros D E T g t s g' Hh Hp Hc.
  destruct (final_loop_cause E T g t s Hh PLoop g') as [H|H]; [by eapply final_plain|done|done|left|right]; by apply redir_bad_loop.
Qed.
Print Assumptions C10_loop_message_real.
(** The resolution of the chains always ends ([PDiverge] is the model's "runs forever"). *)
Theorem C10_terminates :
  forall {D} (E : env) (T : Prop) (g : graph D) (t : trans D) (s : tspec D) p (g' : graph D),
  history E T g t s -> plain_closures s -> commit E t g = Panicked p g' -> p <> PDiverge.
Proof. intros D E T g t s p g' Hh Hp Hc. eapply (commit_terminates E); [by eapply final_plain|done]. Qed.
Print Assumptions C10_terminates.

Example C10_case :
  (history E0 True (loop_g loop1) (loop_t loop1) (loop_s loop1) /\ ts_res (loop_s loop1) = ∅ /\
   NoDup (ts_redir (loop_s loop1)).*1 /\ redir_loop (ts_redir (loop_s loop1)) /\ plain_closures (loop_s loop1)) /\
  (history E0 True (loop_g loop2) (loop_t loop2) (loop_s loop2) /\
   exists g', commit E0 (loop_t loop2) (loop_g loop2) = Panicked PLoop g') /\
  (history E0 True busy_g busy_t busy_s /\ commit E0 busy_t busy_g = Done busy_g' tt /\
   NoDup (ts_redir busy_s).*1 /\ NoDup (ts_redir_all busy_s).*1).
Proof.
  split; [|split].
  - split; [apply run_hist_pick; [sides|]; vm_compute; eauto|]. split; [computes|]. split; [decides|]. split.
    + exists 1%N. eapply tc_l; [|eapply tc_l; [|apply tc_once]]; cbn beta; apply elem_of_list_In; vm_compute; [left|right; left|right; right; left]; reflexivity.
    + split; [intros i f n n' p Hin|intros i f n p Hin]; by apply elem_of_nil in Hin.
  - split; [apply run_hist_pick; [sides|]; vm_compute; eauto|]. eexists. vm_compute. reflexivity.
  - split; [apply busy_hist|]. split; [apply busy_commit|]. split; decides.
Qed.

(** ** C12 *)
(** Full statement: redirecting to the empty index clears the links AND leaves a graph
    that behaves like one in which they never existed.  The first half is proved; the
    second is false, see [C12_redirect_to_empty_refuted] in PropsFindings.v. *)
Theorem C12_redirect_to_empty_partial :
  forall {D} (E : env) (T : Prop) (g : graph D) (t : trans D) (s : tspec D) (g' : graph D) i n a,
  history E T g t s -> commit E t g = Done g' tt ->
  (a, 0%N) ∈ ts_redir s ->
  graph_get g i = Some n -> untouched s i ->
  exists n1 n2 n3 n', node_rel (lv_redirected (ts_redir s)) n n1 /\ ~ mentions n1 a /\ redir_final (ts_redir s) a 0%N /\
    node_rel (lv_redirected (ts_redir_all s)) n1 n2 /\
    node_rel (lv_cleared (ts_del s)) n2 n3 /\ graph_get g' i = Some n' /\ agree_nonbidi E n3 n'.
Proof.
  intros D E T g t s g' i n a Hh Hc Ha Hi Hu.
  destruct (final_old_path E T g t s Hh g' i n Hc Hi Hu) as (n1&n2&n3&n'&H1&H2&H3&H4&H5).
  exists n1, n2, n3, n'. split; [done|]. split; [|split; [by eapply history_to_empty|done]].
  eapply redirected_gone; [exact H1|]. apply elem_of_list_fmap. by exists (a, 0%N).
Qed.
Print Assumptions C12_redirect_to_empty_partial.

Definition C12_ops : list opn := setup ++ [ONewTrans 1 0; ORedirect 1 1 0]%N.
Definition C12_g := pick3_g (run_hist E0 C12_ops 0 1).
Definition C12_t := pick3_t (run_hist E0 C12_ops 0 1).
Definition C12_s := pick3_s (run_hist E0 C12_ops 0 1).
Definition C12_g' := done_g (commit E0 C12_t C12_g).
Example C12_case :
  history E0 True C12_g C12_t C12_s /\ commit E0 C12_t C12_g = Done C12_g' tt /\
  (1, 0)%N ∈ ts_redir C12_s /\
  graph_get C12_g 2%N = Some (nA 1 [1] [1; 0; 1] 2)%N /\ untouched C12_s 2%N /\
  graph_get C12_g' 2%N = Some (nA 0 [] [0; 0; 0] 2)%N.
Proof.
  split; [apply run_hist_pick; [sides|]; vm_compute; eauto|]. split; [computes|].
  split; [decides|]. split; [computes|]. split; [split_and!; decides|computes].
Qed.
