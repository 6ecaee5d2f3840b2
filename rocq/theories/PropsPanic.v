(** * Property theorems: what a commit leaves behind when its panic is caught (C60) *)
From Verif Require Import Grouped ExHist Decide PropsGraph PropsBidi GraphFinal PropsFindings PropsTrans Fault.

(** Committing [s] to a graph with the nodes [m], the closure of a queued mutate or update
    panics with [p], or it makes a node that mentions an index without node (the library
    then panics with an unwrap of [None]).  In [mut_fault] and [upd_fault] the closures
    queued before have returned and the faulty one is applied to the node as they left it. *)
Definition closure_fault {D} (s : tspec D) (p : panic) (m : gmap N (node D)) : Prop :=
  exists m1, sp_redirect (ts_redir s) m m1 /\
    (mut_fault (ts_mut s) p (ts_new s ∪ m1) \/
     exists m2, sp_mutates (ts_mut s) (ts_new s ∪ m1) = Some m2 /\ upd_fault (ts_upd s) p m2).

Section panicleft.
  Context {D : Type} (E : env) (T : Prop) (g : graph D) (t : trans D) (s : tspec D) (m : gmap N (node D)).
  Lemma closure_fault_commit p : history E T g t s -> nodes_are g m -> commit_fault t p (gmap_of g) -> closure_fault s p m.
  Proof.
    intros Hh Hm. pose proof (history_txn E T g t s Hh) as Htx. pose proof (history_nodes E T g t s Hh) as Hn.
    assert (m = gmap_of g) as -> by (apply map_eq; intros i; by rewrite (Hm i), (Hn i)).
    pose proof (f_equal x_new Htx) as H1. pose proof (f_equal x_mut Htx) as H2. pose proof (f_equal x_upd Htx) as H3.
    pose proof (f_equal x_redir Htx) as H4. cbn in H1, H2, H3, H4. unfold commit_fault, closure_fault.
    by rewrite H1, H2, H3, H4.
  Qed.
  Lemma panic_graph_of p g' : history E T g t s -> nodes_are g m -> commit E t g = Panicked p g' -> ~ closure_fault s p m ->
    graph_of E T g'.
  Proof.
    intros Hh Hm Hc Hnf. assert (Hh' := Hh). destruct Hh' as (L&(w&lg&kg&k&c&Hl&Hg&Ht&_)&_).
    apply lreach_reachable in Hl. apply (guard_cases E g t); intros Hgd.
    - exists w, kg, c. split; [done|]. unfold commit, bindM in Hc.
      destruct (do_commit_guard E g t Hgd) as (p'&Hd&_). rewrite Hd in Hc. by injection Hc as _ <-.
    - exists (set_g (del_t w k) kg (c, g')), kg, c. split; [|cbn; apply lookup_insert]. eapply reach_step; [done|].
      eapply (st_commit_panic E T w kg k p c t g g'); try done. intros Hf. by eapply Hnf, closure_fault_commit.
  Qed.
  Lemma panic_kept p g' : history E T g t s -> nodes_are g m -> commit E t g = Panicked p g' -> ~ closure_fault s p m ->
    (forall i, is_Some (graph_get g' i) -> is_Some (graph_get g i) \/ is_Some (ts_new s !! i)) /\
    (forall i n, graph_get g i = Some n -> i ∉ ts_del s -> exists n', graph_get g' i = Some n' /\
      (i ∉ (ts_mut s).*1 -> i ∉ (ts_upd s).*1 -> nvar n' = nvar n /\ ndata n' = ndata n)).
  Proof.
    intros Hh Hm Hc Hnf. destruct (history_ok E T g t s Hh) as (Hwf&Hty&Hok&_&Hr&Hti).
    destruct (commit_panic_wf E T t g p g' Hwf Hty Hok Hc) as [Hf|(_&_&_&_&_&Ho&Hk)].
    { destruct Hnf. by apply closure_fault_commit. }
    rewrite <- (tr_del _ _ _ Hr), <- (tr_mut _ _ _ Hr), <- (tr_upd _ _ _ Hr). split; [|done].
    intros i. rewrite (history_own E T g t s Hh). apply Ho.
  Qed.
End panicleft.

(** C60.  Whatever the panic of a commit is, unless a queued closure caused it: the graph
    it leaves has an exact reverse-link index, [get], [iter] and [len] agree, every node of
    it is an old node or was new in the transaction, and every old node not queued for
    removal is still there, if not queued for mutate/update with its variant and data. *)
Theorem C60_panic_leaves_consistent_partial :
  forall {D} (E : env) (T : Prop) (g : graph D) (t : trans D) (s : tspec D) m p g',
  history E T g t s -> nodes_are g m -> commit E t g = Panicked p g' -> ~ closure_fault s p m ->
  (forall y x src, y <> 0%N ->
    (exists b, omap_get y (g_back g') = Some b /\ (x, src) ∈ b) <->
    (exists n, graph_get g' x = Some n /\ (y, src) ∈ iter_sources E n)) /\
  (no_empty_in_sets g' -> check_backlinks E g' = true) /\
  (forall i n, (i, n) ∈ graph_iter g' <-> graph_get g' i = Some n) /\ NoDup (graph_iter g').*1 /\
  graph_len g' = length (graph_iter g') /\
  (forall i, is_Some (graph_get g' i) -> is_Some (graph_get g i) \/ is_Some (ts_new s !! i)) /\
  (forall i n, graph_get g i = Some n -> i ∉ ts_del s -> exists n', graph_get g' i = Some n' /\
    (i ∉ (ts_mut s).*1 -> i ∉ (ts_upd s).*1 -> nvar n' = nvar n /\ ndata n' = ndata n)).
Proof.
  intros D E T g t s m p g' Hh Hm Hc Hnf. assert (graph_of E T g') as Hg' by by eapply panic_graph_of.
  split; [by apply (graph_index_exact E T)|]. split; [by apply (graph_check_backlinks E T)|].
  destruct (graph_iter_agree E T g' Hg') as (H1&H2&H3&_). split; [done|]. split; [done|]. split; [done|].
  by eapply panic_kept.
Qed.
Print Assumptions C60_panic_leaves_consistent_partial.

(** C60, second part: such a graph is one more graph of a history, so every theorem about
    the graphs of histories ([graph_of]) holds of it, and [history] goes on with it
    ([st_commit_panic]). *)
Theorem C60_histories_go_on_partial :
  forall {D} (E : env) (T : Prop) (g : graph D) (t : trans D) (s : tspec D) m p g',
  history E T g t s -> nodes_are g m -> commit E t g = Panicked p g' -> ~ closure_fault s p m -> graph_of E T g'.
Proof. intros D E T g t s m p g'. by apply panic_graph_of. Qed.
Print Assumptions C60_histories_go_on_partial.

(** The premises hold of a commit that redirects node 2 to node 3, puts a new node in,
    redirects node 1 to node 4, changes nodes 3 and 5 and then panics because node 99 is to be removed ... *)
Definition e60 : list opn :=
  setup ++ [ONewTrans 1 0; OInsert 1 (nA 1 [2] [] 5) 5; ORedirect 1 2 3; ORedirectAll 1 1 4; OMutate 1 3 bump_mut; OUpdate 1 5 bump_upd;
            ORemove 1 4; ORemove 1 99]%N.
(** no fault: the panic is not an unwrap, and no queued closure panics with it *)
Lemma no_fault {D} (s : tspec D) p m : p <> PUnwrap ->
  Forall (fun f => forall n n', f.2 n <> Panicked p n') (ts_mut s) -> Forall (fun f => forall n, f.2 n <> Err p) (ts_upd s) ->
  ~ closure_fault s p m.
Proof.
  intros Hp H1 H2 (m1&_&[(pre&i&f&post&mi&n&Heq&_&_&Hf)|(m2&_&pre&i&f&post&mi&n&Heq&_&_&Hf)]).
  - rewrite Heq in H1. apply Forall_app in H1 as [_ H1]. inversion H1 as [|?? Hn]; subst. cbn in Hn. naive_solver.
  - rewrite Heq in H2. apply Forall_app in H2 as [_ H2]. inversion H2 as [|?? Hn]; subst. cbn in Hn. naive_solver.
Qed.
Example C60_case :
  history E0 True (kg E0 e60 1) (kt E0 e60 1) (ks E0 e60 1) /\
  commit E0 (kt E0 e60 1) (kg E0 e60 1) = Panicked PRemoveMissing (kc E0 e60 1) /\
  (forall m, ~ closure_fault (ks E0 e60 1) PRemoveMissing m) /\
  graph_get (kg E0 e60 1) 3%N = Some (nA 2 [1; 2] [2] 3)%N /\
  graph_get (kc E0 e60 1) 3%N = Some (nA 3 [3] [3] 103)%N /\ graph_get (kc E0 e60 1) 4%N = None /\
  graph_get (kc E0 e60 1) 5%N = Some (nA 0 [2] [] 105)%N.
Proof.
  split; [hist|]. split; [computes|].
  split; [intros m; apply no_fault; [done|vm_compute; repeat constructor; by intros|vm_compute; repeat constructor; by intros]|].
  split; [computes|]. split; [computes|]. split; computes.
Qed.
(** ... and a history goes on after such a panic: the next transaction is built and committed *)
Definition e60b : list opn :=
  setup ++ [ONewTrans 1 0; OInsert 1 (nA 1 [2] [] 5) 5; ORedirect 1 2 3; ORedirectAll 1 1 4; ORemove 1 4; ORemove 1 99;
            OCommitPanic 0 1 PRemoveMissing; ONewTrans 2 0; OInsert 2 (nA 5 [3] [1] 6) 6; ORemove 2 3]%N.
Example C60_case_on :
  history E0 True (kg E0 e60b 2) (kt E0 e60b 2) (ks E0 e60b 2) /\
  commit E0 (kt E0 e60b 2) (kg E0 e60b 2) = Done (kc E0 e60b 2) tt /\
  graph_get (kc E0 e60b 2) 6%N = Some (nA 5 [] [1] 6)%N.
Proof. split; [hist|]. split; computes. Qed.

(** ** Without the premise on the closures the statement is false *)
(** node 2 links to node 1, node 3 links to node 2; transaction 1 queues a closure on
    node 3, transaction 2 removes node 2 *)
Definition e60f (o : opn) : list opn :=
  [ONewCtx 7; ONewGraph 0 0; ONewTrans 0 0; OInsert 0 (nB 0 [] 1) 1; OInsert 0 (nA 1 [] [] 2) 2; OInsert 0 (nB 2 [] 3) 3;
   OCommit 0 0; ONewTrans 1 0; o; ONewTrans 2 0; ORemove 2 2]%N.
(** a mutate closure that panics at once (a typed mutate macro used on the other variant),
    a closure linking its node to an index without node, a panicking update closure *)
Definition c60a : opn := OMutate 1 3%N (relink 0 [] []).
Definition c60b : opn := OMutate 1 2%N (relink 9 [] []).
Definition bad_upd : upd_fn nat := fun _ => Err PTypeMacro.
Lemma bad_upd_ok E T : upd_ok E T bad_upd.
Proof. by intros n n'. Qed.
Ltac hist60 := apply run_hist_pick; [repeat (constructor; [first [exact I|apply bad_upd_ok]|]); constructor|vm_compute; eexists; reflexivity].
Definition c60c : opn := OUpdate 1 3%N bad_upd.

Definition after_panic (o : opn) := kc E0 (e60f o) 1.
Definition after_next (o : opn) := done_g (commit E0 (kt E0 (e60f o) 2) (after_panic o)).
Definition C60_statement : Prop :=
  forall (E : env) (T : Prop) (g : graph nat) (t : trans nat) (s : tspec nat) p g',
  history E T g t s -> commit E t g = Panicked p g' ->
  (forall y x src, y <> 0%N ->
    (exists b, omap_get y (g_back g') = Some b /\ (x, src) ∈ b) <->
    (exists n, graph_get g' x = Some n /\ (y, src) ∈ iter_sources E n)) /\
  (forall i, is_Some (graph_get g i) -> i ∉ ts_del s -> is_Some (graph_get g' i)).

(** (a) the links of the node are out of the index when the closure runs, and stay out: the
    integrity check fails, and removing node 2 later leaves node 3 linking to it *)
Theorem C60_mutate_panic_refuted : exists (g : graph nat) t s p g' t2 s2 g2 n src,
  history E0 True g t s /\ history E0 True g t2 s2 /\
  commit E0 t g = Panicked p g' /\ check_backlinks E0 g = true /\ check_backlinks E0 g' = false /\
  commit E0 t2 g' = Done g2 tt /\ graph_get g2 2%N = None /\
  graph_get g2 3%N = Some n /\ (2%N, src) ∈ iter_sources E0 n.
Proof.
  exists (kg E0 (e60f c60a) 1), (kt E0 (e60f c60a) 1), (ks E0 (e60f c60a) 1), PTypeMacro, (after_panic c60a),
    (kt E0 (e60f c60a) 2), (ks E0 (e60f c60a) 2), (after_next c60a), (nB 2 [] 3)%N, (Src 1 0 None).
  split; [hist|]. split; [replace (kg E0 (e60f c60a) 1) with (kg E0 (e60f c60a) 2) by computes; hist|].
  split; [computes|]. split; [computes|]. split; [computes|]. split; [computes|].
  split; [computes|]. split; [computes|]. vm_compute. left.
Qed.
Print Assumptions C60_mutate_panic_refuted.

(** (b) a mutate closure that returns, with a link to an index without node: the panic is
    the library's ([unwrap] of [None]), raised while the links of the node go back in *)
Theorem C60_unknown_target_refuted : exists (g : graph nat) t s g' n src,
  history E0 True g t s /\ commit E0 t g = Panicked PUnwrap g' /\
  graph_get g' 2%N = Some n /\ (9%N, src) ∈ iter_sources E0 n /\ graph_get g' 9%N = None /\
  check_backlinks E0 g' = false.
Proof.
  exists (kg E0 (e60f c60b) 1), (kt E0 (e60f c60b) 1), (ks E0 (e60f c60b) 1), (after_panic c60b), (nA 9 [] [] 2)%N, (Src 0 0 None).
  split; [hist|]. split; [computes|]. split; [computes|]. split; [vm_compute; left|]. split; computes.
Qed.
Print Assumptions C60_unknown_target_refuted.

(** (c) the node is out of the graph while the closure of an update runs: it is lost *)
Theorem C60_update_panic_refuted : exists (g : graph nat) t s p g',
  history E0 True g t s /\ commit E0 t g = Panicked p g' /\
  3%N ∉ ts_del s /\ is_Some (graph_get g 3%N) /\ graph_get g' 3%N = None.
Proof.
  exists (kg E0 (e60f c60c) 1), (kt E0 (e60f c60c) 1), (ks E0 (e60f c60c) 1), PTypeMacro, (after_panic c60c).
  split; [hist60|]. split; [computes|]. split; [vm_compute; by intros []%not_elem_of_nil|]. split; [vm_compute; by eexists|computes].
Qed.
Print Assumptions C60_update_panic_refuted.
Theorem C60_panic_leaves_consistent_refuted : ~ C60_statement.
Proof.
  intros H. destruct C60_update_panic_refuted as (g&t&s&p&g'&Hh&Hc&Hd&Hi&Hn).
  destruct (H _ _ _ _ _ _ _ Hh Hc) as [_ Hk]. destruct (Hk _ Hi Hd) as [n Hg]. congruence.
Qed.
Print Assumptions C60_panic_leaves_consistent_refuted.

(** ** What a closure that fails leaves, exactly *)
(** the reverse-link index of [g] is exact for the links of all nodes but [x]; of the links
    of [x] it lists those in [own] and no others *)
Definition index_but {D} (E : env) (g : graph D) (x : idx) (own : list (idx * source)) : Prop :=
  forall y z src, y <> 0%N ->
  (exists b, omap_get y (g_back g) = Some b /\ (z, src) ∈ b) <->
  if decide (z = x) then (y, src) ∈ own else exists n, graph_get g z = Some n /\ (y, src) ∈ iter_sources E n.

(** The graph [g'] was left by the closure queued for node [x].  All earlier steps of the
    commit are done: the redirects queued by [redirect_links], the new nodes, the closures
    queued before ([mi] are the nodes then), and nothing of the later ones.
    - A mutate closure that panicked: the node is as the closure left it, and none of its
      links is in the index.
    - An update closure that panicked: the node is gone.
    - A closure that returned, with a link to an index without node: the node is the one the
      closure made, and its links before the first such link are in the index. *)
Definition mutate_left {D} (E : env) (fs : list (idx * mut_fn D)) p (m : gmap N (node D)) (g' : graph D) : Prop :=
  exists pre x f post mi n n' k, fs = pre ++ (x, f) :: post /\ sp_mutates pre m = Some mi /\ mi !! x = Some n /\
    nodes_are g' (<[x := n']> mi) /\ index_but E g' x (take k (iter_sources E n')) /\
    (f n = Panicked p n' /\ k = 0 \/
     f n = Done n' tt /\ p = PUnwrap /\ exists y src, iter_sources E n' !! k = Some (y, src) /\ mi !! y = None).
Definition update_left {D} (E : env) (fs : list (idx * upd_fn D)) p (m : gmap N (node D)) (g' : graph D) : Prop :=
  exists pre x f post mi n, fs = pre ++ (x, f) :: post /\ sp_updates pre m = Some mi /\ mi !! x = Some n /\
    (f n = Err p /\ nodes_are g' (delete x mi) /\ index_but E g' x [] \/
     exists n' k, f n = Ok n' /\ p = PUnwrap /\ nodes_are g' (<[x := n']> mi) /\
       index_but E g' x (take k (iter_sources E n')) /\
       exists y src, iter_sources E n' !! k = Some (y, src) /\ mi !! y = None).
Definition closure_left {D} (E : env) (s : tspec D) p (m : gmap N (node D)) (g' : graph D) : Prop :=
  exists m1, sp_redirect (ts_redir s) m m1 /\
    (mutate_left E (ts_mut s) p (ts_new s ∪ m1) g' \/
     exists m2, sp_mutates (ts_mut s) (ts_new s ∪ m1) = Some m2 /\ update_left E (ts_upd s) p m2 g').

Section closureleft.
  Context {D : Type} (E : env).
  Lemma holed_index_but (g : graph D) x own : holed E g x own -> index_but E g x own.
  Proof.
    intros [_ H] y z src Hy. specialize (H y z src Hy). unfold inback in H. rewrite H. case_decide; [done|].
    setoid_rewrite elem_iter_sources. done.
  Qed.
  Lemma closure_left_commit (T : Prop) (g : graph D) t s m p g' : history E T g t s -> nodes_are g m ->
    commit_left E t p (gmap_of g) g' -> closure_left E s p m g' /\ arena_ok E (g_nodes g').
  Proof.
    intros Hh Hm. pose proof (history_txn E T g t s Hh) as Htx. pose proof (history_nodes E T g t s Hh) as Hn.
    assert (m = gmap_of g) as -> by (apply map_eq; intros i; by rewrite (Hm i), (Hn i)).
    pose proof (f_equal x_new Htx) as H1. pose proof (f_equal x_mut Htx) as H2. pose proof (f_equal x_upd Htx) as H3.
    pose proof (f_equal x_redir Htx) as H4. cbn in H1, H2, H3, H4. unfold commit_left, closure_left.
    rewrite <- H1, <- H2, <- H3, <- H4. intros (m1&Hr&Hl). 
    destruct Hl as [(pre&x&f&post&mi&n&n'&k&Heq&Hpre&Hx&Hg&Hh'&Hf)|(m2&Hm2&pre&x&f&post&mi&n&Heq&Hpre&Hx&Hf)].
    - split; [|apply Hh']. exists m1. split; [done|]. left. exists pre, x, f, post, mi, n, n', k.
      repeat (split; [first [done|by apply holed_index_but]|]). done.
    - destruct Hf as [(Hf&Hg&Hh')|(n'&k&Hf&Hp&Hg&Hh'&Hy)]; (split; [|apply Hh']); exists m1; (split; [done|]); right;
        exists m2; (split; [done|]); exists pre, x, f, post, mi, n; repeat (split; [done|]).
      + left. split; [done|]. split; [done|]. by apply holed_index_but.
      + right. exists n', k. repeat (split; [first [done|by apply holed_index_but]|]). done.
  Qed.
End closureleft.

(** C60, third part.  Every panic of a commit of a history, closures included: [get],
    [iter] and [len] of the graph left behind agree, and the graph is either consistent as in
    the first part or exactly what the failing closure left. *)
Theorem C60_panic_exact :
  forall {D} (E : env) (T : Prop) (g : graph D) (t : trans D) (s : tspec D) m p g',
  history E T g t s -> nodes_are g m -> commit E t g = Panicked p g' ->
  ((forall i n, (i, n) ∈ graph_iter g' <-> graph_get g' i = Some n) /\ NoDup (graph_iter g').*1 /\
   graph_len g' = length (graph_iter g')) /\
  (closure_left E s p m g' \/
   (forall y x src, y <> 0%N ->
     (exists b, omap_get y (g_back g') = Some b /\ (x, src) ∈ b) <->
     (exists n, graph_get g' x = Some n /\ (y, src) ∈ iter_sources E n)) /\
   (no_empty_in_sets g' -> check_backlinks E g' = true) /\
   (forall i, is_Some (graph_get g' i) -> is_Some (graph_get g i) \/ is_Some (ts_new s !! i)) /\
   (forall i n, graph_get g i = Some n -> i ∉ ts_del s -> exists n', graph_get g' i = Some n' /\
     (i ∉ (ts_mut s).*1 -> i ∉ (ts_upd s).*1 -> nvar n' = nvar n /\ ndata n' = ndata n))).
Proof.
  intros D E T g t s m p g' Hh Hm Hc. destruct (history_ok E T g t s Hh) as (Hwf&Hty&Hok&_&Hr&Hti).
  assert (arena_ok E (g_nodes g') ->
    (forall i n, (i, n) ∈ graph_iter g' <-> graph_get g' i = Some n) /\ NoDup (graph_iter g').*1 /\
    graph_len g' = length (graph_iter g')) as Hit.
  { intros Ha. split; [|split; [by apply (arena_items_NoDup E)|apply arena_len_items]].
    intros i n. symmetry. by apply (arena_get_items E). }
  destruct (commit_stop E T t g p g' Hwf Hty Hok Hc) as [(Hwf'&_&_&_&_&Ho&Hk)|Hl].
  - split; [apply Hit, Hwf'|]. right. split; [|split; [by apply check_backlinks_ok|]].
    { intros y x src Hy. split.
      - intros Hb. destruct (wf_b3 _ _ Hwf' y x src Hy Hb) as (n&Hx&Hs). exists n. by rewrite elem_iter_sources.
      - intros (n&Hx&Hs). rewrite elem_iter_sources in Hs. exact (wf_b2 _ _ Hwf' x n src y Hx Hs). }
    rewrite <- (tr_del _ _ _ Hr), <- (tr_mut _ _ _ Hr), <- (tr_upd _ _ _ Hr). split; [|done].
    intros i. rewrite (history_own E T g t s Hh). apply Ho.
  - destruct (closure_left_commit E T g t s m p g' Hh Hm Hl) as [Hcl Ha]. split; [by apply Hit|by left].
Qed.
Print Assumptions C60_panic_exact.

(** node 2 is mutated to link to node 1 twice, to 9, where no node is, and to 3: its two
    links to node 1 are in the index, its link to node 3 is not *)
Definition c60d : opn := OMutate 1 2%N (relink 1 [1; 9] [3])%N.
Example C60_case_exact :
  history E0 True (kg E0 (e60f c60d) 1) (kt E0 (e60f c60d) 1) (ks E0 (e60f c60d) 1) /\
  commit E0 (kt E0 (e60f c60d) 1) (kg E0 (e60f c60d) 1) = Panicked PUnwrap (kc E0 (e60f c60d) 1) /\
  graph_get (kc E0 (e60f c60d) 1) 2%N = Some (nA 1 [1; 9] [3] 2)%N /\
  omap_get 1%N (g_back (kg E0 (e60f c60d) 1)) = Some [(2%N, Src 0 0 None)] /\
  omap_get 1%N (g_back (kc E0 (e60f c60d) 1)) = Some [(2%N, Src 0 0 None); (2%N, Src 0 1 None)] /\
  omap_get 3%N (g_back (kc E0 (e60f c60d) 1)) = Some [] /\
  take 2 (iter_sources E0 (nA 1 [1; 9] [3] 2)%N) = [(1%N, Src 0 0 None); (1%N, Src 0 1 None)].
Proof. split; [hist|]. split; [computes|]. split; [computes|]. split; [computes|]. split; [computes|]. split; computes. Qed.
