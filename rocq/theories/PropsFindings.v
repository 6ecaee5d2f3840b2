(** * Properties of the documentation that do not hold: C12, C19, C25, C30, C52

    Each refutation is a history of API calls on a concrete schema, run in the model. *)
From Verif Require Import Grouped ExHist Decide PropsGraph PropsBidi DecideSchema PropsSchema.

(** transaction [k] of the history [os] and its graph *)
Definition kg (E : env) (os : list opn) (k : nat) := pick3_g (run_hist E os 0 k).
Definition kt (E : env) (os : list opn) (k : nat) := pick3_t (run_hist E os 0 k).
Definition ks (E : env) (os : list opn) (k : nat) := pick3_s (run_hist E os 0 k).
Definition kc (E : env) (os : list opn) (k : nat) := done_g (commit E (kt E os k) (kg E os k)).
Ltac hist := apply run_hist_pick; [sides|vm_compute; eexists; reflexivity].
Lemma same_nodes E E' T T' (g g' : graph nat) t t' s s' :
  history E T g t s -> history E' T' g' t' s' -> gmap_of g = gmap_of g' -> forall i, graph_get g i = graph_get g' i.
Proof.
  intros H H' Heq i. rewrite <- (gmap_of_get E g i), <- (gmap_of_get E' g' i); [by rewrite Heq|..]; by eapply hist_wf.
Qed.

(** ** C12 *)
(** In both histories the graph then holds the empty A node 2 and the B node 1.  In the
    first, A2.next was 1 before [redirect_links(1, empty)]; [redirect_links(empty, 1)]
    brings that link back.  In the second it was never set, and the same call panics. *)
Definition e12 : list opn :=
  [ONewCtx 7; ONewGraph 0 0; ONewTrans 0 0; OInsert 0 (nB 0 [] 1) 1; OInsert 0 (nA 1 [] [] 2) 2; OCommit 0 0; ONewTrans 1 0; ORedirect 1 1 0]%N.
Definition e12a : list opn := e12 ++ [OCommit 0 1; ONewTrans 2 0]%N.
Definition e12b : list opn :=
  [ONewCtx 7; ONewGraph 0 0; ONewTrans 0 0; OInsert 0 (nB 0 [] 1) 1; OInsert 0 (nA 0 [] [] 2) 2; OCommit 0 0; ONewTrans 1 0; OCommit 0 1; ONewTrans 2 0]%N.
Theorem C12_redirect_to_empty_refuted :
  exists (g0 : graph nat) t0 s0 g1 g2 t s1 s2 g1' g2' n,
    history E0 True g0 t0 s0 /\ ts_redir s0 = [(1, 0)]%N /\ commit E0 t0 g0 = Done g1 tt /\
    history E0 True g1 t s1 /\ history E0 True g2 t s2 /\ (forall i, graph_get g1 i = graph_get g2 i) /\
    commit E0 (trans_redirect 0%N 1%N t) g1 = Done g1' tt /\ graph_get g1 2%N = Some (nA 0 [] [] 2)%N /\
    graph_get g1' 2%N = Some n /\ has_link n (Link 0 0) 1%N /\
    commit E0 (trans_redirect 0%N 1%N t) g2 = Panicked PUnwrap g2'.
Proof.
  exists (kg E0 e12 1), (kt E0 e12 1), (ks E0 e12 1), (kg E0 e12a 2), (kg E0 e12b 2), (kt E0 e12a 2), (ks E0 e12a 2), (ks E0 e12b 2).
  eexists. eexists. eexists.
  assert (history E0 True (kg E0 e12a 2) (kt E0 e12a 2) (ks E0 e12a 2)) as H1 by hist.
  assert (history E0 True (kg E0 e12b 2) (kt E0 e12a 2) (ks E0 e12b 2)) as H2.
  { assert (kt E0 e12a 2 = kt E0 e12b 2) as -> by computes. hist. }
  split; [hist|]. split; [computes|]. split; [computes|]. split; [exact H1|]. split; [exact H2|].
  split; [eapply same_nodes; [exact H1|exact H2|computes]|].
  split; [computes|]. split; [computes|]. split; [computes|]. split; [apply has_linkb_spec; computes|computes].
Qed.
Print Assumptions C12_redirect_to_empty_refuted.

(** ** C52 *)
(** The two graphs hold the same nodes, but in the first an A node linking to the index 9,
    where no node ever was, has been inserted and removed.  A mutate that sets a link to
    9 succeeds there and panics in the second. *)
Definition e52 (n3 : node nat) : list opn :=
  [ONewCtx 7; ONewGraph 0 0; ONewTrans 0 0; OInsert 0 (nB 0 [] 1) 1; OInsert 0 (nA 0 [] [] 2) 2; OInsert 0 n3 3; OCommit 0 0;
   ONewTrans 1 0; ORemove 1 3; OCommit 0 1; ONewTrans 2 0; OMutate 2 2 (relink 9 [] [])]%N.
Definition e52a := e52 (nA 9 [] [] 3). Definition e52b := e52 (nA 0 [] [] 3).
Theorem C52_hidden_state_refuted :
  exists (g1 g2 : graph nat) t s g1' g2',
    history E0 True g1 t s /\ history E0 True g2 t s /\ (forall i, graph_get g1 i = graph_get g2 i) /\
    commit E0 t g1 = Done g1' tt /\ commit E0 t g2 = Panicked PUnwrap g2'.
Proof.
  exists (kg E0 e52a 2), (kg E0 e52b 2), (kt E0 e52a 2), (ks E0 e52a 2). eexists. eexists.
  assert (history E0 True (kg E0 e52a 2) (kt E0 e52a 2) (ks E0 e52a 2)) as H1 by hist.
  assert (history E0 True (kg E0 e52b 2) (kt E0 e52a 2) (ks E0 e52a 2)) as H2.
  { assert (kt E0 e52a 2 = kt E0 e52b 2) as -> by computes. assert (ks E0 e52a 2 = ks E0 e52b 2) as -> by computes. hist. }
  split; [exact H1|]. split; [exact H2|]. split; [eapply same_nodes; [exact H1|exact H2|computes]|]. split; computes.
Qed.
Print Assumptions C52_hidden_state_refuted.

(** If both commits succeed, the results are the same (no bidirectional links).  This is also the part of C12 that holds: apart from
    redirects of the empty index, which no history contains, and from panics, a graph
    behaves according to its nodes. *)
Lemma commits_agree {D} E T (g1 g2 : graph D) t s1 s2 g1' g2' :
  (forall l, e_opp E l = []) -> history E T g1 t s1 -> history E T g2 t s2 ->
  (forall i, graph_get g1 i = graph_get g2 i) -> commit E t g1 = Done g1' tt -> commit E t g2 = Done g2' tt ->
  forall i, graph_get g1' i = graph_get g2' i.
Proof.
  intros Ho H1 H2 Heq Hc1 Hc2 i.
  assert (ts_txn s1 = ts_txn s2) as Htx by (by rewrite <- (history_txn E T g1 t s1 H1), <- (history_txn E T g2 t s2 H2)).
  destruct (final_exact E T g1 t s1 H1 g1' Ho Hc1) as (m&m'&Hm&Hsp&Hm').
  destruct (final_exact E T g2 t s2 H2 g2' Ho Hc2) as (k&k'&Hk&Hsp'&Hk').
  assert (k = m) as -> by (apply map_eq; intros j; by rewrite Hk, Hm, Heq). rewrite <- Htx in Hsp'.
  rewrite <- Hm', <- Hk'. f_equal.
  by eapply sp_commit_det.
Qed.

Theorem C52_same_results_partial :
  forall {D} (E : env) (T : Prop) (g1 g2 : graph D) (t : trans D) (s1 s2 : tspec D) (g1' g2' : graph D),
  (forall l, e_opp E l = []) -> history E T g1 t s1 -> history E T g2 t s2 ->
  (forall i, graph_get g1 i = graph_get g2 i) -> commit E t g1 = Done g1' tt -> commit E t g2 = Done g2' tt ->
  forall i, graph_get g1' i = graph_get g2' i.
Proof. intros D E T g1 g2 t s1 s2 g1' g2' H1 H2 H3 H4 H5 H6. exact (commits_agree E T g1 g2 t s1 s2 g1' g2' H1 H2 H3 H4 H5 H6). Qed.
Print Assumptions C52_same_results_partial.
Theorem C12_later_commits_partial :
  forall {D} (E : env) (T : Prop) (g1 g2 : graph D) (t : trans D) (s1 s2 : tspec D) (g1' g2' : graph D),
  (forall l, e_opp E l = []) -> history E T g1 t s1 -> history E T g2 t s2 ->
  (forall i, graph_get g1 i = graph_get g2 i) -> commit E t g1 = Done g1' tt -> commit E t g2 = Done g2' tt ->
  forall i, graph_get g1' i = graph_get g2' i.
Proof. intros D E T g1 g2 t s1 s2 g1' g2' H1 H2 H3 H4 H5 H6. exact (commits_agree E T g1 g2 t s1 s2 g1' g2' H1 H2 H3 H4 H5 H6). Qed.
Print Assumptions C12_later_commits_partial.
(** a redirect to empty in the first history only; then both redirect 1 to 3 *)
Definition e12c (x : idx) (os : list opn) : list opn :=
  [ONewCtx 7; ONewGraph 0 0; ONewTrans 0 0; OInsert 0 (nB 0 [] 1) 1; OInsert 0 (nA x [] [1] 2) 2; OInsert 0 (nA 0 [] [] 3) 3; OCommit 0 0; ONewTrans 1 0]%N ++ os ++
  [OCommit 0 1; ONewTrans 2 0; OMutate 2 2 bump_mut; ORedirect 2 1 3; ORemove 2 1]%N.
Definition e12d := e12c 3%N [ORedirect 1 3 0]%N. Definition e12e := e12c 0%N [].
Example C52_case :
  history E0 True (kg E0 e12d 2) (kt E0 e12d 2) (ks E0 e12d 2) /\ history E0 True (kg E0 e12e 2) (kt E0 e12d 2) (ks E0 e12e 2) /\
  (forall i, graph_get (kg E0 e12d 2) i = graph_get (kg E0 e12e 2) i) /\ g_back (kg E0 e12d 2) <> g_back (kg E0 e12e 2) /\
  commit E0 (kt E0 e12d 2) (kg E0 e12d 2) = Done (kc E0 e12d 2) tt /\ commit E0 (kt E0 e12d 2) (kg E0 e12e 2) = Done (kc E0 e12e 2) tt /\
  graph_get (kc E0 e12d 2) 2%N = Some (nA 0 [] [3] 102)%N.
Proof.
  assert (history E0 True (kg E0 e12d 2) (kt E0 e12d 2) (ks E0 e12d 2)) as H1 by hist.
  assert (history E0 True (kg E0 e12e 2) (kt E0 e12d 2) (ks E0 e12e 2)) as H2.
  { assert (kt E0 e12d 2 = kt E0 e12e 2) as -> by computes. hist. }
  split; [exact H1|]. split; [exact H2|]. split; [eapply same_nodes; [exact H1|exact H2|computes]|].
  split; [vm_compute; congruence|]. split; [computes|]. split; computes.
Qed.

(** ** C19 *)
Definition answeredb (E : env) (g : graph nat) : bool :=
  forallb (fun p : idx * node nat => forallb (fun ly : link * idx =>
    match graph_get g ly.2 with
    | Some nb => negb (existsb (fun k => l_var k =? nvar nb) (e_opp E ly.1)) || existsb (fun k => has_linkb nb k p.1) (e_opp E ly.1)
    | None => true
    end) (node_links p.2)) (graph_iter g).
Lemma answeredb_sound E T (g : graph nat) : graph_of E T g -> answeredb E g = true -> answered E g.
Proof.
  intros Hg Hb a b na nb l Ha Hnb Hl (k&Hk&Hv). destruct (graph_iter_agree E T g Hg) as (Hit&_).
  apply Hit in Ha. unfold answeredb in Hb. rewrite forallb_forall in Hb. apply elem_of_list_In in Ha. specialize (Hb _ Ha).
  rewrite forallb_forall in Hb. specialize (Hb (l, b)). cbn in Hb. rewrite Hnb in Hb.
  specialize (Hb (proj1 (elem_of_list_In _ _) (elem_node_links na l b Hl))). apply orb_true_iff in Hb as [Hb|Hb].
  - exfalso. apply negb_true_iff in Hb. assert (existsb (fun k => l_var k =? nvar nb) (e_opp E l) = true) as Ht; [|congruence].
    apply existsb_exists. exists k. rewrite <- elem_of_list_In. split; [done|]. by apply Nat.eqb_eq.
  - apply existsb_exists in Hb as (k'&Hk'&Hl'). exists k'. rewrite elem_of_list_In. split; [done|]. by apply has_linkb_spec.
Qed.
Lemma history_graph E T (g : graph nat) t s : history E T g t s -> graph_of E T g.
Proof.
  intros (L&Hl&_). apply pair_log_of in Hl as (w&k1&k2&c&Hw&Hg&_). exists w, k1, c. done.
Qed.

(** Two links in one group, [bidirectional!{A.out <-> B.users}] with A.next and A.peers in
    the group out.  A2 links to B1 through both; dropping A2.next also drops 2 from
    B1.users, although A2.peers still contains 1. *)
Definition S7 : schema := Schema [("A", sA); ("B", sB)]%string [Bidi "A" "out" "B" "users"]%string [] [].
Definition ES7 : env := env_of cap S7 (fun _ l => l) true.
Definition e19 : list opn :=
  [ONewCtx 7; ONewGraph 0 0; ONewTrans 0 0; OInsert 0 (nB 0 [] 1) 1; OInsert 0 (nA 1 [1] [] 2) 2; OCommit 0 0;
   ONewTrans 1 0; OMutate 1 2 (relink 0 [1] [])]%N.
Theorem C19_grouped_links_refuted :
  accepted cap S7 /\ groups_apart S7 /\ (forall A sd, (A, sd) ∈ sc_vars S7 -> one_attribute sd) /\ bidi_spelled S7 /\
  exists (g g' : graph nat) t s, history ES7 True g t s /\ no_early g s /\ answered ES7 g /\
    commit ES7 t g = Done g' tt /\ ~ answered ES7 g'.
Proof.
  split; [apply acceptedb_sound; computes|]. split; [apply groups_apartb_sound; computes|].
  split; [apply one_attributeb_sound; computes|]. split; [apply bidi_spelledb_sound; computes|].
  assert (history ES7 True (kg ES7 e19 1) (kt ES7 e19 1) (ks ES7 e19 1)) as Hh by hist.
  exists (kg ES7 e19 1), (kc ES7 e19 1), (kt ES7 e19 1), (ks ES7 e19 1). split; [exact Hh|].
  split; [apply (no_earlyb_sound ES7); [by eapply hist_wf|computes]|].
  split; [eapply answeredb_sound; [by eapply history_graph|computes]|]. split; [computes|]. intros Ha.
  destruct (Ha 2 1 (nA 0 [1] [] 2) (nB 0 [] 1) (Link 0 1))%N as (k&Hk&Hl).
  - computes.
  - computes.
  - apply has_linkb_spec. computes.
  - exists (Link 1 1). split; [decides|done].
  - destruct Hl as (_&_&lv&Hlv&Hin). revert Hk Hlv. clear -Hin. intros Hk. assert (k = Link 1 1) as -> by (revert Hk; vm_compute; set_solver).
    intros [= <-]. by apply elem_of_nil in Hin.
Qed.
Print Assumptions C19_grouped_links_refuted.

(** A link to a reserved index that is filled later is not answered, also for one link
    on each side: A3.next = 1 is committed before B1 is filled in by the transaction that
    reserved the index. *)
Definition e19b : list opn :=
  [ONewCtx 7; ONewGraph 0 0; ONewTrans 0 0; ONewTrans 1 0; OAlloc 1 1 1; OInsert 0 (nA 1 [] [] 2) 2; OCommit 0 0;
   OFill 1 1 (nB 0 [] 1)]%N.
Theorem C19_late_node_refuted :
  single_choice E1 /\
  exists (g g' : graph nat) t s, history E1 True g t s /\ bidi_symmetric E1 g /\
    commit E1 t g = Done g' tt /\ ~ bidi_symmetric E1 g'.
Proof.
  split; [apply E1_single|]. assert (history E1 True (kg E1 e19b 1) (kt E1 e19b 1) (ks E1 e19b 1)) as Hh by hist.
  exists (kg E1 e19b 1), (kc E1 e19b 1), (kt E1 e19b 1), (ks E1 e19b 1). split; [exact Hh|].
  split; [apply (bidi_symmetricb_sound E1 [Link 0 0; Link 1 1]); [by eapply hist_wf|exact E1_support|computes]|].
  split; [computes|]. intros Hs. specialize (Hs 2%N 1%N (nA 1 [] [] 2)%N (nB 0 [] 1)%N (Link 0 0) (Link 1 1)).
  assert (has_link (nB 0 [] 1)%N (Link 1 1) 2%N) as (_&_&lv&[= <-]&Hin); [|by apply elem_of_nil in Hin].
  apply Hs; [computes|computes|decides|computes|computes|]. apply has_linkb_spec. computes.
Qed.
Print Assumptions C19_late_node_refuted.

(** What holds for grouped links.  Every link that the transaction adds between nodes of the
    result is answered; and if the transaction takes no declared link away between nodes
    that stay, every link of the result is. *)
Theorem C19_added_links_answered_partial :
  forall {D} (E : env) (T : Prop) (g : graph D) (t : trans D) (s : tspec D) (g' : graph D),
  history E T g t s -> commit E t g = Done g' tt ->
  exists m m', nodes_are g m /\ sp_commit (ts_txn s) m m' /\ holds_nonbidi E g' m' /\
    forall a b l nb, in_nodes m' a b l -> ~ in_graph g a b l -> nonvec E l -> m' !! b = Some nb ->
      (exists k, k ∈ e_opp E l /\ l_var k = nvar nb) -> exists k, k ∈ e_opp E l /\ in_graph g' b a k.
Proof. intros D E T g t s g' Hh Hc. exact (final_added_answered E T g t s Hh g' Hc). Qed.
Print Assumptions C19_added_links_answered_partial.
Theorem C19_answered_kept_partial :
  forall {D} (E : env) (g : graph D) (t : trans D) (s : tspec D) (g' : graph D),
  history E True g t s -> commit E t g = Done g' tt ->
  (forall l k, k ∈ e_opp E l -> l ∈ e_opp E k) -> (forall l k, k ∈ e_opp E l -> nonvec E l) ->
  no_early g s -> answered E g ->
  exists m m', nodes_are g m /\ sp_commit (ts_txn s) m m' /\ holds_nonbidi E g' m' /\
    ((forall a b l k, in_graph g a b l -> k ∈ e_opp E l -> is_Some (m' !! a) -> is_Some (m' !! b) -> in_nodes m' a b l) ->
     answered E g').
Proof. intros D E g t s g' Hh Hc. exact (final_answered E True g t s Hh g' I Hc). Qed.
Print Assumptions C19_answered_kept_partial.
(** [A.out <-> B.users] as above: A2 gets a second link to B1, A3 is new and links to B1 *)
Definition e19c : list opn :=
  [ONewCtx 7; ONewGraph 0 0; ONewTrans 0 0; OInsert 0 (nB 0 [] 1) 1; OInsert 0 (nA 1 [] [] 2) 2; OCommit 0 0;
   ONewTrans 1 0; OMutate 1 2 (relink 1 [1] []); OInsert 1 (nA 0 [1] [] 3) 3]%N.
Lemma ES7_support l k : k ∈ e_opp ES7 l -> l = Link 0 0 \/ l = Link 0 1 \/ l = Link 1 1.
Proof.
  destruct l as [[|[|v]] [|[|[|f]]]]; intros Hk; first [by auto|exfalso; vm_compute in Hk; by apply elem_of_nil in Hk].
Qed.
Lemma ES7_opp l k : k ∈ e_opp ES7 l -> l ∈ e_opp ES7 k /\ nonvec ES7 l.
Proof.
  intros Hk. destruct (ES7_support l k Hk) as [->|[->| ->]]; vm_compute in Hk;
    repeat (apply elem_of_cons in Hk as [->|Hk]; [split; [decides|vm_compute; congruence]|]); by apply elem_of_nil in Hk.
Qed.
Example C19_case :
  history ES7 True (kg ES7 e19c 1) (kt ES7 e19c 1) (ks ES7 e19c 1) /\
  (forall l k, k ∈ e_opp ES7 l -> l ∈ e_opp ES7 k) /\ (forall l k, k ∈ e_opp ES7 l -> nonvec ES7 l) /\
  no_early (kg ES7 e19c 1) (ks ES7 e19c 1) /\ answered ES7 (kg ES7 e19c 1) /\
  commit ES7 (kt ES7 e19c 1) (kg ES7 e19c 1) = Done (kc ES7 e19c 1) tt /\
  graph_get (kg ES7 e19c 1) 1%N = Some (nB 0 [2] 1)%N /\ graph_get (kc ES7 e19c 1) 1%N = Some (nB 0 [2; 3] 1)%N /\
  answered ES7 (kc ES7 e19c 1).
Proof.
  assert (history ES7 True (kg ES7 e19c 1) (kt ES7 e19c 1) (ks ES7 e19c 1)) as Hh by hist.
  split; [exact Hh|]. split; [intros l k Hk; by apply ES7_opp|]. split; [intros l k Hk; by apply (ES7_opp l k)|].
  split; [apply (no_earlyb_sound ES7); [by eapply hist_wf|computes]|].
  split; [eapply answeredb_sound; [by eapply history_graph|computes]|]. split; [computes|]. split; [computes|]. split; [computes|].
  assert (history ES7 True (kg ES7 (e19c ++ [OCommit 0 1; ONewTrans 2 0]) 2) (kt ES7 (e19c ++ [OCommit 0 1; ONewTrans 2 0]) 2) (ks ES7 (e19c ++ [OCommit 0 1; ONewTrans 2 0]) 2)) as Hh' by hist.
  assert (kg ES7 (e19c ++ [OCommit 0 1; ONewTrans 2 0]) 2 = kc ES7 e19c 1) as Heq by computes. rewrite Heq in Hh'.
  eapply answeredb_sound; [by eapply history_graph|computes].
Qed.

(** ** C25 *)
(** The annotation does not constrain the opposite side: [bidirectional!{A.next <-> B.users}]
    with [link_type!{B.users: B}].  The link 2 added to B1.users violates it. *)
Definition S8 : schema := Schema [("A", sA); ("B", sB)]%string [Bidi "A" "next" "B" "users"]%string [] [Anno "B" "users" ["B"]; Anno "A" "items" ["B"]]%string.
Definition ES8 : env := env_of cap S8 (fun _ l => l) true.
Definition e25 : list opn := [ONewCtx 7; ONewGraph 0 0; ONewTrans 0 0; OInsert 0 (nB 0 [] 1) 1; OInsert 0 (nA 1 [] [] 2) 2]%N.
Definition all_typed {D} (E : env) (g : graph D) : Prop :=
  forall x y nx ny l, graph_get g x = Some nx -> has_link nx l y -> graph_get g y = Some ny -> e_chk E (nvar ny) l = true.
Lemma S8_ok : accepted cap S8 /\ groups_apart S8 /\ (forall A sd, (A, sd) ∈ sc_vars S8 -> one_attribute sd) /\ bidi_spelled S8 /\ anns_spelled S8 /\ anns_single S8.
Proof.
  split; [apply acceptedb_sound; computes|]. split; [apply groups_apartb_sound; computes|].
  split; [apply one_attributeb_sound; computes|]. split; [apply bidi_spelledb_sound; computes|].
  split; [apply anns_spelledb_sound; computes|apply anns_singleb_sound; computes].
Qed.
Lemma empty_typed E T (g : graph nat) : graph_of E T g -> graph_iter g = [] -> all_typed E g.
Proof.
  intros Hg Hi x y nx ny l Hx. destruct (graph_iter_agree E T g Hg) as (Hit&_). apply Hit in Hx. rewrite Hi in Hx. by apply elem_of_nil in Hx.
Qed.
Theorem C25_added_opposite_refuted :
  exists (g g' : graph nat) t s, history ES8 True g t s /\ no_early g s /\ all_typed ES8 g /\ commit ES8 t g = Done g' tt /\ ~ all_typed ES8 g'.
Proof.
  assert (history ES8 True (kg ES8 e25 0) (kt ES8 e25 0) (ks ES8 e25 0)) as Hh by hist.
  exists (kg ES8 e25 0), (kc ES8 e25 0), (kt ES8 e25 0), (ks ES8 e25 0). split; [exact Hh|].
  split; [apply (no_earlyb_sound ES8); [by eapply hist_wf|computes]|].
  split; [eapply empty_typed; [by eapply history_graph|computes]|]. split; [computes|]. intros Ha.
  assert (e_chk ES8 0 (Link 1 1) = true) as H; [|vm_compute in H; done].
  apply (Ha 1 2 (nB 0 [2] 1) (nA 1 [] [] 2) (Link 1 1))%N; [computes|apply has_linkb_spec; computes|computes].
Qed.
Print Assumptions C25_added_opposite_refuted.

(** A Vec link: two mutates of A2 in one transaction, the first setting items = [3, 3], the
    second items = [3], where 3 is an A node and [A.items: B]. *)
Definition e25v : list opn :=
  [ONewCtx 7; ONewGraph 0 0; ONewTrans 0 0; OInsert 0 (nA 0 [] [] 1) 1; OInsert 0 (nA 0 [] [] 2) 2; OCommit 0 0;
   ONewTrans 1 0; OMutate 1 2 (relink 0 [] [1; 1]); OMutate 1 2 (relink 0 [] [1])]%N.
Theorem C25_vec_refuted :
  exists (g g' : graph nat) t s, history ES8 True g t s /\ no_early g s /\ all_typed ES8 g /\ commit ES8 t g = Done g' tt /\
    exists nx ny, graph_get g' 2%N = Some nx /\ has_link nx (Link 0 2) 1%N /\ graph_get g' 1%N = Some ny /\ e_chk ES8 (nvar ny) (Link 0 2) = false.
Proof.
  assert (history ES8 True (kg ES8 e25v 1) (kt ES8 e25v 1) (ks ES8 e25v 1)) as Hh by hist.
  exists (kg ES8 e25v 1), (kc ES8 e25v 1), (kt ES8 e25v 1), (ks ES8 e25v 1). split; [exact Hh|].
  split; [apply (no_earlyb_sound ES8); [by eapply hist_wf|computes]|]. split.
  { intros x y nx ny l Hx Hl. exfalso. revert Hx Hl. pose proof (history_graph _ _ _ _ _ Hh) as Hg.
    destruct (graph_iter_agree _ _ _ Hg) as (Hit&_). rewrite <- Hit. clear. intros Hx Hl.
    assert (nx = nA 0 [] [] 1 \/ nx = nA 0 [] [] 2)%N as Hn.
    { assert (graph_iter (kg ES8 e25v 1) = [(1, nA 0 [] [] 1); (2, nA 0 [] [] 2)]%N) as Heq by computes. rewrite Heq in Hx. set_solver. }
    destruct Hl as (Hy&_&lv&Hlv&Hin). destruct Hn as [->| ->]; destruct (l_fld l) as [|[|[|]]]; cbn in Hlv; simplify_eq; cbn in Hin; set_solver. }
  split; [computes|]. eexists. eexists. split; [computes|]. split; [apply has_linkb_spec; computes|]. split; computes.
Qed.
Print Assumptions C25_vec_refuted.

(** An update that turns the target into another variant. *)
Definition S9 : schema := Schema [("A", sA); ("B", sB)]%string [] [] [Anno "A" "next" ["B"]]%string.
Definition ES9 : env := env_of cap S9 (fun _ l => l) true.
Definition e25u : list opn :=
  [ONewCtx 7; ONewGraph 0 0; ONewTrans 0 0; OInsert 0 (nB 0 [] 1) 1; OInsert 0 (nA 1 [] [] 2) 2; OCommit 0 0; ONewTrans 1 0; OUpdate 1 1 to_A]%N.
Theorem C25_variant_change_refuted :
  exists (g g' : graph nat) t s, history ES9 False g t s /\ no_early g s /\ links_typed ES9 g /\ commit ES9 t g = Done g' tt /\ ~ all_typed ES9 g'.
Proof.
  assert (history ES9 False (kg ES9 e25u 1) (kt ES9 e25u 1) (ks ES9 e25u 1)) as Hh.
  { apply run_hist_pick; [|vm_compute; eexists; reflexivity]. repeat (constructor; [first [exact I|by apply to_A_ok]|]); constructor. }
  exists (kg ES9 e25u 1), (kc ES9 e25u 1), (kt ES9 e25u 1), (ks ES9 e25u 1). split; [exact Hh|].
  split; [apply (no_earlyb_sound ES9); [by eapply hist_wf|computes]|].
  split; [apply (links_typedb_sound ES9); [by eapply hist_wf|computes]|]. split; [computes|]. intros Ha.
  assert (e_chk ES9 0 (Link 0 0) = true) as H; [|vm_compute in H; done].
  apply (Ha 2 1 (nA 1 [] [] 2) (nA 0 [] [] 9) (Link 0 0))%N; [computes|apply has_linkb_spec; computes|computes].
Qed.
Print Assumptions C25_variant_change_refuted.

(** ** C30 *)
Definition always_err : graph_check nat :=
  GraphCheck [("n"%string, fun _ _ => false)] [("a"%string, fun _ _ _ _ => false)] [("r"%string, fun _ _ _ _ => false)].
(** Link-remove checks are not run on removed links: A2.next = 1 is cleared, and no remove
    check is asked. *)
Definition rem_err : graph_check nat := GraphCheck [] [] [("r"%string, fun _ _ _ _ => false)].
Definition e30 : list opn :=
  [ONewCtx 7; ONewGraph 0 0; ONewTrans 0 0; OInsert 0 (nB 0 [] 1) 1; OInsert 0 (nA 1 [] [] 2) 2; OCommit 0 0]%N.
Theorem C30_remove_checks_refuted :
  exists (g g' : graph nat) t s, history E0 True g t s /\ in_graph g 2%N 1%N (Link 0 0) /\
    commit_checked E0 t rem_err g = Done g' tt /\ ~ in_graph g' 2%N 1%N (Link 0 0).
Proof.
  set (os := e30 ++ [ONewTrans 1 0; OMutate 1 2 (relink 0 [] [])]%N).
  exists (kg E0 os 1), (kc E0 os 1), (kt E0 os 1), (ks E0 os 1). split; [hist|]. split.
  { eexists. split; [computes|]. apply has_linkb_spec. computes. }
  split; [computes|]. intros (n&Hn&Hl). assert (n = nA 0 [] [] 2)%N as -> by (assert (graph_get (kc E0 os 1) 2%N = Some (nA 0 [] [] 2)%N) as Heq by computes; congruence).
  apply has_linkb_spec in Hl. vm_compute in Hl. done.
Qed.
Print Assumptions C30_remove_checks_refuted.
(** They are run on added links instead: a commit that removes nothing fails. *)
Theorem C30_remove_checks_on_added_refuted :
  exists (g g' : graph nat) t s, history E0 True g t s /\ (forall x y l, ~ in_graph g x y l) /\ commit_checked E0 t rem_err g = Panicked PCheckFailed g'.
Proof.
  set (os := [ONewCtx 7; ONewGraph 0 0; ONewTrans 0 0; OInsert 0 (nB 0 [] 1) 1; OInsert 0 (nA 1 [] [] 2) 2]%N).
  exists (kg E0 os 0). eexists. exists (kt E0 os 0), (ks E0 os 0).
  assert (history E0 True (kg E0 os 0) (kt E0 os 0) (ks E0 os 0)) as Hh by hist. split; [exact Hh|]. split; [|computes].
  intros x y l (n&Hn&_). destruct (graph_iter_agree _ _ _ (history_graph _ _ _ _ _ Hh)) as (Hit&_). apply Hit in Hn.
  assert (graph_iter (kg E0 os 0) = []) as Heq by computes. rewrite Heq in Hn. by apply elem_of_nil in Hn.
Qed.
Print Assumptions C30_remove_checks_on_added_refuted.
(** Node checks are not run on nodes whose data change, nor on inserted nodes without links. *)
Theorem C30_data_change_refuted :
  exists (g g' : graph nat) t s n n', history E0 True g t s /\ commit_checked E0 t always_err g = Done g' tt /\
    graph_get g 2%N = Some n /\ graph_get g' 2%N = Some n' /\ ndata n' <> ndata n.
Proof.
  set (os := e30 ++ [ONewTrans 1 0; OMutate 1 2 bump_mut]%N).
  exists (kg E0 os 1), (kc E0 os 1), (kt E0 os 1), (ks E0 os 1). eexists. eexists. split; [hist|]. split; [computes|].
  split; [computes|]. split; [computes|vm_compute; congruence].
Qed.
Print Assumptions C30_data_change_refuted.
Theorem C30_insert_refuted :
  exists (g g' : graph nat) t s n, history E0 True g t s /\ commit_checked E0 t always_err g = Done g' tt /\
    graph_get g 1%N = None /\ graph_get g' 1%N = Some n.
Proof.
  set (os := [ONewCtx 7; ONewGraph 0 0; ONewTrans 0 0; OInsert 0 (nB 0 [] 1) 1]%N).
  exists (kg E0 os 0), (kc E0 os 0), (kt E0 os 0), (ks E0 os 0). eexists. split; [hist|]. split; [computes|]. split; computes.
Qed.
Print Assumptions C30_insert_refuted.
(** The check run itself panics when a node with a link is removed, whatever the check. *)
Theorem C30_removed_node_panics_refuted :
  exists (g : graph nat) t s, history E0 True g t s /\ (exists g', commit E0 t g = Done g' tt) /\
    forall chk, exists g', commit_checked E0 t (GraphCheck [("n"%string, chk)] [] []) g = Panicked PUnwrap g'.
Proof.
  set (os := e30 ++ [ONewTrans 1 0; ORemove 1 2]%N).
  exists (kg E0 os 1), (kt E0 os 1), (ks E0 os 1). split; [hist|]. split; [eexists; computes|]. intros chk. eexists. vm_compute. reflexivity.
Qed.
Print Assumptions C30_removed_node_panics_refuted.

(** What holds. *)
(** Every node whose links changed is checked; a link counts as changed if the specified
    nodes have it and the old graph did not, or the reverse (Vec links excepted). *)
Lemma checked_nodes {D} E T (g : graph D) t s c g' : history E T g t s -> commit_checked E t c g = Done g' tt ->
  exists m m', nodes_are g m /\ sp_commit (ts_txn s) m m' /\
    forall nm chk x y l, (nm, chk) ∈ gc_node c -> nonvec E l ->
      (in_nodes m' x y l /\ ~ in_graph g x y l) \/ (in_graph g x y l /\ ~ in_nodes m' x y l) ->
      exists nx, graph_get g' x = Some nx /\ chk x nx = true.
Proof.
  intros Hh Hc. destruct (history_ok E T g t s Hh) as (Hwf&Hty&Ht&_). unfold commit_checked, bindM, getM, retM, panicM in Hc.
  destruct (do_commit E t g) as [g1 r|p g1] eqn:Hd; [|done].
  destruct (check_link_type E r g1) as [g2 []|p g2] eqn:Hk; [|done].
  pose proof (check_link_type_spec E r g1) as Hs. rewrite Hk in Hs. destruct Hs as [-> _].
  destruct (check_change g1 r c) as [ls|] eqn:Hch; [|done]. destruct ls; [|done]. injection Hc as ->.
  destruct (change_record E T g t Hwf Hty Ht g' r Hd) as (m'&Hsp&_&Hrec). rewrite (history_txn E T g t s Hh) in Hsp.
  exists (gmap_of g), m'. split; [exact (history_nodes E T g t s Hh)|]. split; [done|]. intros nm chk x y l Hin Hv Hl.
  unfold check_change in Hch.
  destruct (failed_names _ (gc_node c)) as [f1|] eqn:Hf1; [|done].
  set (af := failed_names _ (gc_add c)) in Hch. destruct af as [f2|]; [|done].
  set (rf := failed_names _ (gc_rem c)) in Hch. destruct rf as [f3|]; [|done].
  injection Hch as Hch. apply app_eq_nil in Hch as [-> _].
  pose proof (failed_names_nil _ _ Hf1 _ _ Hin) as Haf. cbn beta in Haf.
  assert (y <> 0%N) as Hy by (by destruct Hl as [[(n&_&?&_) _]|[(n&_&?&_) _]]).
  apply (any_fails_all _ _) with (a := x) in Haf.
  - destruct (graph_get g' x) as [nx|]; [|done]. exists nx. split; [done|]. by injection Haf.
  - assert (exists y l, (x, y, l) ∈ lc_adds r ++ lc_rems r) as (y'&l'&Hin').
    { exists y, l. apply elem_of_app. destruct (Hrec x y l Hy Hv) as [Ha Hr]. destruct Hl; [left; by apply Ha|right; by apply Hr]. }
    revert Hin'. clear. intros Hin.
    assert (forall L acc, x ∈ acc \/ (x, y', l') ∈ L -> x ∈ fold_left (fun acc '(x, _, _) => oset_insert x acc) L acc) as H; [|apply H; by right].
    induction L as [|[[x0 y0] l0] L IH]; intros acc Hx; cbn.
    + destruct Hx as [?|?%elem_of_nil]; done.
    + apply IH. unfold oset_insert. destruct Hx as [Hx|[[= <- <- <-]|Hx]%elem_of_cons]; [left|left|by right]; case_decide; try done;
        rewrite ?elem_of_app, ?elem_of_list_singleton; tauto.
Qed.
Theorem C30_node_checks_partial :
  forall {D} (E : env) (T : Prop) (g : graph D) (t : trans D) (s : tspec D) c (g' : graph D),
  history E T g t s -> commit_checked E t c g = Done g' tt ->
  exists m m', nodes_are g m /\ sp_commit (ts_txn s) m m' /\
    forall nm chk x y l, (nm, chk) ∈ gc_node c -> nonvec E l ->
      (in_nodes m' x y l /\ ~ in_graph g x y l) \/ (in_graph g x y l /\ ~ in_nodes m' x y l) ->
      exists nx, graph_get g' x = Some nx /\ chk x nx = true.
Proof. intros D E T g t s c g' Hh Hc. exact (checked_nodes E T g t s c g' Hh Hc). Qed.
Print Assumptions C30_node_checks_partial.
(** A failed check reports itself: the commit as such went through, the graph holds its
    result, and some check answered false there: a node check for a node in the graph, or
    a link check for a node in the graph. *)
Lemma any_fails_ex {A} (f : A -> option bool) l : any_fails f l = Some true -> exists a, a ∈ l /\ f a = Some false.
Proof.
  induction l as [|a l IH]; cbn; [done|]. destruct (f a) as [[]|] eqn:Hf; [|intros _; exists a; split; [left|done]|done].
  intros H. destruct (IH H) as (b&?&?). exists b. split; [by right|done].
Qed.
Lemma failed_names_cons {A} (f : A -> option bool) (l : list (string * A)) ls nm :
  failed_names f l = Some ls -> nm ∈ ls -> exists a, (nm, a) ∈ l /\ f a = Some true.
Proof.
  revert ls. induction l as [|[n a] l IH]; cbn; intros ls Hf Hin; [injection Hf as <-; by apply elem_of_nil in Hin|].
  destruct (f a) as [b|] eqn:Hfa; [|done]. destruct (failed_names f l) as [r|]; [|done]. injection Hf as <-.
  assert ((b = true /\ nm = n) \/ nm ∈ r) as [[-> ->]|Hr] by (destruct b; [apply elem_of_cons in Hin as [->|?]|]; auto).
  - exists a. split; [left|done].
  - destruct (IH r eq_refl Hr) as (a'&?&?). exists a'. split; [by right|done].
Qed.
Lemma check_failed {D} E T (g : graph D) t s c g' : history E T g t s -> plain_closures s ->
  commit_checked E t c g = Panicked PCheckFailed g' ->
  commit E t g = Done g' tt /\
  ((exists nm chk x nx, (nm, chk) ∈ gc_node c /\ graph_get g' x = Some nx /\ chk x nx = false) \/
   (exists nm chk x y nx, ((nm, chk) ∈ gc_add c \/ (nm, chk) ∈ gc_rem c) /\ graph_get g' x = Some nx /\ chk x y nx (graph_get g' y) = false)).
Proof.
  intros Hh Hpl Hc. apply (final_plain E T g t s Hh) in Hpl as [Hm Hu]. unfold commit_checked, bindM, getM, retM, panicM in Hc. unfold commit, bindM.
  destruct (do_commit E t g) as [g1 r|p g1] eqn:Hd.
  2:{ injection Hc as -> ->. exfalso. eapply (do_commit_panic_kind E (fun p => p <> PCheckFailed)); [..|exact Hd|done]; try done.
      - by intros [].
      - intros i f n n' p Hin Hf ->. by destruct (Hm _ _ _ _ _ Hin Hf).
      - intros i f n p Hin Hf ->. by destruct (Hu _ _ _ _ Hin Hf). }
  pose proof (check_link_type_spec E r g1) as Hs.
  destruct (check_link_type E r g1) as [g2 []|p g2] eqn:Hk.
  2:{ injection Hc as -> ->. destruct Hs as (_&?&_). done. }
  destruct Hs as [-> _]. destruct (check_change g1 r c) as [[|nm ls]|] eqn:Hch; [done| |done]. injection Hc as ->.
  split; [done|]. unfold check_change in Hch.
  destruct (failed_names _ (gc_node c)) as [f1|] eqn:Hf1; [|done].
  destruct (failed_names _ (gc_add c)) as [f2|] eqn:Hf2; [|done].
  destruct (failed_names _ (gc_rem c)) as [f3|] eqn:Hf3; [|done]. injection Hch as Hch.
  assert (nm ∈ f1 ++ f2 ++ f3) as Hin by (rewrite Hch; left). rewrite !elem_of_app in Hin. destruct Hin as [Hin|Hin].
  - left. destruct (failed_names_cons _ _ _ _ Hf1 Hin) as (chk&Hin1&Haf). apply any_fails_ex in Haf as (x&_&Hx).
    destruct (graph_get g' x) as [nx|] eqn:Hgx; [|done]. exists nm, chk, x, nx. split; [done|]. split; [done|]. by injection Hx.
  - right. assert (exists chk, ((nm, chk) ∈ gc_add c \/ (nm, chk) ∈ gc_rem c) /\
      any_fails (fun '(x, y, _) => match graph_get g' x with Some n => Some (chk x y n (graph_get g' y)) | None => None end) (lc_adds r) = Some true) as (chk&Hin1&Haf).
    { destruct Hin as [Hin|Hin]; [destruct (failed_names_cons _ _ _ _ Hf2 Hin) as (chk&?&?)|destruct (failed_names_cons _ _ _ _ Hf3 Hin) as (chk&?&?)]; exists chk; auto. }
    apply any_fails_ex in Haf as ([[x y] l]&_&Hx). destruct (graph_get g' x) as [nx|] eqn:Hgx; [|done].
    exists nm, chk, x, y, nx. split; [done|]. split; [done|]. by injection Hx.
Qed.
Theorem C30_failure_means_check_partial :
  forall {D} (E : env) (T : Prop) (g : graph D) (t : trans D) (s : tspec D) c (g' : graph D),
  history E T g t s -> plain_closures s -> commit_checked E t c g = Panicked PCheckFailed g' ->
  commit E t g = Done g' tt /\
  ((exists nm chk x nx, (nm, chk) ∈ gc_node c /\ graph_get g' x = Some nx /\ chk x nx = false) \/
   (exists nm chk x y nx, ((nm, chk) ∈ gc_add c \/ (nm, chk) ∈ gc_rem c) /\ graph_get g' x = Some nx /\ chk x y nx (graph_get g' y) = false)).
Proof. intros D E T g t s c g' H1 H2 H3. exact (check_failed E T g t s c g' H1 H2 H3). Qed.
Print Assumptions C30_failure_means_check_partial.
(** A2.next is moved from B1 to B3.  A node check that limits the data of changed nodes
    passes with the limit 5 and fails with the limit 1. *)
Definition chk_limit (z : nat) : graph_check nat := GraphCheck [("limit"%string, fun _ n => forallb (fun p => (p.2 <=? z)%nat) (ndata n))] [] [].
Definition e30c : list opn := e30 ++ [ONewTrans 1 0; OInsert 1 (nB 0 [] 3) 3; OMutate 1 2 (relink 3 [] [])]%N.
Example C30_case :
  history E0 True (kg E0 e30c 1) (kt E0 e30c 1) (ks E0 e30c 1) /\ plain_closures (ks E0 e30c 1) /\
  in_graph (kg E0 e30c 1) 2%N 1%N (Link 0 0) /\ in_graph (kc E0 e30c 1) 2%N 3%N (Link 0 0) /\
  commit_checked E0 (kt E0 e30c 1) (chk_limit 5) (kg E0 e30c 1) = Done (kc E0 e30c 1) tt /\
  commit_checked E0 (kt E0 e30c 1) (chk_limit 1) (kg E0 e30c 1) = Panicked PCheckFailed (kc E0 e30c 1).
Proof.
  split; [hist|]. split.
  { split.
    - assert (ts_mut (ks E0 e30c 1) = [(2, relink 3 [] [])]%N) as -> by computes. intros i f n n' p Hin Hf.
      apply elem_of_list_singleton in Hin as [= -> ->]. unfold relink in Hf. case_decide; [done|]. injection Hf as <- _. exact (fun H => H).
    - assert (ts_upd (ks E0 e30c 1) = []) as -> by computes. intros i f n p Hin. by apply elem_of_nil in Hin. }
  split; [eexists; split; [computes|apply has_linkb_spec; computes]|].
  split; [eexists; split; [computes|apply has_linkb_spec; computes]|]. split; computes.
Qed.
