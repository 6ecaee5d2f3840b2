(** * Commits with bidirectional links: C10, C41, C52, C53, C54 *)
From Verif Require Import Exact ExHist Decide DecideValid PropsGraph PropsBidi PropsFindings.

Lemma E1_fields : bidi_fields E1.
Proof.
  intros l k [[-> ->]|[-> ->]]%opp1_inv; (split; [vm_compute; done|]); [right; eexists; computes|left; computes].
Qed.
Lemma E1_checks : forall v l, e_chk E1 v l = false -> nonvec E1 l.
Proof. intros v l. cbn. unfold chk1. case_decide; [|case_decide]; subst; [vm_compute; done..|done]. Qed.
Lemma E1_one : forall l v, length (opposites_on E1 l v) <= 1.
Proof.
  intros l v. unfold opposites_on. etrans; [apply filter_length|]. cbn. unfold opp1. repeat case_decide; cbn; lia.
Qed.
Lemma E1_nonvec : forall l k, k ∈ e_opp E1 l -> nonvec E1 l.
Proof. intros l k Hk. by eapply E1_fields. Qed.

(** ** C53 *)
(** After a commit the links are exactly these: what the transaction specifies ([m']),
    minus the opposites of links it dropped, plus the opposites of links it added ([mirrored]
    spells this out); everything that is not declared bidirectional is as specified. *)
Theorem C53_links_exact :
  forall {D} (E : env) (T : Prop) (g : graph D) (t : trans D) (s : tspec D) (g' : graph D),
  history E T g t s -> (forall l k, k ∈ e_opp E l -> nonvec E l) -> commit E t g = Done g' tt ->
  exists m m', nodes_are g m /\ sp_commit (ts_txn s) m m' /\ holds_nonbidi E g' m' /\
    forall a b k, in_graph g' a b k <->
      (in_nodes m' a b k /\
       ~ exists l, (in_graph g b a l /\ ~ in_nodes m' b a l) /\ k ∈ e_opp E l /\ is_Some (m' !! b)) \/
      (exists l na, (in_nodes m' b a l /\ ~ in_graph g b a l) /\ m' !! a = Some na /\ opposites_on E l (nvar na) = [k]).
Proof. intros. by eapply final_links_exact. Qed.
Print Assumptions C53_links_exact.
(** The commit drops 3 -> 1 and so 1 -> 3, adds 3 -> 2 and 5 -> 2 and so 2 -> 3 and 2 -> 5,
    and adds 7 -> 6 and so 6 -> 7. *)
Example C53_case :
  history E1 True (hg E1 bops) (ht E1 bops) (hs E1 bops) /\ (forall l k, k ∈ e_opp E1 l -> nonvec E1 l) /\
  commit E1 (ht E1 bops) (hg E1 bops) = Done (hc E1 bops) tt /\
  graph_get (hg E1 bops) 1%N = Some (nB 0 [3; 4] 1)%N /\ graph_get (hc E1 bops) 1%N = Some (nB 0 [4] 101)%N /\
  graph_get (hc E1 bops) 2%N = Some (nB 0 [5; 3] 2)%N /\ graph_get (hc E1 bops) 6%N = Some (nA 7 [] [] 6)%N.
Proof.
  split; [apply bops_hist|]. split; [apply E1_nonvec|]. split; [apply bops_commit|]. split_and!; computes.
Qed.

(** ** C41 with bidirectional links and link types *)
(** A valid transaction without reserved indices (in release builds: any valid transaction)
    succeeds unless a link it adds leads to a
    conflict or violates a link type. *)
Theorem C41_bidirectional_succeed :
  forall {D} (E : env) (T : Prop) (g : graph D) (t : trans D) (s : tspec D) m,
  history E T g t s -> bidi_fields E -> (forall v l, e_chk E v l = false -> nonvec E l) ->
  nodes_are g m -> e_dbg E = false \/ ts_res s = ∅ -> sp_valid (ts_txn s) m ->
  (forall m', sp_commit (ts_txn s) m m' -> no_conflict E g m' /\ added_typed E g m') ->
  exists g', commit E t g = Done g' tt.
Proof. intros. by eapply final_succeeds_bidi. Qed.
Print Assumptions C41_bidirectional_succeed.
(** If no variant has two opposites of one link, this is exact. *)
Theorem C41_success_exact :
  forall {D} (E : env) (T : Prop) (g : graph D) (t : trans D) (s : tspec D) m,
  history E T g t s -> bidi_fields E -> (forall v l, e_chk E v l = false -> nonvec E l) ->
  (forall l v, length (opposites_on E l v) <= 1) ->
  nodes_are g m -> e_dbg E = false \/ ts_res s = ∅ -> sp_valid (ts_txn s) m ->
  (exists g', commit E t g = Done g' tt) <->
  (forall m', sp_commit (ts_txn s) m m' -> no_conflict E g m' /\ added_typed E g m').
Proof. intros. by eapply final_success_exact. Qed.
Print Assumptions C41_success_exact.
Lemma bops_valid : sp_valid (ts_txn (hs E1 bops)) (gmap_of (hg E1 bops)).
Proof. apply (sp_validb_sound _ _ [] []); computes. Qed.
Lemma bconf_valid : sp_valid (ts_txn (hs E1 bconf)) (gmap_of (hg E1 bconf)).
Proof. apply (sp_validb_sound _ _ [] []); computes. Qed.
Lemma bops_res : ts_res (hs E1 bops) = ∅.
Proof. apply (proj1 (map_to_list_empty_iff _)); computes. Qed.
(** [bops] succeeds, so it has no conflict; [bconf] is valid too, and is refused. *)
Example C41_case2 :
  bidi_fields E1 /\ (forall v l, e_chk E1 v l = false -> nonvec E1 l) /\ (forall l v, length (opposites_on E1 l v) <= 1) /\
  (history E1 True (hg E1 bops) (ht E1 bops) (hs E1 bops) /\ nodes_are (hg E1 bops) (gmap_of (hg E1 bops)) /\
   ts_res (hs E1 bops) = ∅ /\ sp_valid (ts_txn (hs E1 bops)) (gmap_of (hg E1 bops)) /\
   (forall m', sp_commit (ts_txn (hs E1 bops)) (gmap_of (hg E1 bops)) m' ->
      no_conflict E1 (hg E1 bops) m' /\ added_typed E1 (hg E1 bops) m')) /\
  (history E1 True (hg E1 bconf) (ht E1 bconf) (hs E1 bconf) /\ nodes_are (hg E1 bconf) (gmap_of (hg E1 bconf)) /\
   ts_res (hs E1 bconf) = ∅ /\ sp_valid (ts_txn (hs E1 bconf)) (gmap_of (hg E1 bconf)) /\
   ~ exists g', commit E1 (ht E1 bconf) (hg E1 bconf) = Done g' tt).
Proof.
  split; [apply E1_fields|]. split; [apply E1_checks|]. split; [apply E1_one|].
  pose proof (history_nodes _ _ _ _ _ (bops_hist True)) as Hn. split.
  - split; [apply bops_hist|]. split; [exact Hn|]. split; [apply bops_res|]. split; [apply bops_valid|].
    apply (proj1 (C41_success_exact E1 True _ _ _ _ (bops_hist True) E1_fields E1_checks E1_one Hn (or_intror bops_res) bops_valid)).
    exists (hc E1 bops). apply bops_commit.
  - split; [apply bconf_hist|]. split; [exact (history_nodes _ _ _ _ _ (bconf_hist True))|].
    split; [apply (proj1 (map_to_list_empty_iff _)); computes|]. split; [apply bconf_valid|].
    intros (g'&Hg'). revert Hg'. vm_compute. discriminate.
Qed.

(** ** C54 *)
(** The result of a commit does not depend on the iteration order of HashSets or on the
    build profile (the two may differ between [E1] and [E2]), nor on anything but the visible
    nodes. *)
Theorem C54_result_determined :
  forall {D} (E1 E2 : env) (T1 T2 : Prop) (g1 g2 : graph D) t1 t2 s1 s2 g1' g2',
  (forall l, e_opp E1 l = e_opp E2 l) -> (forall l k, k ∈ e_opp E1 l -> nonvec E1 l /\ nonvec E2 l) ->
  history E1 T1 g1 t1 s1 -> history E2 T2 g2 t2 s2 -> ts_txn s1 = ts_txn s2 ->
  (forall i, graph_get g1 i = graph_get g2 i) -> commit E1 t1 g1 = Done g1' tt -> commit E2 t2 g2 = Done g2' tt ->
  forall i, option_Forall2 (same_node E1) (graph_get g1' i) (graph_get g2' i).
Proof. intros. by eapply final_deterministic. Qed.
Print Assumptions C54_result_determined.
(** Neither does the success of a valid transaction. *)
Theorem C54_success_determined :
  forall {D} (E1 E2 : env) (T1 T2 : Prop) (g1 g2 : graph D) t1 t2 s1 s2 m,
  same_schema E1 E2 -> bidi_fields E1 -> (forall v l, e_chk E1 v l = false -> nonvec E1 l) ->
  (forall l v, length (opposites_on E1 l v) <= 1) ->
  history E1 T1 g1 t1 s1 -> history E2 T2 g2 t2 s2 -> ts_txn s1 = ts_txn s2 ->
  e_dbg E1 = false \/ ts_res s1 = ∅ -> e_dbg E2 = false \/ ts_res s2 = ∅ ->
  nodes_are g1 m -> nodes_are g2 m -> sp_valid (ts_txn s1) m ->
  (exists g1', commit E1 t1 g1 = Done g1' tt) <-> (exists g2', commit E2 t2 g2 = Done g2' tt).
Proof. intros D E1 E2 T1 T2 g1 g2 t1 t2 s1 s2 m. exact (final_same_success E1 E2 T1 T2 g1 g2 t1 t2 s1 s2 m). Qed.
Print Assumptions C54_success_determined.
(** [E1s] iterates HashSets backwards and is a release build. *)
Definition E1s : env := Env ex_kinds opp1 chk1 (fun _ l => rev l) false.
Lemma bops_hist_s T : history E1s T (hg E1s bops) (ht E1s bops) (hs E1s bops).
Proof. apply run_hist_pick; [sides|]. vm_compute. eexists. reflexivity. Qed.
Lemma bops_gmap_s : gmap_of (hg E1 bops) = gmap_of (hg E1s bops).
Proof. computes. Qed.
Example C54_case :
  same_schema E1 E1s /\ history E1 True (hg E1 bops) (ht E1 bops) (hs E1 bops) /\
  history E1s True (hg E1s bops) (ht E1s bops) (hs E1s bops) /\ ts_txn (hs E1 bops) = ts_txn (hs E1s bops) /\
  (forall i, graph_get (hg E1 bops) i = graph_get (hg E1s bops) i) /\
  commit E1 (ht E1 bops) (hg E1 bops) = Done (hc E1 bops) tt /\ commit E1s (ht E1s bops) (hg E1s bops) = Done (hc E1s bops) tt /\
  sp_valid (ts_txn (hs E1 bops)) (gmap_of (hg E1 bops)) /\
  (graph_get (hc E1 bops) 2%N, graph_get (hc E1s bops) 2%N) = (Some (nB 0 [5; 3] 2), Some (nB 0 [5; 3] 2))%N.
Proof.
  split; [done|]. split; [apply bops_hist|]. split; [apply bops_hist_s|]. split; [computes|].
  split; [eapply same_nodes; [apply (bops_hist True)|apply (bops_hist_s True)|apply bops_gmap_s]|].
  split; [apply bops_commit|]. split; [computes|]. split; [apply bops_valid|computes].
Qed.

(** ** C52 *)
(** What a valid transaction does depends only on the visible nodes, also with
    bidirectional links: it succeeds on both graphs or on neither, and with the same
    result. *)
Theorem C52_valid_partial :
  forall {D} (E : env) (T : Prop) (g1 g2 : graph D) t1 t2 s1 s2 m,
  bidi_fields E -> (forall v l, e_chk E v l = false -> nonvec E l) -> (forall l v, length (opposites_on E l v) <= 1) ->
  history E T g1 t1 s1 -> history E T g2 t2 s2 -> ts_txn s1 = ts_txn s2 -> e_dbg E = false \/ ts_res s1 = ∅ -> e_dbg E = false \/ ts_res s2 = ∅ ->
  nodes_are g1 m -> nodes_are g2 m -> sp_valid (ts_txn s1) m ->
  (exists g1' g2', commit E t1 g1 = Done g1' tt /\ commit E t2 g2 = Done g2' tt /\
     forall i, option_Forall2 (same_node E) (graph_get g1' i) (graph_get g2' i)) \/
  ((forall g1', commit E t1 g1 <> Done g1' tt) /\ (forall g2', commit E t2 g2 <> Done g2' tt)).
Proof.
  intros D E T g1 g2 t1 t2 s1 s2 m Hbf Hck Hone H1 H2 Htx Hr1 Hr2 Hm1 Hm2 Hv.
  pose proof (final_same_success E E T T g1 g2 t1 t2 s1 s2 m ltac:(done) Hbf Hck Hone H1 H2 Htx Hr1 Hr2 Hm1 Hm2 Hv) as Hiff.
  destruct (commit E t1 g1) as [g1' []|p1 g1'] eqn:Hc1, (commit E t2 g2) as [g2' []|p2 g2'] eqn:Hc2.
  - left. exists g1', g2'. split; [done|]. split; [done|].
    eapply (final_deterministic E E T T g1 g2 t1 t2 s1 s2); try done; [|by intros i; rewrite <- Hm1, <- Hm2].
    intros l k Hk. split; by eapply Hbf.
  - destruct (proj1 Hiff) as [? ?]; [by eexists|done].
  - destruct (proj2 Hiff) as [? ?]; [by eexists|done].
  - right. done.
Qed.
Print Assumptions C52_valid_partial.
(** In the first history a node linking to 9, where no node ever was, has come and gone. *)
Definition b52 (n8 : node nat) : list opn := bsetup ++
  [ONewTrans 1 0; OInsert 1 n8 5; OCommit 0 1; ONewTrans 2 0; ORemove 2 5; OCommit 0 2;
   ONewTrans 3 0; OInsert 3 (nA 2 [] [] 6) 6; OMutate 3 3 (relink 2 [4] [])]%N.
Definition b52a := b52 (nA 0 [9] [] 8)%N. Definition b52b := b52 (nA 0 [] [] 8)%N.
Lemma b52a_hist : history E1 True (kg E1 b52a 3) (kt E1 b52a 3) (ks E1 b52a 3). Proof. hist. Qed.
Lemma b52b_hist : history E1 True (kg E1 b52b 3) (kt E1 b52b 3) (ks E1 b52b 3). Proof. hist. Qed.
Lemma b52_gmap : gmap_of (kg E1 b52a 3) = gmap_of (kg E1 b52b 3). Proof. computes. Qed.
Example C52_case2 :
  history E1 True (kg E1 b52a 3) (kt E1 b52a 3) (ks E1 b52a 3) /\ history E1 True (kg E1 b52b 3) (kt E1 b52b 3) (ks E1 b52b 3) /\
  ts_txn (ks E1 b52a 3) = ts_txn (ks E1 b52b 3) /\ ts_res (ks E1 b52a 3) = ∅ /\ ts_res (ks E1 b52b 3) = ∅ /\
  nodes_are (kg E1 b52a 3) (gmap_of (kg E1 b52a 3)) /\ nodes_are (kg E1 b52b 3) (gmap_of (kg E1 b52a 3)) /\
  sp_valid (ts_txn (ks E1 b52a 3)) (gmap_of (kg E1 b52a 3)) /\
  kg E1 b52a 3 <> kg E1 b52b 3 /\
  commit E1 (kt E1 b52a 3) (kg E1 b52a 3) = Done (kc E1 b52a 3) tt.
Proof.
  split; [exact b52a_hist|]. split; [exact b52b_hist|]. split; [computes|].
  split; [apply (proj1 (map_to_list_empty_iff _)); computes|]. split; [apply (proj1 (map_to_list_empty_iff _)); computes|].
  split; [exact (history_nodes _ _ _ _ _ b52a_hist)|].
  split; [rewrite b52_gmap; exact (history_nodes _ _ _ _ _ b52b_hist)|].
  split; [apply (sp_validb_sound _ _ [] []); computes|]. split; [vm_compute; discriminate|computes].
Qed.

(** ** C10 *)
(** A loop among the redirect_all_links calls makes the commit panic with the loop message
    if what comes before them is valid. *)
Theorem C10_loop_all_panics :
  forall {D} (E : env) (T : Prop) (g : graph D) (t : trans D) (s : tspec D) m,
  history E T g t s -> e_dbg E = false \/ ts_res s = ∅ ->
  nodes_are g m -> sp_valid (before_redirect_all (ts_txn s)) m ->
  NoDup (ts_redir_all s).*1 -> redir_loop (ts_redir_all s) ->
  exists g', commit E t g = Panicked PLoop g'.
Proof. intros. eapply final_loop_all_panics; [done..|]. by apply loop_bad. Qed.
Print Assumptions C10_loop_all_panics.
Example C10_case2 :
  history E0 True (loop_g loop2) (loop_t loop2) (loop_s loop2) /\ ts_res (loop_s loop2) = ∅ /\
  nodes_are (loop_g loop2) (gmap_of (loop_g loop2)) /\
  sp_valid (before_redirect_all (ts_txn (loop_s loop2))) (gmap_of (loop_g loop2)) /\
  NoDup (ts_redir_all (loop_s loop2)).*1 /\ redir_loop (ts_redir_all (loop_s loop2)).
Proof.
  assert (history E0 True (loop_g loop2) (loop_t loop2) (loop_s loop2)) as Hh by hist.
  split; [exact Hh|]. split; [computes|]. split; [exact (history_nodes _ _ _ _ _ Hh)|].
  split; [apply (sp_validb_sound _ _ [] []); computes|]. split; [decides|].
  exists 1%N. eapply tc_l; [|eapply tc_l; [|apply tc_once]]; cbn beta; apply elem_of_list_In; vm_compute; [left|right; left|right; right; left]; reflexivity.
Qed.
