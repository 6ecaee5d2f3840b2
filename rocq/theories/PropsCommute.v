(** * Property theorems: two transactions in either order (C62) *)
From Verif Require Import Commute ExHist Decide DecideValid PropsGraph PropsBidi PropsFindings.

(** C62.  Two open transactions of one context are committed to the same graph, once in
    each order.  If neither works on a node the other works on, neither replaces links
    to an index the other replaces or introduces, and the nodes one works on link to
    nothing the other removes or redirects, neither before nor after, then both orders
    give the same nodes, up to the order of sets. *)
Theorem C62_commits_commute :
  forall {D} (E : env) (T : Prop) (g : graph D) t1 t2 s1 s2 g1 g12 g2 g21,
  open_pair E T g t1 t2 s1 s2 -> (forall l, e_opp E l = []) ->
  apart (ts_txn s1) (ts_txn s2) ->
  (forall i n x, edits (ts_txn s2) i -> graph_get g i = Some n \/ graph_get g2 i = Some n -> x ∈ moved (ts_txn s1) -> ~ links_to n x) ->
  (forall i n x, edits (ts_txn s1) i -> graph_get g i = Some n \/ graph_get g1 i = Some n -> x ∈ moved (ts_txn s2) -> ~ links_to n x) ->
  commit E t1 g = Done g1 tt -> commit E t2 g1 = Done g12 tt -> commit E t2 g = Done g2 tt -> commit E t1 g2 = Done g21 tt ->
  forall i, option_Forall2 node_same (graph_get g12 i) (graph_get g21 i).
Proof. intros D E T g t1 t2 s1 s2 g1 g12 g2 g21 H1 H2 H3 H4 H5 H6 H7 H8 H9. by eapply final_commute. Qed.
Print Assumptions C62_commits_commute.

(** C62, second part: if both are valid on the graph and independent of each other, all
    four commits succeed. *)
Theorem C62_independent_succeed :
  forall {D} (E : env) (T : Prop) (g : graph D) t1 t2 s1 s2 m,
  open_pair E T g t1 t2 s1 s2 -> (forall l, e_opp E l = []) -> (forall v l, e_chk E v l = true) ->
  e_dbg E = false \/ ts_res s1 = ∅ -> e_dbg E = false \/ ts_res s2 = ∅ ->
  nodes_are g m ->
  sp_valid (ts_txn s1) m -> sp_valid (ts_txn s2) m -> independent (ts_txn s1) (ts_txn s2) m ->
  exists g1 g12 g2 g21,
    commit E t1 g = Done g1 tt /\ commit E t2 g1 = Done g12 tt /\ commit E t2 g = Done g2 tt /\ commit E t1 g2 = Done g21 tt /\
    forall i, option_Forall2 node_same (graph_get g12 i) (graph_get g21 i).
Proof. intros. by eapply final_independent. Qed.
Print Assumptions C62_independent_succeed.

(** executable pairs *)
Definition run_pair (E : env) (os : list opn) : option (graph nat * trans nat * trans nat * tspec nat * tspec nat) :=
  match run_hist E os 0 1, run_hist E os 0 2 with Some (g, t1, s1), Some (_, t2, s2) => Some (g, t1, t2, s1, s2) | _, _ => None end.
Lemma run_pair_open E T os g t1 t2 s1 s2 : Forall (op_side E T) os -> run_pair E os = Some (g, t1, t2, s1, s2) -> open_pair E T g t1 t2 s1 s2.
Proof.
  intros Hs. unfold run_pair, run_hist, ex_graph, ex_trans, gate.
  destruct (lrun E world_new (fun _ => []) os) as [[w lg]|] eqn:Hr; [|done].
  destruct (w_graphs w !! 0) as [[c g0]|] eqn:Hg; [|done].
  destruct (w_trans w !! 1) as [[c1 t1']|] eqn:Ht1; [|done].
  destruct (ts_run ts_empty (lg 1)) as [s1'|] eqn:Hrun1; [|done]. destruct (Nat.eqb_spec c1 c) as [->|]; [|done].
  destruct (w_trans w !! 2) as [[c2 t2']|] eqn:Ht2; [|done].
  destruct (ts_run ts_empty (lg 2)) as [s2'|] eqn:Hrun2; [|done]. destruct (Nat.eqb_spec c2 c) as [->|]; [|done]. intros [= <- <- <- <- <-].
  exists w, lg, 0, 1, 2, c. split; [eapply lrun_lreach; [constructor|done..]|]. done.
Qed.

(** transaction 1 inserts 5, redirects the links of 1 to 4 and removes 1; transaction 2
    inserts 6, changes 4 and redirects all links of 2 to 3 *)
Definition e62 : list opn :=
  setup ++ [ONewTrans 1 0; ONewTrans 2 0; OInsert 1 (nA 4 [] [] 5) 5; OMutate 2 4 bump_mut; ORedirect 1 1 4; OInsert 2 (nB 0 [4] 6) 6;
            ORemove 1 1; ORedirectAll 2 2 3]%N.
Lemma e62_pair : open_pair E0 True (kg E0 e62 1) (kt E0 e62 1) (kt E0 e62 2) (ks E0 e62 1) (ks E0 e62 2).
Proof. apply (run_pair_open E0 True e62); [unfold e62, setup; sides|computes]. Qed.
Definition linksb (n : node nat) (x : idx) : bool := existsb (fun '(_, y) => (y =? x)%N) (node_links n).
Lemma linksb_sound n x : linksb n x = false -> ~ links_to n x.
Proof.
  intros Hb [l Hl]. apply elem_node_links in Hl. enough (linksb n x = true) by congruence. apply existsb_exists.
  exists (l, x). split; [by apply elem_of_list_In|apply N.eqb_refl].
Qed.
Lemma bump_links n x : links_to (bump n) x -> links_to n x.
Proof. intros [l Hl]. by exists l. Qed.
Lemma e62_edits1 i : edits (ts_txn (ks E0 e62 1)) i -> i = 5%N.
Proof.
  intros [H|[H|H]]; [|vm_compute in H; exfalso; exact (not_elem_of_nil _ H)..]. destruct (decide (i = 5%N)) as [Hi|Hne]; [exact Hi|].
  assert (ts_new (ks E0 e62 1) = {[5%N := nA 4 [] [] 5]}) as Heq by computes. change (is_Some (ts_new (ks E0 e62 1) !! i)) in H. rewrite Heq, lookup_singleton_ne in H by (clear -Hne; congruence). destruct H as [? H]. discriminate H.
Qed.
Lemma e62_edits2 i : edits (ts_txn (ks E0 e62 2)) i -> i = 4%N \/ i = 6%N.
Proof.
  intros [H|[H|H]].
  - destruct (decide (i = 6%N)) as [Hi|Hne]; [right; exact Hi|].
    assert (ts_new (ks E0 e62 2) = {[6%N := nB 0 [4%N] 6]}) as Heq by computes. change (is_Some (ts_new (ks E0 e62 2) !! i)) in H. rewrite Heq, lookup_singleton_ne in H by (clear -Hne; congruence). destruct H as [? H]. discriminate H.
  - assert ((x_mut (ts_txn (ks E0 e62 2))).*1 = [4%N]) as Heq by computes. rewrite Heq in H. left. apply elem_of_list_singleton in H. exact H.
  - vm_compute in H. exfalso. exact (not_elem_of_nil _ H).
Qed.
Lemma e62_moved : moved (ts_txn (ks E0 e62 1)) = [1; 1]%N /\ moved (ts_txn (ks E0 e62 2)) = [2]%N.
Proof. split; computes. Qed.
Lemma e62_targets : targets (ts_txn (ks E0 e62 1)) = [4]%N /\ targets (ts_txn (ks E0 e62 2)) = [3]%N.
Proof. split; computes. Qed.
Lemma in11 x : x ∈ [1; 1]%N -> x = 1%N.
Proof. set_solver. Qed.
Lemma e62_independent : independent (ts_txn (ks E0 e62 1)) (ts_txn (ks E0 e62 2)) (gmap_of (kg E0 e62 1)).
Proof.
  destruct e62_moved as [Hm1 Hm2], e62_targets as [Ht1 Ht2].
  assert (x_del (ts_txn (ks E0 e62 1)) = [1]%N) as Hd1 by computes. assert (x_del (ts_txn (ks E0 e62 2)) = []) as Hd2 by computes.
  assert (ts_new (ks E0 e62 1) = {[5%N := nA 4 [] [] 5]}) as Hn1 by computes.
  assert (ts_new (ks E0 e62 2) = {[6%N := nB 0 [4%N] 6]}) as Hn2 by computes.
  split; [|split; [|split; [|split; [|split]]]].
  - intros i ->%e62_edits1 [H|H]%e62_edits2; discriminate H.
  - rewrite Hm1, Hm2. intros x ->%in11 H%elem_of_list_singleton. discriminate H.
  - rewrite Hd1. intros i ->%elem_of_list_singleton [H|H]%e62_edits2; discriminate H.
  - rewrite Hd2. intros i H. destruct (not_elem_of_nil _ H).
  - rewrite Hm1. split.
    + intros i n x Hn Hx. change (ts_new (ks E0 e62 2) !! i = Some n) in Hn. rewrite Hn2 in Hn. apply lookup_singleton_Some in Hn as [_ <-].
      apply in11 in Hx as ->. apply linksb_sound. computes.
    + intros i f n n' x Hf Hn' _. assert (x_mut (ts_txn (ks E0 e62 2)) = [(4%N, bump_mut)]) as Heq by computes. rewrite Heq in Hf.
      apply elem_of_list_singleton in Hf as [= -> ->]. injection Hn' as <-. apply bump_links.
    + intros i f n n' x Hf. vm_compute in Hf. exfalso. exact (not_elem_of_nil _ Hf).
    + intros i n x Hi Hn Hx. apply in11 in Hx as ->. apply e62_edits2 in Hi as [->| ->]; vm_compute in Hn; [|discriminate Hn].
      injection Hn as <-. apply linksb_sound. computes.
    + rewrite Ht2. intros x ->%in11 H%elem_of_list_singleton. discriminate H.
  - rewrite Hm2. split.
    + intros i n x Hn Hx. change (ts_new (ks E0 e62 1) !! i = Some n) in Hn. rewrite Hn1 in Hn. apply lookup_singleton_Some in Hn as [_ <-].
      apply elem_of_list_singleton in Hx as ->. apply linksb_sound. computes.
    + intros i f n n' x Hf. vm_compute in Hf. exfalso. exact (not_elem_of_nil _ Hf).
    + intros i f n n' x Hf. vm_compute in Hf. exfalso. exact (not_elem_of_nil _ Hf).
    + intros i n x ->%e62_edits1 Hn. vm_compute in Hn. discriminate Hn.
    + rewrite Ht1. intros x ->%elem_of_list_singleton H%elem_of_list_singleton. discriminate H.
Qed.
Definition e62_12 := done_g (commit E0 (kt E0 e62 2) (done_g (commit E0 (kt E0 e62 1) (kg E0 e62 1)))).
Definition e62_21 := done_g (commit E0 (kt E0 e62 1) (done_g (commit E0 (kt E0 e62 2) (kg E0 e62 1)))).
Example C62_case :
  open_pair E0 True (kg E0 e62 1) (kt E0 e62 1) (kt E0 e62 2) (ks E0 e62 1) (ks E0 e62 2) /\
  (forall l, e_opp E0 l = []) /\ (forall v l, e_chk E0 v l = true) /\ ts_res (ks E0 e62 1) = ∅ /\ ts_res (ks E0 e62 2) = ∅ /\
  nodes_are (kg E0 e62 1) (gmap_of (kg E0 e62 1)) /\
  sp_valid (ts_txn (ks E0 e62 1)) (gmap_of (kg E0 e62 1)) /\ sp_valid (ts_txn (ks E0 e62 2)) (gmap_of (kg E0 e62 1)) /\
  independent (ts_txn (ks E0 e62 1)) (ts_txn (ks E0 e62 2)) (gmap_of (kg E0 e62 1)) /\
  apart (ts_txn (ks E0 e62 1)) (ts_txn (ks E0 e62 2)) /\
  graph_get (kg E0 e62 1) 3%N = Some (nA 2 [1; 2] [2] 3)%N /\ graph_get e62_12 3%N = Some (nA 3 [3; 4] [3] 3)%N /\ graph_get e62_21 3%N = Some (nA 3 [3; 4] [3] 3)%N.
Proof.
  pose proof e62_pair as Hp. split; [exact Hp|]. split; [reflexivity|]. split; [reflexivity|]. split; [decides|]. split; [decides|].
  split; [exact (history_nodes _ _ _ _ _ (open_pair_history _ _ _ _ _ _ _ Hp))|].
  split; [apply (sp_validb_sound _ _ [(1, 4)]%N []); computes|]. split; [apply (sp_validb_sound _ _ [] [(2, 3)]%N); computes|].
  pose proof e62_independent as Hi. split; [exact Hi|]. split; [|split; [computes|split; computes]].
  destruct Hi as (I1&I2&_&_&I5&I6). split; [exact I1|]. split; [|exact (av_tgt _ _ _ I6)]. intros x Hx. split; [exact (I2 x Hx)|exact (av_tgt _ _ _ I5 x Hx)].
Qed.

(** The condition on links is needed: transaction 1 inserts a node linking to 1, and
    transaction 2 removes 1.  In one order the link is cleared, in the other it stays
    and dangles. *)
Definition e62x : list opn := setup ++ [ONewTrans 1 0; ONewTrans 2 0; OInsert 1 (nA 1 [] [] 5) 5; ORemove 2 1]%N.
Example C62_order_matters :
  open_pair E0 True (kg E0 e62x 1) (kt E0 e62x 1) (kt E0 e62x 2) (ks E0 e62x 1) (ks E0 e62x 2) /\
  exists g1 g12 g2 g21,
    commit E0 (kt E0 e62x 1) (kg E0 e62x 1) = Done g1 tt /\ commit E0 (kt E0 e62x 2) g1 = Done g12 tt /\
    commit E0 (kt E0 e62x 2) (kg E0 e62x 1) = Done g2 tt /\ commit E0 (kt E0 e62x 1) g2 = Done g21 tt /\
    graph_get g12 5%N = Some (nA 0 [] [] 5)%N /\ graph_get g21 5%N = Some (nA 1 [] [] 5)%N.
Proof.
  split; [apply (run_pair_open E0 True e62x); [unfold e62x, setup; sides|computes]|].
  exists (done_g (commit E0 (kt E0 e62x 1) (kg E0 e62x 1))), (done_g (commit E0 (kt E0 e62x 2) (done_g (commit E0 (kt E0 e62x 1) (kg E0 e62x 1))))).
  exists (done_g (commit E0 (kt E0 e62x 2) (kg E0 e62x 1))), (done_g (commit E0 (kt E0 e62x 1) (done_g (commit E0 (kt E0 e62x 2) (kg E0 e62x 1))))).
  repeat (split; [computes|]). computes.
Qed.
