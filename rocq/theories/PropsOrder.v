(** * Property theorems: iteration order (C61) *)
From Verif Require Import OrderHist Hist Grouped ExHist Decide PropsGraph PropsBidi GraphFinal PropsFindings.

(** C61.  The order in which the nodes of a variant are listed is computed by [replay]
    from the sequence of calls alone.  [replay] (OrderHist.v) says: a commit appends the
    new nodes in the order of their insert and fill calls; a queued update moves its node
    to the end, the last node of the variant taking its place; a removal lets the last
    node of the variant take the place of the removed one; mutates, redirects and links
    made or cleared for bidirectional declarations move nothing; merge appends the merged
    graph's order; switching the context renumbers in iteration order; a deserialized
    graph has the order of the serialized list.  The iterator over all nodes goes through
    the variants in order. *)
Theorem C61_order_is_replayed {D} (E : env) (T : Prop) (os : list (op (D:=D))) w kg c g :
  runs E T os w -> no_caught_panic os -> T \/ no_switch os -> w_graphs w !! kg = Some (c, g) ->
  let ord := o_graph (fold_left (replay (length (e_kinds E))) os orders_new) kg in
  (forall d, (graph_iter_type g d).*1 = ord d) /\
  (graph_iter g).*1 = concat (ord <$> seq 0 (length (e_kinds E))).
Proof.
  intros Hr Hn Hw Hg ord. pose proof (order_replayed E T os w Hr Hn Hw) as Hs.
  assert (forall d, (graph_iter_type g d).*1 = ord d) as Ho by (intros d; symmetry; by eapply (os_graph _ _ Hs)).
  split; [done|]. destruct (graph_of_ok E T g) as [Hwf _]. { exists w, kg, c. split; [by eapply runs_reachable|done]. }
  destruct (items_seq E (g_nodes g) (wf_arena _ _ Hwf) (length (e_kinds E))) as [Hi|]; [|lia].
  rewrite take_ge in Hi by (destruct (wf_arena _ _ Hwf) as (_&->&_); done).
  unfold graph_iter, arena_items. rewrite Hi. generalize (seq 0 (length (e_kinds E))). intros l.
  induction l as [|d l IH]; [done|]. cbn. rewrite fmap_app, IH. f_equal. apply Ho.
Qed.
Print Assumptions C61_order_is_replayed.

(** The same for the iterator itself: [k] calls of [next] on a new iterator return the nodes in
    this order, and [None] from the end on. *)
Theorem C61_iterator_order {D} (E : env) (T : Prop) (os : list (op (D:=D))) w kg c g (k : nat) :
  runs E T os w -> no_caught_panic os -> T \/ no_switch os -> w_graphs w !! kg = Some (c, g) ->
  let ord := o_graph (fold_left (replay (length (e_kinds E))) os orders_new) kg in
  exists res it, iter_steps k (iter_start (g_nodes g)) = Some (res, it) /\
    (fun r => fst <$> r) <$> res = (fun j => concat (ord <$> seq 0 (length (e_kinds E))) !! j) <$> seq 0 k.
Proof.
  intros Hr Hn Hw Hg ord. destruct (C61_order_is_replayed E T os w kg c g Hr Hn Hw Hg) as [_ H].
  destruct (C14_iterator_exact_fused (g_nodes g) k) as (it&Hit&_). eexists _, it. split; [exact Hit|].
  rewrite <- list_fmap_compose. apply list_fmap_ext. intros i j _. cbn. rewrite <- list_lookup_fmap. f_equal. exact H.
Qed.
Print Assumptions C61_iterator_order.

(** C61, second part: so the order does not depend on the hash function of the sets, on
    the declared bidirectional links and link types, on the build, or on anything else
    but the number of variants. *)
Theorem C61_order_same_everywhere {D} (E E' : env) (T : Prop) (os : list (op (D:=D))) w w' kg c c' g g' :
  length (e_kinds E) = length (e_kinds E') -> runs E T os w -> runs E' T os w' -> no_caught_panic os -> T \/ no_switch os ->
  w_graphs w !! kg = Some (c, g) -> w_graphs w' !! kg = Some (c', g') ->
  (graph_iter g).*1 = (graph_iter g').*1 /\ forall d, (graph_iter_type g d).*1 = (graph_iter_type g' d).*1.
Proof.
  intros Hl Hr Hr' Hn Hw Hg Hg'. destruct (C61_order_is_replayed E T os w kg c g Hr Hn Hw Hg) as [H1 H2].
  destruct (C61_order_is_replayed E' T os w' kg c' g' Hr' Hn Hw Hg') as [H1' H2']. rewrite <- Hl in H1', H2'.
  split; [congruence|]. intros d. by rewrite H1, H1'.
Qed.
Print Assumptions C61_order_same_everywhere.

Lemma last_graph {D} (w : world (D:=D)) kg k c g : w_graphs (set_g (del_t w k) kg (c, g)) !! kg = Some (c, g).
Proof. cbn. apply lookup_insert. Qed.

(** C61, third part: a commit without queued updates and removals keeps every listed node
    in place. *)
Theorem C61_old_nodes_first {D} (E : env) T (g : graph D) t s g' :
  history E T g t s -> ts_upd s = [] -> ts_del s = [] -> commit E t g = Done g' tt ->
  forall d, (graph_iter_type g d).*1 `prefix_of` (graph_iter_type g' d).*1.
Proof.
  intros Hh Hu Hd Hc d. destruct (history_ok E T g t s Hh) as (Hwf&_&Hok&_&Hr&_).
  pose proof (commit_order E T t g Hwf Hok) as Ho. rewrite Hc in Ho. specialize (Ho d). unfold gorder in Ho. rewrite Ho.
  unfold commit_steps. rewrite (tr_upd _ _ _ Hr), (tr_del _ _ _ Hr), Hu, Hd. cbn. by apply prefix_app_r.
Qed.
Print Assumptions C61_old_nodes_first.

(** C61, fourth part: after a caught panic (debug build) the order is what the commit had
    reached: the new nodes are all in place or none is, and the first [a] updates and the
    first [b] removals are done. *)
Theorem C61_order_after_panic {D} (E : env) (T : Prop) (os : list (op (D:=D))) w kg k p w' c g c' g' :
  e_dbg E = true -> runs E T os w -> no_caught_panic os -> T \/ no_switch os -> step E T w (OCommitPanic kg k p) w' ->
  w_graphs w !! kg = Some (c, g) -> w_graphs w' !! kg = Some (c', g') ->
  let t := o_trans (fold_left (replay (length (e_kinds E))) os orders_new) k in
  exists (merged : bool) a b, (merged = false -> a = 0) /\ (a < length (q_upd t) -> b = 0) /\ forall d,
    (graph_iter_type g' d).*1 =
      fold_left (fun l x => take_out x l) (take b (q_del t))
        (fold_left (fun l x => touch x l) (take a (q_upd t))
          ((graph_iter_type g d).*1 ++ if merged then q_new t d else [])).
Proof.
  intros Hdb Hr Hn Hw Hst Hg Hg' t. pose proof (order_replayed E T os w Hr Hn Hw) as Hs. apply runs_reachable in Hr.
  assert (tight g') as Hti.
  { assert (reachable E T w') as Hr' by by econstructor. destruct (reachable_logged E T w' Hdb Hr') as [lg Hl].
    apply lreach_inv in Hl as [_ [Hti _]]. by eapply Hti. }
  apply (reachable_inv E T) in Hr. inversion Hst as [| | | | | | | | | | | | | | | | | |kg0 k0 p0 c0 t0 g0 g1 Ht Hg0 Hc Hgd Hnf| |]; subst.
  assert (g0 = g) as -> by congruence. rewrite last_graph in Hg'. injection Hg' as <- ->.
  destruct (inv_trans_ok E T w kg k c0 g t0 Hr Hg0 Ht) as (Hwf&_&Hok&_).
  pose proof (commit_order E T t0 g Hwf Hok) as Ho. rewrite Hc in Ho. destruct Ho as [[j Ho]|(x&Hx&Hxn)].
  2:{ destruct (Hti x Hx) as [n Hn']. unfold graph_get in Hn'. congruence. }
  pose proof (os_trans _ _ Hs k c0 t0 Ht) as Hts. fold t in Hts.
  assert (q_upd t = (t_upd t0).*1) as Hu by apply Hts. assert (q_del t = t_dec t0) as Hd by apply Hts.
  destruct j as [|j].
  - exists false, 0, 0. do 2 (split; [done|]). intros d. cbn. rewrite app_nil_r. apply (Ho d).
  - exists true, (min j (length (q_upd t))), (j - length (q_upd t)). split; [done|]. split; [lia|]. intros d.
    etransitivity; [exact (Ho d)|]. unfold commit_steps. rewrite firstn_cons. rewrite <- (orun_maps _ _ d).
    assert (korder (t_inc t0) d = q_new t d) as <- by (symmetry; apply (ts_ord _ _ _ _ Hts)).
    unfold orun. cbn [fold_left]. f_equal.
    rewrite firstn_app, <- Hu, <- Hd, <- !fmap_take, fmap_length. f_equal. f_equal.
    destruct (decide (j <= length (q_upd t))); [by rewrite Nat.min_l|]. rewrite Nat.min_r, !take_ge by lia. done.
Qed.
Print Assumptions C61_order_after_panic.

Lemma run_runs {D} (E : env) T (os : list (op (D:=D))) w : Forall (op_side E T) os -> run E world_new os = Some w -> runs E T os w.
Proof.
  intros Hs. assert (forall pre w0, runs E T pre w0 -> run E w0 os = Some w -> runs E T (pre ++ os) w) as H.
  { induction Hs as [|o os Ho Hs IH]; intros pre w0 Hr; cbn; [rewrite app_nil_r; by intros [= <-]|].
    destruct (exec E w0 o) as [w1|] eqn:He; [|done]. intros Hw. change (o :: os) with ([o] ++ os). rewrite app_assoc.
    eapply IH; [|done]. eapply runs_snoc; [done|]. by apply exec_step. }
  intros Hr. apply (H [] world_new); [constructor|done].
Qed.
Definition rw (E : env) (os : list opn) : world := match run E world_new os with Some w => w | None => world_new end.
Definition rgr (E : env) (os : list opn) (kg : nat) : graph nat := match w_graphs (rw E os) !! kg with Some (_, g) => g | None => graph_new E 0 end.
Definition npb (os : list opn) : bool := forallb (fun o => match o with OCommitPanic _ _ _ => false | _ => true end) os.
Lemma npb_sound os : npb os = true -> no_caught_panic os.
Proof.
  intros H kg k p Hin. unfold npb in H. rewrite forallb_forall in H. apply elem_of_list_In, H in Hin. done.
Qed.

(** one commit uses every call on nodes: 6 is inserted and removed again, 5 updated before the
    commit, 2 updated and 3 removed; then a graph of another context (two A nodes around
    a B node) is switched into this context and merged *)
Definition e61 : list opn :=
  setup ++
  [ONewTrans 1 0; OInsert 1 (nA 1 [] [] 5) 5; OInsert 1 (nA 2 [] [] 6) 6; OInsert 1 (nA 4 [] [] 7) 7; OUpdate 1 5 bump_upd;
   ORemove 1 6; OUpdate 1 2 bump_upd; ORemove 1 3; OMutate 1 4 bump_mut; ORedirect 1 1 4; OCommit 0 1;
   ONewCtx 8; ONewGraph 1 1; ONewTrans 2 1; OInsert 2 (nB 0 [] 1) 1; OInsert 2 (nA 1 [] [] 2) 2; OInsert 2 (nA 1 [] [] 3) 3; OCommit 1 2;
   OSwitch 1 0; ONewTrans 3 0; OInsert 3 (nA 1 [] [] 9) 11; OMerge 3 1; OCommit 0 3]%N.
(** sets iterated backwards, release build *)
Definition E61 : env := Env ex_kinds (fun _ => []) (fun _ _ => true) (fun _ l => rev l) false.
Lemma e61_side E : e_kinds E = ex_kinds -> Forall (op_side E True) e61.
Proof. intros HE. unfold e61, setup. sides. Qed.
(** [2; 3] and the new [7; 5]; the update makes it [5; 3; 7; 2], the removal [5; 2; 7];
    the second commit appends 11 and the merged 8 and 9 *)
Example C61_case :
  (exists w c, runs E0 True e61 w /\ no_caught_panic e61 /\ w_graphs w !! 0 = Some (c, rgr E0 e61 0)) /\
  (exists w c, runs E61 True e61 w /\ w_graphs w !! 0 = Some (c, rgr E61 e61 0)) /\
  (graph_iter (rgr E0 (take 19 e61) 0)).*1 = [5; 2; 7; 1; 4]%N /\
  (graph_iter (rgr E0 e61 0)).*1 = [5; 2; 7; 11; 8; 9; 1; 4; 10]%N /\
  (graph_iter (rgr E61 e61 0)).*1 = [5; 2; 7; 11; 8; 9; 1; 4; 10]%N /\
  o_graph (fold_left (replay 2) e61 orders_new) 0 0 = [5; 2; 7; 11; 8; 9]%N.
Proof.
  split; [|split; [|split; [computes|split; [computes|split; computes]]]].
  - exists (rw E0 e61), 0. split; [|split; [apply npb_sound; computes|computes]].
    apply run_runs; [by apply e61_side|computes].
  - exists (rw E61 e61), 0. split; [|computes]. apply run_runs; [by apply e61_side|computes].
Qed.

Definition e61p : list opn := setup ++ [ONewTrans 1 0; OInsert 1 (nA 1 [] [1] 5) 5; OInsert 1 (nB 1 [2] 6) 6; OMutate 1 2 bump_mut]%N.
Example C61_case_prefix :
  history E0 True (hg E0 e61p) (ht E0 e61p) (hs E0 e61p) /\ ts_upd (hs E0 e61p) = [] /\ ts_del (hs E0 e61p) = [] /\
  commit E0 (ht E0 e61p) (hg E0 e61p) = Done (hc E0 e61p) tt /\
  (graph_iter_type (hg E0 e61p) 0).*1 = [2; 3]%N /\ (graph_iter_type (hc E0 e61p) 0).*1 = [2; 3; 5]%N.
Proof.
  split; [|split; [computes|split; [computes|split; [computes|split; computes]]]].
  apply run_hist_pick; [unfold e61p, setup; sides|vm_compute; eexists; reflexivity].
Qed.

(** node 99 does not exist: the second removal panics after the first *)
Definition e61c : list opn :=
  setup ++ [ONewTrans 1 0; OInsert 1 (nA 1 [] [] 5) 5; OInsert 1 (nA 1 [] [] 6) 6; ORemove 1 2; ORemove 1 99]%N.
Example C61_case_panic :
  e_dbg E0 = true /\ runs E0 True e61c (rw E0 e61c) /\ no_caught_panic e61c /\
  step E0 True (rw E0 e61c) (OCommitPanic 0 1 PRemoveMissing) (rw E0 (e61c ++ [OCommitPanic 0 1 PRemoveMissing])) /\
  (graph_iter_type (rgr E0 e61c 0) 0).*1 = [2; 3]%N /\
  (graph_iter_type (rgr E0 (e61c ++ [OCommitPanic 0 1 PRemoveMissing]) 0) 0).*1 = [6; 3; 5]%N.
Proof.
  split; [done|]. split; [|split; [apply npb_sound; computes|split; [|split; computes]]].
  - apply run_runs; [unfold e61c, setup; sides|computes].
  - apply exec_step; [exact I|computes].
Qed.

(** closures that change variants do not move nodes either, as long as nothing is switched *)
Definition to_b : node nat -> res (node nat) := fun n => Ok (nB 0 [] 9).
Lemma to_b_ok : upd_ok E0 False to_b.
Proof. intros n n' _ [= <-]. split; [apply node_okb_sound; computes|intros []]. Qed.
Definition e61v : list opn :=
  setup ++ [ONewTrans 1 0; OInsert 1 (nA 1 [] [] 5) 5; OUpdate 1 2 to_b; OCommit 0 1]%N.
Example C61_case_variant :
  runs E0 False e61v (rw E0 e61v) /\ no_caught_panic e61v /\ no_switch e61v /\
  graph_get (rgr E0 e61v 0) 2 = Some (nB 0 [] 9) /\ (graph_iter_type (rgr E0 e61v 0) 0).*1 = [5; 3; 2]%N.
Proof.
  split; [apply run_runs; [unfold e61v, setup; repeat (constructor; [first [exact I|apply to_b_ok|apply node_okb_sound; computes]|]); constructor|computes]|]. split; [apply npb_sound; computes|].
  split; [|split; computes].
  intros kg c Hin. apply elem_of_list_In in Hin. vm_compute in Hin. repeat destruct Hin as [Hin|Hin]; try discriminate Hin; exact Hin.
Qed.
(** C31 needs closures that keep variants for the order: reading back the graph above sorts
    node 2 among the nodes of its new variant. *)
Example C31_order_needs_variants : exists cnt g',
  graph_of E0 False (rgr E0 e61v 0) /\ deserialize_graph E0 (serialize (rgr E0 e61v 0)) = Ok (cnt, g') /\
  (graph_iter (rgr E0 e61v 0)).*1 = [5; 3; 2; 1; 4]%N /\ (graph_iter g').*1 = [5; 3; 2; 1; 4]%N /\
  (graph_iter_type (rgr E0 e61v 0) 0).*1 = [5; 3; 2]%N /\ (graph_iter_type g' 0).*1 = [5; 3]%N.
Proof.
  do 2 eexists. split; [|split; [vm_compute; reflexivity|split; [computes|split; [computes|split; computes]]]].
  exists (rw E0 e61v), 0. eexists. split; [eapply runs_reachable; apply C61_case_variant|vm_compute; reflexivity].
Qed.
