(** * What a transaction asks for: C80, C81 *)
From stdpp Require Export gmap.
From Verif Require Import Ask ExHist ExTrans Decide PropsBidi PropsFindings PropsExact.

(** ** C80 *)
(** [m'] are the nodes that the calls make out of the nodes of the graph.  Two transactions
    that make the same nodes, committed on graphs with the same nodes, leave the same nodes,
    whatever calls they consist of. *)
Theorem C80_same_request :
  forall {D} (E : env) (T1 T2 : Prop) (g1 g2 : graph D) t1 t2 (s1 s2 : tspec D) g1' g2' m',
  (forall l k, k ∈ e_opp E l -> nonvec E l) -> history E T1 g1 t1 s1 -> history E T2 g2 t2 s2 ->
  (forall i, graph_get g1 i = graph_get g2 i) -> asks g1 s1 m' -> asks g2 s2 m' ->
  commit E t1 g1 = Done g1' tt -> commit E t2 g2 = Done g2' tt ->
  forall i, option_Forall2 (same_node E) (graph_get g1' i) (graph_get g2' i).
Proof.
  intros D E T1 T2 g1 g2 t1 t2 s1 s2 g1' g2' m' Hnv H1 H2 Heq Ha1 Ha2.
  apply (final_same_request E E T1 T2 g1 g2 t1 t2 s1 s2 g1' g2' m'); try done. intros l k Hk. by split; eapply Hnv.
Qed.
Print Assumptions C80_same_request.

(** If both transactions can be applied without regard to bidirectional links, then one
    commit succeeds exactly if the other does. *)
Theorem C80_same_success :
  forall {D} (E : env) (T : Prop) (g1 g2 : graph D) t1 t2 (s1 s2 : tspec D) m m',
  bidi_fields E -> (forall v l, e_chk E v l = false -> nonvec E l) -> (forall l v, length (opposites_on E l v) <= 1) ->
  history E T g1 t1 s1 -> history E T g2 t2 s2 -> nodes_are g1 m -> nodes_are g2 m ->
  (e_dbg E = false \/ ts_res s1 = ∅) -> (e_dbg E = false \/ ts_res s2 = ∅) ->
  sp_valid (ts_txn s1) m -> sp_valid (ts_txn s2) m -> sp_commit (ts_txn s1) m m' -> sp_commit (ts_txn s2) m m' ->
  (exists g1', commit E t1 g1 = Done g1' tt) <-> (exists g2', commit E t2 g2 = Done g2' tt).
Proof. intros. by eapply final_same_success. Qed.
Print Assumptions C80_same_success.

(** In particular [mutate] may be written as [update], [...] *)
Theorem C80_mutate_as_update :
  forall {D} (E : env) (T1 T2 : Prop) (g1 g2 : graph D) t1 t2 (s1 s2 : tspec D) g1' g2',
  (forall l k, k ∈ e_opp E l -> nonvec E l) -> history E T1 g1 t1 s1 -> history E T2 g2 t2 s2 ->
  (forall i, graph_get g1 i = graph_get g2 i) -> mutates_as_updates s1 s2 ->
  commit E t1 g1 = Done g1' tt -> commit E t2 g2 = Done g2' tt ->
  forall i, option_Forall2 (same_node E) (graph_get g1' i) (graph_get g2' i).
Proof.
  intros D E T1 T2 g1 g2 t1 t2 s1 s2 g1' g2' Hnv H1 H2 Heq Hs Hc1 Hc2.
  destruct (final_asks E T1 g1 t1 s1 g1' H1 Hc1) as [m' Ha]. eapply (C80_same_request E T1 T2); try done.
  apply (asks_updates g1 s1 s2 m') in Ha as (m&Hm&Hsp); [|done]. exists m. split; [|done]. intros i. by rewrite Hm, Heq.
Qed.
Print Assumptions C80_mutate_as_update.

(** [...] neighbouring mutates of one node may be merged, and those of different nodes exchanged. *)
Theorem C80_mutates_rearranged :
  forall {D} (E : env) (T1 T2 : Prop) (g1 g2 : graph D) t1 t2 (s1 s2 : tspec D) g1' g2',
  (forall l k, k ∈ e_opp E l -> nonvec E l) -> history E T1 g1 t1 s1 -> history E T2 g2 t2 s2 ->
  (forall i, graph_get g1 i = graph_get g2 i) -> mutates_rearranged_to s1 s2 ->
  commit E t1 g1 = Done g1' tt -> commit E t2 g2 = Done g2' tt ->
  forall i, option_Forall2 (same_node E) (graph_get g1' i) (graph_get g2' i).
Proof.
  intros D E T1 T2 g1 g2 t1 t2 s1 s2 g1' g2' Hnv H1 H2 Heq Hs Hc1 Hc2.
  destruct (final_asks E T1 g1 t1 s1 g1' H1 Hc1) as [m' Ha]. eapply (C80_same_request E T1 T2); try done.
  apply (asks_rearranged g1 s1 s2 m') in Ha as (m&Hm&Hsp); [|done]. exists m. split; [|done]. intros i. by rewrite Hm, Heq.
Qed.
Print Assumptions C80_mutates_rearranged.

(** Node 3 is linked to 2 and bumped, nodes 1 and 4 are bumped: with mutates and an update,
    with updates only, and with the mutates of node 3 merged. *)
Definition relink_upd (nxt : idx) (peers items : list idx) : upd_fn nat := fun n =>
  if decide (nvar n = 0) then Ok (Node 0 [LDirect nxt; LSet SBTree peers; LVec items] (ndata n)) else Err PTypeMacro.
Definition relink_bump : mut_fn nat := then_ (relink 2%N [4%N] []) bump_mut.
Lemma relink_upd_ok E T nxt peers items :
  e_kinds E = ex_kinds -> bool_decide (NoDup peers) && incb peers = true -> upd_ok E T (relink_upd nxt peers items).
Proof.
  intros HE [Hnd%bool_decide_eq_true Hs%incb_sound]%andb_true_iff n n' Hok. unfold relink_upd. case_decide; [|done]. intros [= <-]. split; [|done].
  exists [KDirect; KSet SBTree; KVec]. split; [by rewrite HE|]. repeat constructor; done.
Qed.
Lemma relink_bump_ok E T : e_kinds E = ex_kinds -> mut_ok E T relink_bump.
Proof.
  intros HE n n' Hok. unfold relink_bump, then_. destruct (relink _ _ _ n) as [n1 []|] eqn:Hr; [|done].
  assert (mut_ok E T (relink 2%N [4%N] [])) as Hm by (apply relink_ok; [done|computes]).
  destruct (Hm n n1 Hok Hr) as [Hok1 Hv1]. intros Hb. destruct (bump_mut_ok E T n1 n' Hok1 Hb) as [Hok2 Hv2].
  split; [done|]. intros HT. by rewrite Hv2, Hv1.
Qed.
Definition o80a : list opn := bsetup ++
  [ONewTrans 1 0; OMutate 1 3 (relink 2 [4] []); OMutate 1 1 bump_mut; OMutate 1 3 bump_mut; OUpdate 1 4 bump_upd]%N.
Definition o80b : list opn := bsetup ++
  [ONewTrans 1 0; OUpdate 1 3 (relink_upd 2 [4] []); OUpdate 1 1 bump_upd; OUpdate 1 3 bump_upd; OUpdate 1 4 bump_upd]%N.
Definition o80c : list opn := bsetup ++
  [ONewTrans 1 0; OMutate 1 1 bump_mut; OMutate 1 3 relink_bump; OUpdate 1 4 bump_upd]%N.
Ltac sides80 := repeat (constructor; [first [exact I | apply bump_mut_ok | apply bump_upd_ok |
  apply relink_ok; [reflexivity|vm_compute; reflexivity] | apply relink_upd_ok; [reflexivity|vm_compute; reflexivity] |
  apply relink_bump_ok; reflexivity]|]); constructor.
Ltac hist80 := apply run_hist_pick; [sides80|vm_compute; eexists; reflexivity].
Example C80_case :
  history E1 True (kg E1 o80a 1) (kt E1 o80a 1) (ks E1 o80a 1) /\ history E1 True (kg E1 o80b 1) (kt E1 o80b 1) (ks E1 o80b 1) /\
  history E1 True (kg E1 o80c 1) (kt E1 o80c 1) (ks E1 o80c 1) /\ kg E1 o80a 1 = kg E1 o80b 1 /\ kg E1 o80a 1 = kg E1 o80c 1 /\
  mutates_as_updates (ks E1 o80a 1) (ks E1 o80b 1) /\ mutates_rearranged_to (ks E1 o80a 1) (ks E1 o80c 1) /\
  commit E1 (kt E1 o80a 1) (kg E1 o80a 1) = Done (kc E1 o80a 1) tt /\ commit E1 (kt E1 o80b 1) (kg E1 o80b 1) = Done (kc E1 o80b 1) tt /\
  commit E1 (kt E1 o80c 1) (kg E1 o80c 1) = Done (kc E1 o80c 1) tt /\
  (graph_get (kc E1 o80a 1) 1%N, graph_get (kc E1 o80a 1) 2%N, graph_get (kc E1 o80a 1) 3%N) =
    (Some (nB 0 [4] 101), Some (nB 0 [3] 2), Some (nA 2 [4] [] 103))%N.
Proof.
  split; [hist80|]. split; [hist80|]. split; [hist80|]. split; [computes|]. split; [computes|]. split; [|split].
  - split; [split; [computes|split; [computes|split; computes]]|]. exists [(3%N, relink_upd 2 [4] []); (1%N, bump_upd); (3%N, bump_upd)]%N.
    split; [|split; computes].
    assert (ts_mut (ks E1 o80a 1) = [(3%N, relink 2 [4] []); (1%N, bump_mut); (3%N, bump_mut)]%N) as -> by computes.
    assert (same_change bump_mut bump_upd) as Hb.
    { intros n n'. unfold bump_mut, bump_upd. split; by intros [= <-]. }
    assert (same_change (relink 2 [4] []) (relink_upd 2 [4] []))%N as Hr.
    { intros n n'. unfold relink, relink_upd. case_decide; [|done]. split; by intros [= <-]. }
    constructor; [by split|]. constructor; [by split|]. constructor; [by split|]. constructor.
  - split; [split; [computes|split; [computes|split; computes]]|]. split; [|computes].
    assert (ts_mut (ks E1 o80a 1) = [(3%N, relink 2 [4] []); (1%N, bump_mut); (3%N, bump_mut)]%N) as -> by computes.
    assert (ts_mut (ks E1 o80c 1) = [(1%N, bump_mut); (3%N, relink_bump)]%N) as -> by computes.
    eapply rtc_l; [exact (ra_swap [] 3%N 1%N (relink 2%N [4%N] []) bump_mut [(3%N, bump_mut)] ltac:(done))|].
    apply rtc_once. exact (ra_merge [(1%N, bump_mut)] 3%N (relink 2%N [4%N] []) bump_mut []).
  - split; [computes|]. split; [computes|]. split; computes.
Qed.

(** ** C81 *)
(** If in the nodes the calls ask for every declared bidirectional link already has its
    opposite and vice versa, a commit leaves exactly these nodes. *)
Theorem C81_symmetric_request :
  forall {D} (E : env) (T : Prop) (g : graph D) t (s : tspec D) m' g',
  (forall l k, k ∈ e_opp E l -> nonvec E l) -> T -> history E T g t s -> asks g s m' -> map_symmetric E m' ->
  commit E t g = Done g' tt -> forall i, option_Forall2 (same_node E) (m' !! i) (graph_get g' i).
Proof. intros D E T g t s m' g' Hnv HT Hh Ha Hs Hc. by apply (final_sym_exact E T g t s m' Hh HT Ha Hs g'). Qed.
Print Assumptions C81_symmetric_request.

(** And it succeeds, however many opposites a link has. *)
Theorem C81_symmetric_succeeds :
  forall {D} (E : env) (T : Prop) (g : graph D) t (s : tspec D) m m',
  bidi_fields E -> (forall v l, e_chk E v l = false -> nonvec E l) -> T -> history E T g t s ->
  nodes_are g m -> sp_commit (ts_txn s) m m' -> map_symmetric E m' -> map_typed E m' ->
  e_dbg E = false \/ ts_res s = ∅ -> sp_valid (ts_txn s) m -> exists g', commit E t g = Done g' tt.
Proof.
  intros D E T g t s m m' Hbf Hck HT Hh Hm Hsp Hs Hmt Hres Hv.
  apply (final_sym_succeeds E T g t s m' Hh HT ltac:(by exists m) Hs m); done.
Qed.
Print Assumptions C81_symmetric_succeeds.

(** Undoing changes: [g] is a graph whose bidirectional links are symmetric, whose links obey
    the declared types and lead to nodes of [g].  If a later graph has nodes of the same
    variants under the same indices, a transaction that only updates nodes to what they were
    in [g], at least all that changed, always succeeds and leaves the nodes of [g]. *)
Theorem C81_restore :
  forall {D} (E : env) (T : Prop) (g g1 : graph D) t (s : tspec D),
  bidi_fields E -> (forall v l, e_chk E v l = false -> nonvec E l) -> T -> graph_of E T g -> history E T g1 t s ->
  bidi_symmetric E g -> links_typed E g ->
  (forall i n, graph_get g i = Some n -> targets_in (fun y => is_Some (graph_get g y)) n) ->
  same_variants g g1 -> restores g g1 s -> e_dbg E = false \/ ts_res s = ∅ ->
  exists g', commit E t g1 = Done g' tt /\ forall i, option_Forall2 (same_node E) (graph_get g i) (graph_get g' i).
Proof.
  intros D E T g g1 t s Hbf Hck HT Hg Hh Hsym Htyp Hcl Hsv Hrs Hres.
  apply (final_restore E T g g1 t s Hh Hrs Hsv HT Hbf Hck); try done. by apply (graph_of_ok E _ _ Hg).
Qed.
Print Assumptions C81_restore.

(** Node 3 is moved from 1 to 2 and nodes 1, 4 are bumped, as in C80; then all three and node 2 are put back. *)
Definition put (n : node nat) : upd_fn nat := fun n0 => if decide (nvar n0 = nvar n) then Ok n else Err PTypeMacro.
Lemma put_ok E T n : node_ok E n -> upd_ok E T (put n).
Proof. intros Hn n0 n' _. unfold put. case_decide as Hv; [|done]. intros [= <-]. by split. Qed.
Definition o81 : list opn := o80a ++
  [OCommit 0 1; ONewTrans 2 0; OUpdate 2 3 (put (nA 1 [] [] 3)); OUpdate 2 1 (put (nB 0 [3; 4] 1));
   OUpdate 2 4 (put (nA 1 [3] [3] 4)); OUpdate 2 2 (put (nB 0 [] 2))]%N.
Ltac sides81 := repeat (constructor; [first [exact I | apply bump_mut_ok | apply bump_upd_ok |
  apply put_ok, node_okb_sound; vm_compute; reflexivity | apply relink_ok; [reflexivity|vm_compute; reflexivity]]|]); constructor.
Lemma o81_hist : history E1 True (kg E1 o81 2) (kt E1 o81 2) (ks E1 o81 2).
Proof. apply run_hist_pick; [sides81|vm_compute; eexists; reflexivity]. Qed.
Lemma o80a_hist : history E1 True (kg E1 o80a 1) (kt E1 o80a 1) (ks E1 o80a 1).
Proof. hist80. Qed.
Lemma by_items E (g : graph nat) (P : idx -> node nat -> bool) : WF E g -> forallb (fun '(i, n) => P i n) (graph_iter g) = true ->
  forall i n, graph_get g i = Some n -> P i n = true.
Proof. intros Hwf H i n Hn. apply (items_get E g Hwf) in Hn. rewrite forallb_forall in H. exact (H (i, n) Hn). Qed.
Definition var_at (g : graph nat) (i : idx) (n : node nat) : bool := match graph_get g i with Some n' => nvar n =? nvar n' | None => false end.
Lemma variants_sound E (g g1 : graph nat) : WF E g -> WF E g1 ->
  forallb (fun '(i, n) => var_at g1 i n) (graph_iter g) = true -> forallb (fun '(i, n) => var_at g i n) (graph_iter g1) = true ->
  same_variants g g1.
Proof.
  intros Hwf Hwf1 H H1 i. pose proof (by_items E g _ Hwf H i) as Ha. pose proof (by_items E g1 _ Hwf1 H1 i) as Hb.
  unfold var_at in *. destruct (graph_get g i) as [n|], (graph_get g1 i) as [n1|]; cbn; [|by specialize (Ha n eq_refl)|by specialize (Hb n1 eq_refl)|done].
  f_equal. symmetry. by apply Nat.eqb_eq, Ha.
Qed.
Example C81_case :
  let g := kg E1 o80a 1 in let g1 := kg E1 o81 2 in let s := ks E1 o81 2 in
  bidi_fields E1 /\ (forall v l, e_chk E1 v l = false -> nonvec E1 l) /\ graph_of E1 True g /\ history E1 True g1 (kt E1 o81 2) s /\
  bidi_symmetric E1 g /\ links_typed E1 g /\ (forall i n, graph_get g i = Some n -> targets_in (fun y => is_Some (graph_get g y)) n) /\
  same_variants g g1 /\ restores g g1 s /\ ts_res s = ∅ /\ g1 = kc E1 o80a 1 /\
  (graph_get g 1%N, graph_get g1 1%N, graph_get (kc E1 o81 2) 1%N) = (Some (nB 0 [3; 4] 1), Some (nB 0 [4] 101), Some (nB 0 [3; 4] 1))%N.
Proof.
  cbv zeta. pose proof (hist_wf _ _ _ _ _ o80a_hist) as Hwf. pose proof (hist_wf _ _ _ _ _ o81_hist) as Hwf1.
  split; [apply E1_fields|]. split; [apply E1_checks|]. split; [exact (history_graph _ _ _ _ _ o80a_hist)|]. split; [exact o81_hist|].
  split; [apply (bidi_symmetricb_sound E1 [Link 0 0; Link 1 1] _ Hwf); [apply E1_support|computes]|].
  split; [apply (links_typedb_sound E1 _ Hwf); computes|]. split.
  { intros i n Hn. apply (targets_inb_sound (fun y => match graph_get (kg E1 o80a 1) y with Some _ => true | None => false end)).
    - intros y. destruct (graph_get (kg E1 o80a 1) y); [by eexists|discriminate].
    - revert i n Hn. apply (by_items E1 _ _ Hwf). computes. }
  split; [apply (variants_sound E1 _ _ Hwf Hwf1); computes|]. split; [|split; [apply (proj1 (map_to_list_empty_iff _)); computes|split; computes]].
  assert (ts_upd (ks E1 o81 2) = [(3, put (nA 1 [] [] 3)); (1, put (nB 0 [3; 4] 1)); (4, put (nA 1 [3] [3] 4)); (2, put (nB 0 [] 2))]%N) as Hu by computes.
  split; [rewrite Hu; computes| |].
  - rewrite Hu. intros i f Hin. repeat (apply elem_of_cons in Hin as [[= -> ->]|Hin];
      [eexists; split; [computes|intros n0 Hv; unfold put; rewrite decide_True by exact Hv; reflexivity]|]). apply elem_of_nil in Hin as [].
  - rewrite Hu. intros i Hi.
    assert (forall g : graph nat, WF E1 g -> forallb (fun '(i, _) => bool_decide (i ∈ [3; 1; 4; 2]%N)) (graph_iter g) = true -> graph_get g i = None) as Hout.
    { intros g Hg Hb. destruct (graph_get g i) as [n|] eqn:Hn; [|reflexivity]. destruct Hi.
      exact (bool_decide_eq_true_1 _ (by_items E1 g (fun i _ => bool_decide (i ∈ [3; 1; 4; 2]%N)) Hg Hb i n Hn)). }
    rewrite (Hout _ Hwf ltac:(computes)), (Hout _ Hwf1 ltac:(computes)). reflexivity.
Qed.

(** Closures have to keep variants: node 1 becomes an A, and keeps the link of node 2.  The nodes asked for
    are symmetric, as the declaration does not speak about links from A to A.  But the B that node 1 was
    gave up its link to node 2, so node 2 loses its link too. *)
Definition become (n : node nat) : upd_fn nat := fun _ => Ok n.
Lemma become_ok E n : node_ok E n -> upd_ok E False (become n).
Proof. intros Hn n0 n' _ [= <-]. by split. Qed.
Definition o81v : list opn :=
  [ONewCtx 7; ONewGraph 0 0; ONewTrans 0 0; OInsert 0 (nB 0 [] 1) 1; OInsert 0 (nA 1 [] [] 3) 2; OCommit 0 0;
   ONewTrans 2 0; OUpdate 2 1 (become (nA 0 [] [] 9))]%N.
Definition m81v : gmap N (node nat) := <[1%N := nA 0 [] [] 9]> (ts_new (ks E1 o81v 2) ∪ gmap_of (kg E1 o81v 2)).
Lemma m81v_nodes : map_to_list m81v = [(1, nA 0 [] [] 9); (2, nA 1 [] [] 3)]%N.
Proof. computes. Qed.
Example C81_variants_needed :
  history E1 False (kg E1 o81v 2) (kt E1 o81v 2) (ks E1 o81v 2) /\ (forall l k, k ∈ e_opp E1 l -> nonvec E1 l) /\
  asks (kg E1 o81v 2) (ks E1 o81v 2) m81v /\ map_symmetric E1 m81v /\
  commit E1 (kt E1 o81v 2) (kg E1 o81v 2) = Done (kc E1 o81v 2) tt /\
  m81v !! 2%N = Some (nA 1 [] [] 3)%N /\ graph_get (kc E1 o81v 2) 2%N = Some (nA 0 [] [] 3)%N.
Proof.
  assert (history E1 False (kg E1 o81v 2) (kt E1 o81v 2) (ks E1 o81v 2)) as Hh.
  { apply run_hist_pick; [|vm_compute; eexists; reflexivity]. unfold o81v.
    repeat (constructor; [first [exact I | apply become_ok, node_okb_sound; vm_compute; reflexivity]|]). constructor. }
  split; [exact Hh|]. split; [intros l k Hk; by eapply E1_fields|]. split.
  { exists (gmap_of (kg E1 o81v 2)). split; [by eapply history_nodes|].
    assert (forall m : gmap N (node nat), sp_redirect [] m m) as Hr.
    { intros m. exists []. split; [exists ∅; split; [constructor|constructor]|]. symmetry. apply map_fmap_id. }
    assert (ts_redir (ks E1 o81v 2) = []) as H1 by computes. assert (ts_mut (ks E1 o81v 2) = []) as H2 by computes.
    assert (ts_upd (ks E1 o81v 2) = [(1%N, become (nA 0 [] [] 9))]) as H3 by computes.
    assert (ts_redir_all (ks E1 o81v 2) = []) as H4 by computes. assert (ts_del (ks E1 o81v 2) = []) as H5 by computes.
    exists (gmap_of (kg E1 o81v 2)), (ts_new (ks E1 o81v 2) ∪ gmap_of (kg E1 o81v 2)), m81v, m81v.
    cbn [ts_txn x_redir x_new x_mut x_upd x_redir_all x_del]. rewrite H1, H2, H3, H4, H5.
    split; [exact (Hr _)|]. split; [reflexivity|]. split; [|split; [exact (Hr _)|reflexivity]].
    assert (exists n, (ts_new (ks E1 o81v 2) ∪ gmap_of (kg E1 o81v 2)) !! 1%N = Some n) as [n Hn] by (vm_compute; eexists; reflexivity).
    cbn [sp_updates]. rewrite Hn. reflexivity. }
  split. { intros a b na nb l k Ha Hb Hk Hla Hkb. exfalso.
    assert (forall i n, m81v !! i = Some n -> nvar n = 0) as Hv.
    { intros i n Hi. apply elem_of_map_to_list in Hi. rewrite m81v_nodes in Hi. repeat (apply elem_of_cons in Hi as [[= -> ->]|Hi]; [reflexivity|]). apply elem_of_nil in Hi as []. }
    rewrite (Hv a na Ha) in Hla. rewrite (Hv b nb Hb) in Hkb. destruct (opp1_inv l k Hk) as [[-> ->]|[-> ->]]; discriminate. }
  split; [computes|]. split; computes.
Qed.
