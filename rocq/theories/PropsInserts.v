(** * Inserting nodes in one transaction or in several: C82 *)
From stdpp Require Export gmap.
From Verif Require Import Inserts ExHist ExTrans Decide PropsBidi PropsFindings PropsExact PropsCommute.

(** [t] inserts the nodes that [ta] and [tb] insert, and the nodes of [ta] do not refer to
    those of [tb].  Committing [ta] and then [tb] leaves the same nodes as committing [t],
    with the same opposites of bidirectional links. *)
Theorem C82_one_or_two :
  forall {D} (E : env) (T : Prop) (g g1 g2 g' : graph D) t ta tb (s sa sb : tspec D),
  (forall l k, k ∈ e_opp E l -> nonvec E l) -> history E T g t s -> history E T g ta sa -> history E T g1 tb sb ->
  only_inserts (ts_new s) (ts_txn s) -> only_inserts (ts_new sa) (ts_txn sa) -> only_inserts (ts_new sb) (ts_txn sb) ->
  (forall i n, ts_new s !! i = Some n <-> ts_new sa !! i = Some n \/ ts_new sb !! i = Some n) -> no_reference sa sb ->
  commit E ta g = Done g1 tt -> commit E tb g1 = Done g2 tt -> commit E t g = Done g' tt ->
  forall i, option_Forall2 (same_node E) (graph_get g' i) (graph_get g2 i).
Proof.
  intros D E T g g1 g2 g' t ta tb s sa sb Hnv Hh Ha Hb Hi Hia Hib Hall Hsep.
  by apply (final_whole_same E T g t ta s sa sb Hh Ha Hi Hia Hib Hall Hsep g1 g2 tb g').
Qed.
Print Assumptions C82_one_or_two.

(** If no variant has two opposites of one link, the whole succeeds exactly if both parts do:
    if the whole succeeds so does the first part, and after it the second part succeeds
    exactly if the whole does. *)
Theorem C82_first_part_succeeds :
  forall {D} (E : env) (T : Prop) (g g' : graph D) t ta (s sa sb : tspec D),
  bidi_fields E -> (forall v l, e_chk E v l = false -> nonvec E l) -> (forall l v, length (opposites_on E l v) <= 1) ->
  history E T g t s -> history E T g ta sa -> only_inserts (ts_new s) (ts_txn s) -> only_inserts (ts_new sa) (ts_txn sa) ->
  (forall i n, ts_new s !! i = Some n <-> ts_new sa !! i = Some n \/ ts_new sb !! i = Some n) ->
  e_dbg E = false \/ ts_res sa = ∅ -> commit E t g = Done g' tt -> exists g1, commit E ta g = Done g1 tt.
Proof.
  intros D E T g g' t ta s sa sb Hbf Hck Hone Hh Ha Hi Hia Hall Hres Hc.
  apply (final_whole_first E T g t ta s sa sb Hh Ha Hi Hia Hall); try done. by exists g'.
Qed.
Print Assumptions C82_first_part_succeeds.
Theorem C82_second_part_succeeds :
  forall {D} (E : env) (T : Prop) (g g1 : graph D) t ta tb (s sa sb : tspec D),
  bidi_fields E -> (forall v l, e_chk E v l = false -> nonvec E l) -> (forall l v, length (opposites_on E l v) <= 1) ->
  history E T g t s -> history E T g ta sa -> history E T g1 tb sb ->
  only_inserts (ts_new s) (ts_txn s) -> only_inserts (ts_new sa) (ts_txn sa) -> only_inserts (ts_new sb) (ts_txn sb) ->
  (forall i n, ts_new s !! i = Some n <-> ts_new sa !! i = Some n \/ ts_new sb !! i = Some n) -> no_reference sa sb ->
  e_dbg E = false \/ ts_res s = ∅ -> e_dbg E = false \/ ts_res sb = ∅ -> commit E ta g = Done g1 tt ->
  (exists g', commit E t g = Done g' tt) <-> exists g2, commit E tb g1 = Done g2 tt.
Proof.
  intros D E T g g1 t ta tb s sa sb Hbf Hck Hone Hh Ha Hb Hi Hia Hib Hall Hsep.
  by apply (final_whole_second E T g t ta s sa sb Hh Ha Hi Hia Hib Hall Hsep g1 tb).
Qed.
Print Assumptions C82_second_part_succeeds.

(** Two open transactions that only insert nodes, not referring to each other's, can be
    committed in either order: the same nodes, also with bidirectional links. *)
Theorem C82_either_first :
  forall {D} (E : env) (T : Prop) (g g1 g12 g2 g21 : graph D) t1 t2 (s1 s2 : tspec D),
  (forall l k, k ∈ e_opp E l -> nonvec E l) -> open_pair E T g t1 t2 s1 s2 ->
  only_inserts (ts_new s1) (ts_txn s1) -> only_inserts (ts_new s2) (ts_txn s2) -> no_reference s1 s2 -> no_reference s2 s1 ->
  commit E t1 g = Done g1 tt -> commit E t2 g1 = Done g12 tt -> commit E t2 g = Done g2 tt -> commit E t1 g2 = Done g21 tt ->
  forall i, option_Forall2 (same_node E) (graph_get g12 i) (graph_get g21 i).
Proof.
  intros D E T g g1 g12 g2 g21 t1 t2 s1 s2 Hnv Hp H1 H2 R1 R2 C1 C12 C2 C21.
  pose proof (open_pair_sym _ _ _ _ _ _ _ Hp) as Hp'.
  apply (final_either_same E T g g1 g2 t1 t2 s1 s2 (open_pair_history _ _ _ _ _ _ _ Hp) (open_pair_history _ _ _ _ _ _ _ Hp')
    (open_pair_commit _ _ _ _ _ _ _ _ Hp C1) (open_pair_commit _ _ _ _ _ _ _ _ Hp' C2)); done.
Qed.
Print Assumptions C82_either_first.

(** If each can be committed alone and no variant has two opposites of one link, then either
    both orders succeed or both fail at the second commit. *)
Theorem C82_either_succeeds :
  forall {D} (E : env) (T : Prop) (g g1 g2 : graph D) t1 t2 (s1 s2 : tspec D),
  bidi_fields E -> (forall v l, e_chk E v l = false -> nonvec E l) -> (forall l v, length (opposites_on E l v) <= 1) ->
  open_pair E T g t1 t2 s1 s2 ->
  only_inserts (ts_new s1) (ts_txn s1) -> only_inserts (ts_new s2) (ts_txn s2) -> no_reference s1 s2 -> no_reference s2 s1 ->
  commit E t1 g = Done g1 tt -> commit E t2 g = Done g2 tt ->
  (exists g12, commit E t2 g1 = Done g12 tt) <-> (exists g21, commit E t1 g2 = Done g21 tt).
Proof.
  intros D E T g g1 g2 t1 t2 s1 s2 Hbf Hck Hone Hp H1 H2 R1 R2 C1 C2.
  pose proof (open_pair_sym _ _ _ _ _ _ _ Hp) as Hp'.
  apply (final_either_success E T g g1 g2 t1 t2 s1 s2 (open_pair_history _ _ _ _ _ _ _ Hp) (open_pair_history _ _ _ _ _ _ _ Hp')
    (open_pair_commit _ _ _ _ _ _ _ _ Hp C1) (open_pair_commit _ _ _ _ _ _ _ _ Hp' C2)); try done. intros l k Hk. by eapply Hbf.
Qed.
Print Assumptions C82_either_succeeds.

(** Schema [E1] (A.next <-> B.users).  5 links to 2; 6 links to 5 and 7 to 6. *)
Definition w82 : list opn := bsetup ++
  [ONewTrans 1 0; OInsert 1 (nA 2 [4] [] 5) 5; OInsert 1 (nA 0 [5] [] 6) 6; OInsert 1 (nB 0 [6] 7) 7]%N.
Definition a82 : list opn := bsetup ++ [ONewTrans 1 0; OInsert 1 (nA 2 [4] [] 5) 5]%N.
Definition b82 : list opn := a82 ++ [OCommit 0 1; ONewTrans 2 0; OInsert 2 (nA 0 [5] [] 6) 6; OInsert 2 (nB 0 [6] 7) 7]%N.
(** deciding the conditions on the inserted nodes *)
Definition no_referenceb (s1 s2 : tspec nat) : bool :=
  forallb (fun '(_, n) => forallb (fun '(_, y) => match ts_new s2 !! y with Some _ => false | None => true end) (node_links n)) (map_to_list (ts_new s1)).
Lemma no_referenceb_sound s1 s2 : no_referenceb s1 s2 = true -> no_reference s1 s2.
Proof.
  intros Hb i n y Hn [l Hl]. unfold no_referenceb in Hb. rewrite forallb_forall in Hb. specialize (Hb (i, n)).
  rewrite <- elem_of_list_In, elem_of_map_to_list in Hb. specialize (Hb Hn). cbn in Hb. rewrite forallb_forall in Hb.
  specialize (Hb (l, y)). rewrite <- elem_of_list_In in Hb. specialize (Hb (elem_node_links n l y Hl)). cbn in Hb.
  by destruct (ts_new s2 !! y).
Qed.
Example C82_case :
  bidi_fields E1 /\ (forall v l, e_chk E1 v l = false -> nonvec E1 l) /\ (forall l v, length (opposites_on E1 l v) <= 1) /\
  history E1 True (kg E1 w82 1) (kt E1 w82 1) (ks E1 w82 1) /\ history E1 True (kg E1 a82 1) (kt E1 a82 1) (ks E1 a82 1) /\
  history E1 True (kg E1 b82 2) (kt E1 b82 2) (ks E1 b82 2) /\ kg E1 a82 1 = kg E1 w82 1 /\ kg E1 b82 2 = kc E1 a82 1 /\
  only_inserts (ts_new (ks E1 w82 1)) (ts_txn (ks E1 w82 1)) /\ only_inserts (ts_new (ks E1 a82 1)) (ts_txn (ks E1 a82 1)) /\
  only_inserts (ts_new (ks E1 b82 2)) (ts_txn (ks E1 b82 2)) /\
  map_to_list (ts_new (ks E1 w82 1)) ≡ₚ map_to_list (ts_new (ks E1 a82 1)) ++ map_to_list (ts_new (ks E1 b82 2)) /\
  no_reference (ks E1 a82 1) (ks E1 b82 2) /\ ts_res (ks E1 w82 1) = ∅ /\ ts_res (ks E1 b82 2) = ∅ /\
  commit E1 (kt E1 w82 1) (kg E1 w82 1) = Done (kc E1 w82 1) tt /\ commit E1 (kt E1 a82 1) (kg E1 a82 1) = Done (kc E1 a82 1) tt /\
  commit E1 (kt E1 b82 2) (kg E1 b82 2) = Done (kc E1 b82 2) tt /\
  (graph_get (kc E1 w82 1) 2%N, graph_get (kc E1 w82 1) 6%N) = (Some (nB 0 [5] 2), Some (nA 7 [5] [] 6))%N /\
  (graph_get (kc E1 b82 2) 2%N, graph_get (kc E1 b82 2) 6%N) = (Some (nB 0 [5] 2), Some (nA 7 [5] [] 6))%N.
Proof.
  split; [apply E1_fields|]. split; [apply E1_checks|]. split; [apply E1_one|].
  split; [hist|]. split; [hist|]. split; [hist|]. split; [computes|]. split; [computes|].
  split; [computes|]. split; [computes|]. split; [computes|].
  split; [vm_compute; solve_Permutation|]. split; [apply no_referenceb_sound; computes|].
  split; [apply (proj1 (map_to_list_empty_iff _)); computes|]. split; [apply (proj1 (map_to_list_empty_iff _)); computes|].
  split; [computes|]. split; [computes|]. split; [computes|]. split; computes.
Qed.

(** Both orders: each transaction inserts one A node, both linked to node 2. *)
Definition p82 : list opn := bsetup ++ [ONewTrans 1 0; ONewTrans 2 0; OInsert 1 (nA 2 [4] [] 5) 5; OInsert 2 (nA 2 [3] [] 6) 6]%N.
Example C82_either_case :
  let g1 := done_g (commit E1 (kt E1 p82 1) (kg E1 p82 1)) in let g2 := done_g (commit E1 (kt E1 p82 2) (kg E1 p82 1)) in
  open_pair E1 True (kg E1 p82 1) (kt E1 p82 1) (kt E1 p82 2) (ks E1 p82 1) (ks E1 p82 2) /\
  only_inserts (ts_new (ks E1 p82 1)) (ts_txn (ks E1 p82 1)) /\ only_inserts (ts_new (ks E1 p82 2)) (ts_txn (ks E1 p82 2)) /\
  no_reference (ks E1 p82 1) (ks E1 p82 2) /\ no_reference (ks E1 p82 2) (ks E1 p82 1) /\
  commit E1 (kt E1 p82 1) (kg E1 p82 1) = Done g1 tt /\ commit E1 (kt E1 p82 2) (kg E1 p82 1) = Done g2 tt /\
  graph_get (done_g (commit E1 (kt E1 p82 2) g1)) 2%N = Some (nB 0 [5; 6] 2)%N /\
  graph_get (done_g (commit E1 (kt E1 p82 1) g2)) 2%N = Some (nB 0 [6; 5] 2)%N.
Proof.
  cbv zeta. split; [apply (run_pair_open E1 True p82); [unfold p82, bsetup; sides|computes]|].
  split; [computes|]. split; [computes|]. split; [apply no_referenceb_sound; computes|]. split; [apply no_referenceb_sound; computes|].
  split; [computes|]. split; [computes|]. split; computes.
Qed.

(** Why the first part must not refer to the second: 5 links to 6.  In one transaction 6 gets
    the opposite link; in two, 6 does not exist when 5 is committed, and the link is not new
    when 6 is. *)
Definition w82x : list opn := bsetup ++ [ONewTrans 1 0; OInsert 1 (nA 6 [] [] 5) 5; OInsert 1 (nB 0 [] 6) 6]%N.
Definition a82x : list opn := bsetup ++ [ONewTrans 1 0; OInsert 1 (nA 6 [] [] 5) 5]%N.
Definition b82x : list opn := a82x ++ [OCommit 0 1; ONewTrans 2 0; OInsert 2 (nB 0 [] 6) 6]%N.
Theorem C82_reference_differs :
  history E1 True (kg E1 w82x 1) (kt E1 w82x 1) (ks E1 w82x 1) /\ history E1 True (kg E1 a82x 1) (kt E1 a82x 1) (ks E1 a82x 1) /\
  history E1 True (kg E1 b82x 2) (kt E1 b82x 2) (ks E1 b82x 2) /\ kg E1 a82x 1 = kg E1 w82x 1 /\ kg E1 b82x 2 = kc E1 a82x 1 /\
  map_to_list (ts_new (ks E1 w82x 1)) ≡ₚ map_to_list (ts_new (ks E1 a82x 1)) ++ map_to_list (ts_new (ks E1 b82x 2)) /\
  commit E1 (kt E1 w82x 1) (kg E1 w82x 1) = Done (kc E1 w82x 1) tt /\ commit E1 (kt E1 a82x 1) (kg E1 a82x 1) = Done (kc E1 a82x 1) tt /\
  commit E1 (kt E1 b82x 2) (kg E1 b82x 2) = Done (kc E1 b82x 2) tt /\
  (graph_get (kc E1 w82x 1) 6%N, graph_get (kc E1 b82x 2) 6%N) = (Some (nB 0 [5] 6), Some (nB 0 [] 6))%N.
Proof.
  split; [hist|]. split; [hist|]. split; [hist|]. split; [computes|]. split; [computes|]. split; [vm_compute; solve_Permutation|].
  split; [computes|]. split; [computes|]. split; [computes|]. computes.
Qed.
Print Assumptions C82_reference_differs.
