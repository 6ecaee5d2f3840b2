(** * Property theorems: exactly what switch_context leaves (C71) *)
From Verif Require Import ExTrans SwitchExact PropsSer.

(** No premise on the graph: links may leave it, and old and new indices may meet
    ([C34_isomorphic_refuted]).  Without declared opposites [switch_context]
    - gives the [k]-th node of the iteration order the index [c + 1 + k];
    - keeps variant and data, renames direct and Vec links, and renames set links except
      those whose new index is an old member of the set with a node later in the order;
    - checks the types of exactly the links that then connect two nodes. *)
Theorem C71_switch_exact :
  forall {D} (E : env) (T : Prop) (g : graph D) (ctx : N) (c : idx),
  graph_of E T g -> (forall l, e_opp E l = []) -> (c + N.of_nat (length (graph_iter g)) < usize_mod)%N ->
  (forall k x n, graph_iter g !! k = Some (x, n) -> new_index g c x = (c + 1 + N.of_nat k)%N) /\
  (forall x, graph_get g x = None -> new_index g c x = x) /\
  match switch_context E g ctx c with
  | Done c' g' => c' = (c + N.of_nat (length (graph_iter g)))%N /\ g_ctx g' = ctx /\
      (forall x n, graph_get g x = Some n ->
         exists n', graph_get g' (new_index g c x) = Some n' /\ node_switched g (new_index g c) n n') /\
      (forall j, is_Some (graph_get g' j) -> exists x, is_Some (graph_get g x) /\ j = new_index g c x) /\
      (forall j k nj nk l, graph_get g' j = Some nj -> graph_get g' k = Some nk -> has_link nj l k -> e_chk E (nvar nk) l = true)
  | Panicked p c' => c' = (c + N.of_nat (length (graph_iter g)))%N /\ p = PLinkType /\
      exists y z ny nz n' l, graph_get g y = Some ny /\ node_switched g (new_index g c) ny n' /\
        graph_get g z = Some nz /\ has_link n' l (new_index g c z) /\ e_chk E (nvar nz) l = false
  end.
Proof.
  intros D E T g ctx c Hg Ho Hroom. destruct (graph_of_ok E _ _ Hg) as (Hwf&_).
  split; [|split; [|by apply (final_switch_exact E T)]].
  - intros k x n Hk. unfold new_index. rewrite (find_index _ k x n); [done| |done]. apply (arena_items_NoDup E), Hwf.
  - intros x Hx. unfold new_index. destruct (list_find _ _) as [[k [i n]]|] eqn:Hf; [|done].
    apply list_find_Some in Hf as (Hk&Heq&_). cbn in Heq. subst i. apply elem_of_list_lookup_2 in Hk.
    apply (arena_get_items E (g_nodes g)) in Hk; [|apply Hwf]. unfold graph_get in Hx. congruence.
Qed.
Print Assumptions C71_switch_exact.

Lemma comes_after_dec {D} (g : graph D) x z : comes_after g x z \/ ~ comes_after g x z.
Proof.
  set (L := (graph_iter g).*1).
  destruct (decide (Exists (fun i => Exists (fun j => i < j /\ L !! i = Some x /\ L !! j = Some z) (seq 0 (length L))) (seq 0 (length L)))) as [He|He].
  - left. apply Exists_exists in He as (i&_&(j&_&H)%Exists_exists). by exists i, j.
  - right. intros (i&j&H&Hi&Hj). apply He, Exists_exists. exists i.
    split; [apply elem_of_seq; apply lookup_lt_Some in Hi; fold L in Hi; lia|]. apply Exists_exists. exists j.
    split; [apply elem_of_seq; apply lookup_lt_Some in Hj; fold L in Hj; lia|done].
Qed.
(** which links a closed graph loses: those of a set to [x] with [new_index g c x] an old
    member of the set whose node comes later, and no others *)
Theorem C71_lost_iff :
  forall {D} (E : env) (T : Prop) (g g' : graph D) (ctx : N) (c c' : idx) y n n' l x,
  graph_of E T g -> closed g -> (forall l, e_opp E l = []) -> (c + N.of_nat (length (graph_iter g)) < usize_mod)%N ->
  switch_context E g ctx c = Done c' g' ->
  graph_get g y = Some n -> graph_get g' (new_index g c y) = Some n' -> has_link n l x ->
  (~ has_link n' l (new_index g c x) <->
     (exists k ids, nlinks n !! l_fld l = Some (LSet k ids) /\ new_index g c x ∈ ids) /\ comes_after g x (new_index g c x)).
Proof.
  intros D E T g g' ctx c c' y n n' l x Hg Hcl Ho Hroom Hsw Hy Hy' Hl.
  destruct (graph_of_ok E _ _ Hg) as (Hwf&_).
  pose proof (final_switch_exact E T g ctx c Hg Ho Hroom) as H. rewrite Hsw in H. destruct H as (_&_&Hsome&_).
  destruct (Hsome y n Hy) as (n2&Hn2&Hv&_&_&Hf). assert (n2 = n') as -> by congruence.
  destruct (Hcl y n x Hy) as [nx Hx]; [by exists l|].
  assert (new_index g c x <> 0%N) as Hnz.
  { pose proof (new_index_range E T g c x Hg (mk_is_Some _ _ Hx)). lia. }
  pose proof Hl as (_&Hvar&lv&Hlv&Hin). destruct (Hf _ _ Hlv) as (lv'&Hlv'&Hr).
  assert (has_link n' l (new_index g c x) <-> new_index g c x ∈ lv_elems lv') as ->.
  { unfold has_link. rewrite Hv, Hlv'. split; [by intros (_&_&?&[= <-]&?)|]. intros Hi. split; [done|]. split; [done|]. by exists lv'. }
  destruct lv as [x1|k ids|ids], lv' as [x1'|k' ids'|ids']; cbn in Hr, Hin; try done.
  - apply elem_of_list_singleton in Hin as ->. subst x1'. split; [intros Hn; destruct Hn; left|].
    intros [(k&ids&Hk&_) _]. congruence.
  - destruct Hr as (_&_&Hz). cbn. rewrite Hz. split.
    + intros Hn. destruct (decide (new_index g c x ∈ ids)) as [Hi|Hi].
      * split; [by exists k, ids|]. destruct (comes_after_dec g x (new_index g c x)) as [Hb|Hb]; [done|].
        destruct Hn. exists x. split; [done|]. split; [done|]. by intros [_ Hc].
      * destruct Hn. exists x. split; [done|]. split; [done|]. by intros [? _].
    + intros [(k2&ids2&Hk2&Hi) Hc]. assert (ids2 = ids) as -> by congruence.
      intros (x'&Hx'&Heq&Hno). destruct (Hcl y n x' Hy) as [nx' Hgx'].
      { exists l. split; [|split; [done|by exists (LSet k ids)]]. intros ->. apply Hnz. rewrite Heq.
        unfold new_index. destruct (list_find _ _) as [[p [i ni]]|] eqn:Hfi; [|done].
        apply list_find_Some in Hfi as (Hp&Hi0&_). cbn in Hi0. subst i. apply elem_of_list_lookup_2 in Hp.
        apply (arena_get_items E (g_nodes g)) in Hp; [|apply Hwf]. pose proof (wf_zero _ _ Hwf) as Hz0. unfold graph_get in Hz0. congruence. }
      assert (x = x') as <- by (apply (new_index_inj E T g c); [done|by rewrite Hx|by rewrite Hgx'|done]). by apply Hno.
  - subst ids'. split.
    + intros Hn. destruct Hn. cbn. apply elem_of_list_fmap. by exists x.
    + intros [(k&ids2&Hk&_) _]. congruence.
Qed.
Print Assumptions C71_lost_iff.

(** B 1, A 2 and A 3 with overlapping new indices (2, 3, 1 become 1, 2, 3): A 2 keeps its
    direct link, its Vec links and the link out of the graph (to 9), and loses the link of
    [peers] to 2, since the new index 1 is the old index of B, which comes later. *)
Definition s71 : list opn :=
  [ONewCtx 7; ONewGraph 0 0; ONewTrans 0 0; OInsert 0 (nB 3 [2; 3] 1) 1; OInsert 0 (nA 1 [1; 2; 3] [2; 9; 0; 1] 2) 2;
   OInsert 0 (nA 2 [3] [] 3) 3; OCommit 0 0; ONewCtx 8]%N.
Definition g71 : graph nat := ex_g E0 s71 0.
Example C71_case :
  graph_of E0 True g71 /\ (forall l, e_opp E0 l = []) /\
  graph_iter g71 = [(2, nA 1 [1; 2; 3] [2; 9; 0; 1] 2); (3, nA 2 [3] [] 3); (1, nB 3 [2; 3] 1)]%N /\
  match switch_context E0 g71 8%N 0%N with
  | Done c' g' => c' = 3%N /\ g_ctx g' = 8%N /\
      graph_iter g' = [(1, nA 3 [2; 3] [1; 9; 0; 3] 2); (2, nA 1 [2] [] 3); (3, nB 2 [1; 2] 1)]%N
  | Panicked _ _ => False
  end.
Proof.
  split; [apply (run_graph_of E0 True s71 0); [unfold s71; sides|vm_compute; reflexivity]|].
  split; [done|]. split; [computes|]. vm_compute. auto.
Qed.
(** a closed graph that loses one link *)
Example C71_case_lost :
  graph_of E0 True C34_g /\ closed C34_g /\
  (exists g' n', switch_context E0 C34_g 8%N 0%N = Done 2%N g' /\ graph_get C34_g 2%N = Some (nA 0 [1; 2] [] 2)%N /\
     new_index C34_g 0%N 2%N = 1%N /\ graph_get g' 1%N = Some n' /\
     has_link (nA 0 [1; 2] [] 2)%N (Link 0 1) 2%N /\ ~ has_link n' (Link 0 1) 1%N).
Proof.
  assert (graph_of E0 True C34_g) as Hg. { apply (run_graph_of E0 True C34_ops 0); [sides|]. vm_compute. reflexivity. }
  assert (WF E0 C34_g) as Hwf by by apply (graph_of_ok E0 True).
  split; [done|]. split; [apply (closedb_sound E0 _ Hwf); computes|].
  exists (sw_g (switch_context E0 C34_g 8%N 0%N)), (nA 0 [2] [] 2)%N. split; [computes|]. split; [computes|]. split; [computes|].
  split; [computes|]. split.
  - split; [done|]. split; [done|]. eexists. split; [reflexivity|]. right. left.
  - intros (_&_&lv&Hlv&Hin). injection Hlv as <-. cbn in Hin. by apply elem_of_list_singleton in Hin.
Qed.
(** a link out of the graph comes to hit a node of the wrong type: A.next only to B *)
Definition E71 : env := Env ex_kinds (fun _ => []) chk1 (fun _ l => l) true.
Definition s71p : list opn :=
  [ONewCtx 7; ONewGraph 0 0; ONewTrans 0 0; OInsert 0 (nA 9 [] [] 1) 1; OCommit 0 0; ONewCtx 8]%N.
Example C71_case_panics :
  graph_of E71 True (ex_g E71 s71p 0) /\ (forall l, e_opp E71 l = []) /\
  graph_iter (ex_g E71 s71p 0) = [(1, nA 9 [] [] 1)]%N /\
  switch_context E71 (ex_g E71 s71p 0) 8%N 8%N = Panicked PLinkType 9%N.
Proof.
  split; [apply (run_graph_of E71 True s71p 0); [unfold s71p; sides|vm_compute; reflexivity]|].
  split; [done|]. split; computes.
Qed.
