(** * extend, check registries, typed macros, link methods: C30 (exact), C55-C59 *)
From Verif Require Import Api ExTrans Decide PropsGraph PropsBidi PropsFindings PropsSer.

(** ** C55 *)
(** [check_integrity] panics in a debug build exactly if some link leads nowhere or a set
    holds the empty index; a release build checks nothing. *)
Theorem C55_check_integrity_exact :
  forall {D} (E : env) (T : Prop) (g : graph D), graph_of E T g ->
  check_integrity E g = true <->
    (e_dbg E = true ->
      (forall x n l y, graph_get g x = Some n -> has_link n l y -> is_Some (graph_get g y)) /\
      (forall x n f sk xs, graph_get g x = Some n -> nlinks n !! f = Some (LSet sk xs) -> 0%N ∉ xs)).
Proof.
  intros D E T g Hg. rewrite (integrity_exact E T g Hg).
  assert (closed g <-> forall x n l y, graph_get g x = Some n -> has_link n l y -> is_Some (graph_get g y)) as ->; [|done].
  unfold closed, links_to. naive_solver.
Qed.
Print Assumptions C55_check_integrity_exact.
Definition dangling : list opn := setup ++ [ONewTrans 1 0; ORemove 1 1; OInsert 1 (nA 9 [] [] 5) 5; OCommit 0 1]%N.
Definition emptyset : list opn := setup ++ [ONewTrans 1 0; OInsert 1 (nA 0 [0] [] 5) 5; OCommit 0 1]%N.
Definition rg (E : env) (os : list opn) : graph nat := match run_graph E os 0 with Some g => g | None => graph_new E 0 end.
Example C55_case : graph_of E0 True (rg E0 setup) /\ check_integrity E0 (rg E0 setup) = true /\ graph_len (rg E0 setup) = 4 /\
  graph_of E0 True (rg E0 dangling) /\ check_integrity E0 (rg E0 dangling) = false /\
  graph_of E0 True (rg E0 emptyset) /\ check_integrity E0 (rg E0 emptyset) = false /\
  graph_of E0r True (rg E0r dangling) /\ check_integrity E0r (rg E0r dangling) = true.
Proof.
  split; [apply (run_graph_of _ _ setup 0); [sides|computes]|]. split; [computes|]. split; [computes|].
  split; [apply (run_graph_of _ _ dangling 0); [sides|computes]|]. split; [computes|].
  split; [apply (run_graph_of _ _ emptyset 0); [sides|computes]|]. split; [computes|].
  split; [apply (run_graph_of _ _ dangling 0); [sides|computes]|]. computes.
Qed.

(** ** C56 *)
(** [extend] hands out consecutive new indices in iteration order, puts each node under
    its own, and changes nothing else of the transaction. *)
Theorem C56_extend :
  forall {D} (E : env) (T : Prop) cnt (t : trans D) L (l : list (node D)),
  open_trans E T cnt t L -> Forall (node_ok E) l -> (cnt + N.of_nat (length l) < usize_mod)%N ->
  exists t' is, trans_extend E l (cnt, t) = Done (cnt + N.of_nat (length l), t')%N is /\
    length is = length l /\
    (forall j i n, is !! j = Some i -> l !! j = Some n -> i = (cnt + 1 + N.of_nat j)%N /\ arena_get (t_inc t') i = Some n) /\
    (forall i n, i ∉ is -> arena_get (t_inc t') i = Some n <-> arena_get (t_inc t) i = Some n) /\
    (forall i, i ∈ t_alloc t' <-> i ∈ t_alloc t) /\
    t_dec t' = t_dec t /\ t_mut t' = t_mut t /\ t_upd t' = t_upd t /\ t_redir_all t' = t_redir_all t /\ t_redir t' = t_redir t.
Proof. intros. by eapply open_extend_holds. Qed.
Print Assumptions C56_extend.
(** It is the same as inserting the nodes one by one: the resulting transaction is open
    with the log of those inserts, so every theorem about inserts applies. *)
Theorem C56_extend_is_inserts :
  forall {D} (E : env) (T : Prop) cnt (t : trans D) L (l : list (node D)),
  open_trans E T cnt t L -> Forall (node_ok E) l -> (cnt + N.of_nat (length l) < usize_mod)%N ->
  exists t' is, trans_extend E l (cnt, t) = Done (cnt + N.of_nat (length l), t')%N is /\
    open_trans E T (cnt + N.of_nat (length l))%N t'
      (L ++ imap (fun j n => EvCall (cnt + 1 + N.of_nat j)%N (CInsert n)) l).
Proof. intros D E T cnt t L l Ho Hf Hc. destruct (open_extend E T cnt t L l Ho Hf Hc) as (t'&He&Ho'). eauto. Qed.
Print Assumptions C56_extend_is_inserts.
Definition C56_ops : list opn := setup ++ [ONewTrans 1 0; OInsert 1 (nB 0 [] 5) 5; OMutate 1 2 bump_mut]%N.
Definition C56_l : list (node nat) := [nA 5 [] [] 6; nB 6 [] 7; nA 7 [7] [] 8]%N.
Example C56_case :
  open_trans E0 True (ex_cnt E0 C56_ops 1) (ex_t E0 C56_ops 1) (ex_L E0 C56_ops 1) /\ Forall (node_ok E0) C56_l /\
  (ex_cnt E0 C56_ops 1 + N.of_nat (length C56_l) < usize_mod)%N /\
  match trans_extend E0 C56_l (ex_cnt E0 C56_ops 1, ex_t E0 C56_ops 1) with Done _ is => is | _ => [] end = [6; 7; 8]%N.
Proof.
  split; [apply run_open; [sides|computes]|]. split; [|split; computes].
  repeat constructor; apply node_okb_sound; computes.
Qed.

(** ** C57 *)
(** In a program all of whose mutates and updates are written with [mut_node!] and
    [update_node!], [iter_nodes!] never panics, yields every node of the variant exactly
    once and nothing else, and agrees with [get_node!]. *)
Theorem C57_typed_macros :
  forall {D} (E : env) (w : world (D:=D)) k c g, macro_reachable E w -> w_graphs w !! k = Some (c, g) -> forall v,
  exists l, iter_nodes g v = Ok l /\ NoDup l.*1 /\
    (forall i n, (i, n) ∈ l <-> graph_get g i = Some n /\ nvar n = v) /\
    (forall i n, (i, n) ∈ l <-> get_node g v i = Some n).
Proof. intros. by eapply macro_iter_nodes. Qed.
Print Assumptions C57_typed_macros.
(** [get_node!] for another variant gives nothing, and the node otherwise. *)
Theorem C57_get_node :
  forall {D} (g : graph D) v i n, get_node g v i = Some n <-> graph_get g i = Some n /\ nvar n = v.
Proof. intros. apply get_node_exact. Qed.
Print Assumptions C57_get_node.
Definition m57 : mut_fn nat := mut_node_closure 0 (fun x => Done ([LDirect 4; LSet SBTree []; LVec []], x.2)%N tt).
Definition u57 : upd_fn nat := update_node_closure 1 (fun x => Ok ([LDirect 2; LSet SHash [3]], x.2)%N).
Lemma m57_ok T : mut_ok E0 T m57.
Proof.
  intros n n' Hok. unfold m57, mut_node_closure. case_decide; [|done]. intros [= <-]. split; [|done].
  exists [KDirect; KSet SBTree; KVec]. split; [done|]. repeat constructor.
Qed.
Lemma u57_ok T : upd_ok E0 T u57.
Proof.
  intros n n' Hok. unfold u57, update_node_closure. case_decide; [|done]. intros [= <-]. split; [|done].
  exists [KDirect; KSet SHash]. split; [done|]. repeat constructor. set_solver.
Qed.
Lemma run_macro E os w w' : macro_reachable E w -> Forall (op_side E False) os -> Forall macro_op os ->
  run E w os = Some w' -> macro_reachable (D:=nat) E w'.
Proof.
  intros Hr Hs. revert w Hr. induction Hs as [|o os Ho _ IH]; intros w Hr Hm; cbn; [by intros [= <-]|].
  apply Forall_cons in Hm as [Hm Hms]. destruct (exec E w o) as [w1|] eqn:He; [|done]. apply IH; [|done].
  eapply mr_step; [done|done|]. by apply exec_step.
Qed.
Definition C57_ops : list opn := setup ++ [ONewTrans 1 0; OMutate 1 2 m57; OUpdate 1 4 u57; OCommit 0 1]%N.
Definition C57_w := match run E0 world_new C57_ops with Some w => w | None => world_new end.
Example C57_case : macro_reachable E0 C57_w /\ w_graphs C57_w !! 0 = Some (0, rg E0 C57_ops) /\
  graph_get (rg E0 C57_ops) 4%N = Some (nB 2 [3] 4)%N /\ graph_get (rg E0 C57_ops) 2%N = Some (nA 4 [] [] 2)%N /\
  (graph_iter_type (rg E0 C57_ops) 1).*1 = [1; 4]%N.
Proof.
  split; [|split; [computes|split; [computes|split; computes]]].
  eapply (run_macro E0 C57_ops world_new); [apply mr_new|..|computes].
  - unfold C57_ops, setup. cbn. repeat (constructor; [first [exact I|apply m57_ok|apply u57_ok]|]). constructor.
  - unfold C57_ops, setup. cbn. repeat (constructor; [first [exact I|unfold macro_op; eexists; eexists; reflexivity]|]). constructor.
Qed.

(** ** C58 *)
(** Registering and unregistering checks: for each of the three kinds a check is registered
    under a name iff the last call about that name (of that kind) inserted it. *)
Theorem C58_registry :
  forall {D} (os : list (gc_call D)) nm,
  (forall f, (nm, f) ∈ gc_node (gc_of os) <-> current (about_node nm) os = Some f) /\
  (forall f, (nm, f) ∈ gc_add (gc_of os) <-> current (about_add nm) os = Some f) /\
  (forall f, (nm, f) ∈ gc_rem (gc_of os) <-> current (about_rem nm) os = Some f).
Proof. intros. apply gc_of_exact. Qed.
Print Assumptions C58_registry.
(** The order of the calls does not matter otherwise: equal current checks give equal
    registries, so equal results of every [commit_checked]. *)
Theorem C58_order_irrelevant :
  forall {D} (E : env) (os os' : list (gc_call D)),
  (forall nm, current (about_node nm) os = current (about_node nm) os' /\
     current (about_add nm) os = current (about_add nm) os' /\ current (about_rem nm) os = current (about_rem nm) os') ->
  forall t g, commit_checked E t (gc_of os) g = commit_checked E t (gc_of os') g.
Proof. intros D E os os' H t g. by rewrite (gc_of_canonical os os' H). Qed.
Print Assumptions C58_order_irrelevant.
(** A passing [commit_checked]: every link-add check in force accepted every added link. *)
Theorem C58_checks_in_force :
  forall {D} (E : env) (T : Prop) (g : graph D) (t : trans D) (s : tspec D) os (g' : graph D),
  history E T g t s -> commit_checked E t (gc_of os) g = Done g' tt ->
  exists m m', nodes_are g m /\ sp_commit (ts_txn s) m m' /\
    forall nm chk x y l, current (about_add nm) os = Some chk -> nonvec E l -> in_nodes m' x y l -> ~ in_graph g x y l ->
      exists nx, graph_get g' x = Some nx /\ chk x y nx (graph_get g' y) = true.
Proof. intros. by eapply registry_checked. Qed.
Print Assumptions C58_checks_in_force.
Definition yes_chk : link_check (D:=nat) := fun _ _ _ ny => match ny with Some _ => true | None => false end.
Definition no_chk : link_check (D:=nat) := fun _ _ _ _ => false.
Definition C58_os : list (gc_call nat) :=
  [GInsAdd "b" no_chk; GInsAdd "a" yes_chk; GInsAdd "c" no_chk; GInsAdd "b" yes_chk; GDelAdd "c"; GInsNode "c" (fun _ _ => true)]%string.
Example C58_case : (gc_add (gc_of C58_os)).*1 = ["a"; "b"]%string /\ current (about_add "b"%string) C58_os = Some yes_chk /\
  current (about_add "c"%string) C58_os = None /\
  gc_of C58_os = gc_of [GInsNode "c" (fun _ _ => true); GInsAdd "b" yes_chk; GDelAdd "c"; GInsAdd "a" yes_chk]%string /\
  history E1 True (hg E1 bops) (ht E1 bops) (hs E1 bops) /\
  commit_checked E1 (ht E1 bops) (gc_of C58_os) (hg E1 bops) = Done (hc E1 bops) tt.
Proof. repeat (split; [first [computes|apply bops_hist]|]). computes. Qed.

(** ** C59: the link methods of a node value *)
Theorem C59_contains_link :
  forall {D} (E : env) (n : node D) l y, node_ok E n -> y <> 0%N -> contains_link n l y = true <-> has_link n l y.
Proof. intros. by apply (contains_link_iff E). Qed.
Print Assumptions C59_contains_link.
(** [iter_links] panics exactly on a link of another variant; it yields the non-empty
    entries of the field, in its order unless it is a HashSet. *)
Theorem C59_iter_links :
  forall {D} (E : env) (n : node D) l k, node_ok E n -> linkkind E l = Some k ->
  match iter_links E n l with
  | Ok ys => nvar n = l_var l /\
      (exists lv, nlinks n !! l_fld l = Some lv /\ nonempty ys ≡ₚ nonempty (lv_elems lv) /\
        (k <> KSet SHash -> nonempty ys = nonempty (lv_elems lv))) /\
      (forall y, y <> 0%N -> y ∈ ys <-> has_link n l y)
  | Err p => p = PMismatch /\ nvar n <> l_var l
  end.
Proof. intros. by apply iter_links_exact. Qed.
Print Assumptions C59_iter_links.
(** [check_link] tells exactly on which links [iter_links] does not panic; on the others
    nothing is found and nothing is changed. *)
Theorem C59_check_link :
  forall {D} (E : env) (n : node D) l k, node_ok E n -> linkkind E l = Some k ->
  (check_link n l = true <-> exists ys, iter_links E n l = Ok ys) /\
  (check_link n l = false -> forall y, contains_link n l y = false /\ add_link n l y = Ok (n, false) /\ remove_link n l y = Ok (n, false)).
Proof.
  intros D E n l k Hok Hk. pose proof (iter_links_exact E n l k Hok Hk) as Hi.
  unfold check_link, contains_link, add_link, remove_link. destruct (decide (nvar n = l_var l)) as [He|Hne].
  - rewrite bool_decide_eq_true_2 by done. split; [|done]. split; [intros _|done].
    destruct (iter_links E n l); [by eexists|]. destruct Hi as [_ Hi]. done.
  - rewrite bool_decide_eq_false_2 by done. split; [|done]. split; [done|].
    destruct (iter_links E n l); [|by intros [? ?]]. destruct Hi as [Hi _]. done.
Qed.
Print Assumptions C59_check_link.
Theorem C59_iter_sources :
  forall {D} (E : env) (n : node D), node_ok E n ->
  NoDup (iter_sources E n) /\
  forall l y, y <> 0%N -> (exists s, src_link s = l /\ (y, s) ∈ iter_sources E n) <-> has_link n l y.
Proof. intros. by apply iter_sources_exact. Qed.
Print Assumptions C59_iter_sources.
(** [add_link]: when it panics, what it returns, what it changes. *)
Theorem C59_add_link :
  forall {D} (E : env) (n : node D) l y k, node_ok E n -> linkkind E l = Some k -> y <> 0%N ->
  ((exists r, add_link n l y = Ok r) <->
     nvar n <> l_var l \/ k <> KVec /\ (k = KDirect -> forall z, has_link n l z -> z = y)) /\
  forall n' b, add_link n l y = Ok (n', b) ->
    node_ok E n' /\ nvar n' = nvar n /\ ndata n' = ndata n /\
    (b = true <-> nvar n = l_var l /\ ~ has_link n l y) /\
    forall l' z, has_link n' l' z <-> has_link n l' z \/ (nvar n = l_var l /\ l' = l /\ z = y).
Proof. intros. by apply add_link_exact. Qed.
Print Assumptions C59_add_link.
Theorem C59_remove_link :
  forall {D} (E : env) (n : node D) l y k, node_ok E n -> linkkind E l = Some k -> y <> 0%N ->
  ((exists r, remove_link n l y = Ok r) <-> nvar n <> l_var l \/ k <> KVec) /\
  forall n' b, remove_link n l y = Ok (n', b) ->
    node_ok E n' /\ nvar n' = nvar n /\ ndata n' = ndata n /\
    (b = true <-> has_link n l y) /\
    forall l' z, has_link n' l' z <-> has_link n l' z /\ ~ (l' = l /\ z = y).
Proof. intros. by eapply remove_link_exact. Qed.
Print Assumptions C59_remove_link.
(** [modify_link] replaces one occurrence: that one is gone, the new one is there, and the
    flags say so. *)
Theorem C59_modify_link :
  forall {D} (E : env) (n : node D) s old new, node_ok E n -> (old, s) ∈ iter_sources E n -> old <> 0%N -> old <> new ->
  exists n' added, modify_link n s old new = Ok (n', (true, added)) /\
    node_ok E n' /\ nvar n' = nvar n /\ ndata n' = ndata n /\
    (added = true <-> new <> 0%N /\ (new, s) ∉ iter_sources E n) /\
    forall z s', (z, s') ∈ iter_sources E n' <->
      (z, s') ∈ iter_sources E n /\ (z, s') <> (old, s) \/ (z, s') = (new, s) /\ new <> 0%N.
Proof. intros. by apply modify_link_exact. Qed.
Print Assumptions C59_modify_link.
(** [modify_link] at any source value of the schema, whatever is there: it panics exactly on
    a source of another variant or a position outside the Vec.  Otherwise what was at the
    source is replaced: in a set that is [old], in a direct link or a Vec entry it is
    whatever the field holds, [old] is not looked at. *)
Theorem C59_modify_any :
  forall {D} (E : env) (n : node D) s old new k, node_ok E n -> linkkind E (src_link s) = Some k -> (k = KVec <-> is_Some (s_pos s)) ->
  match modify_link n s old new with
  | Err p => p = PMismatch /\ nvar n <> s_var s \/
      p = PBounds /\ nvar n = s_var s /\
        exists pos l, s_pos s = Some pos /\ nlinks n !! s_fld s = Some (LVec l) /\ length l <= pos
  | Ok (n', (removed, added)) =>
      nvar n = s_var s /\ node_ok E n' /\ nvar n' = nvar n /\ ndata n' = ndata n /\
      (forall pos l, s_pos s = Some pos -> nlinks n !! s_fld s = Some (LVec l) -> pos < length l) /\
      (forall z s', (z, s') ∈ iter_sources E n' <->
         (z, s') ∈ iter_sources E n /\ ~ (s' = s /\ ((exists sk, k = KSet sk) -> z = old)) \/ (z, s') = (new, s) /\ new <> 0%N) /\
      (removed = true <-> exists z, (z, s) ∈ iter_sources E n /\
         ((exists sk, k = KSet sk) /\ z = old \/ (forall sk, k <> KSet sk) /\ z <> new)) /\
      (added = true <-> new <> 0%N /\ ((new, s) ∉ iter_sources E n \/ (exists sk, k = KSet sk) /\ new = old))
  end.
Proof. intros. by apply modify_link_any. Qed.
Print Assumptions C59_modify_any.
Example C59_modify_case : let n : node nat := (nA 4 [2; 7] [3; 0; 3] 1)%N in node_ok E0 n /\
  modify_link n (Src 0 0 None) 99%N 6%N = Ok (nA 6 [2; 7] [3; 0; 3] 1, (true, true))%N /\
  modify_link n (Src 0 1 None) 99%N 6%N = Ok (nA 4 [2; 6; 7] [3; 0; 3] 1, (false, true))%N /\
  modify_link n (Src 0 1 None) 7%N 7%N = Ok (n, (true, true)) /\
  modify_link n (Src 0 2 (Some 1)) 99%N 6%N = Ok (nA 4 [2; 7] [3; 6; 3] 1, (false, true))%N /\
  modify_link n (Src 0 2 (Some 3)) 3%N 6%N = Err PBounds /\
  modify_link n (Src 1 0 None) 4%N 6%N = Err PMismatch.
Proof. split; [apply node_okb_sound; computes|]. repeat (split; [computes|]). computes. Qed.
Definition C59_n : node nat := (nA 4 [2; 7] [3; 0; 3] 1)%N.
Example C59_case : node_ok E0 C59_n /\
  linkkind E0 (Link 0 1) = Some (KSet SBTree) /\ contains_link C59_n (Link 0 1) 7%N = true /\
  iter_links E0 C59_n (Link 0 2) = Ok [3; 3]%N /\ iter_links E0 C59_n (Link 1 0) = Err PMismatch /\
  add_link C59_n (Link 0 1) 5%N = Ok (nA 4 [2; 5; 7] [3; 0; 3] 1, true)%N /\
  add_link C59_n (Link 0 0) 5%N = Err PAddOccupied /\
  remove_link C59_n (Link 0 0) 4%N = Ok (nA 0 [2; 7] [3; 0; 3] 1, true)%N /\
  (3%N, Src 0 2 (Some 2)) ∈ iter_sources E0 C59_n /\
  modify_link C59_n (Src 0 2 (Some 2)) 3%N 9%N = Ok (nA 4 [2; 7] [3; 0; 9] 1, (true, true))%N.
Proof.
  split; [apply node_okb_sound; computes|]. repeat (split; [first [computes|apply elem_of_list_In; vm_compute; tauto]|]). computes.
Qed.
(** The empty index: [contains_link] finds it in sets and Vecs that hold it, so the first
    theorem needs its premise. *)
Theorem C59_contains_empty_refuted : exists (n : node nat) l, node_ok E0 n /\ contains_link n l 0%N = true /\ ~ has_link n l 0%N.
Proof.
  exists C59_n, (Link 0 2). split; [apply node_okb_sound; computes|]. split; [computes|]. by intros (?&_).
Qed.
Print Assumptions C59_contains_empty_refuted.

(** ** C30 *)
(** Exactly which checks decide, when the schema has no Vec links: [commit_checked] is
    [commit] followed by (1) the node checks on every node that gained or lost a link and
    (2) the link-add checks and the link-remove checks on every added link; if one of them
    fails, or a node of (1) is gone, it panics, with the commit done. *)
Theorem C30_checked_exact_partial :
  forall {D} (E : env) (T : Prop) (g : graph D) (t : trans D) (s : tspec D) (g' : graph D),
  history E T g t s -> (forall l, nonvec E l) -> commit E t g = Done g' tt ->
  exists m m', nodes_are g m /\ sp_commit (ts_txn s) m m' /\ forall c,
    (commit_checked E t c g = Done g' tt <->
      (forall nm chk x, (nm, chk) ∈ gc_node c ->
         (exists y l, in_nodes m' x y l /\ ~ in_graph g x y l \/ in_graph g x y l /\ ~ in_nodes m' x y l) ->
         exists nx, graph_get g' x = Some nx /\ chk x nx = true) /\
      (forall nm chk x y l, (nm, chk) ∈ gc_add c \/ (nm, chk) ∈ gc_rem c -> in_nodes m' x y l -> ~ in_graph g x y l ->
         exists nx, graph_get g' x = Some nx /\ chk x y nx (graph_get g' y) = true)) /\
    (commit_checked E t c g = Done g' tt \/ commit_checked E t c g = Panicked PCheckFailed g' \/ commit_checked E t c g = Panicked PUnwrap g').
Proof. intros. by eapply final_checked_exact. Qed.
Print Assumptions C30_checked_exact_partial.
Definition E30 : env := Env [[KDirect; KSet SBTree]; [KDirect; KSet SHash]] (fun _ => []) (fun _ _ => true) (fun _ l => l) true.
Definition nC (nxt : idx) (peers : list idx) (d : nat) : node nat := Node 0 [LDirect nxt; LSet SBTree peers] [("n"%string, d)].
Definition c30 : list opn :=
  [ONewCtx 7; ONewGraph 0 0; ONewTrans 0 0; OInsert 0 (nB 0 [] 1) 1; OInsert 0 (nC 1 [] 2) 2; OCommit 0 0;
   ONewTrans 1 0; OInsert 1 (nC 2 [1; 2] 3) 3; ORemove 1 2; OMutate 1 1 bump_mut]%N.
Lemma E30_nonvec l : nonvec E30 l.
Proof. destruct l as [[|[|]] [|[|]]]; vm_compute; discriminate. Qed.
Example C30_case2 :
  history E30 True (kg E30 c30 1) (kt E30 c30 1) (ks E30 c30 1) /\ (forall l, nonvec E30 l) /\
  commit E30 (kt E30 c30 1) (kg E30 c30 1) = Done (kc E30 c30 1) tt /\
  commit_checked E30 (kt E30 c30 1) (GraphCheck [] [("a"%string, yes_chk)] []) (kg E30 c30 1) = Done (kc E30 c30 1) tt /\
  commit_checked E30 (kt E30 c30 1) (GraphCheck [] [] [("r"%string, no_chk)]) (kg E30 c30 1) = Panicked PCheckFailed (kc E30 c30 1) /\
  commit_checked E30 (kt E30 c30 1) (GraphCheck [("n"%string, fun _ _ => true)] [] []) (kg E30 c30 1) = Panicked PUnwrap (kc E30 c30 1).
Proof. split; [hist|]. split; [apply E30_nonvec|]. repeat (split; [computes|]). computes. Qed.
