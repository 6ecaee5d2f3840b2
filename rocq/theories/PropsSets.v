(** * The order inside a set link: C75

    A set link lists its members in an order a program can see, except a HashSet.  The
    descriptions [removed_from], [added_to], [set_moved] and [set_moves] (SetOrder.v) say what
    [remove] and [insert] of the set types do to that order without using the functions of
    the model. *)
From stdpp Require Export gmap.
From Verif Require Import SetOrder Api ExHist ExTrans PropsBidi PropsFindings.

(** In every graph a BTreeSet link is listed in increasing order. *)
Theorem C75_btree_increasing :
  forall {D} (E : env) (T : Prop) (g : graph D) i n f k l,
  graph_of E T g -> graph_get g i = Some n -> nlinks n !! f = Some (LSet k l) -> st_kind k = SBTree ->
  forall a x b y, l = a ++ x :: b -> y ∈ b -> (x < y)%N.
Proof.
  intros D E T g i n f k l Hg Hi Hf Hk a x b y -> Hy. destruct (graph_of_ok E _ _ Hg) as (Hwf&_).
  destruct (node_ok_rep E n f k _ (wf_nodes _ _ Hwf i n Hi) Hf) as [_ Hs]. specialize (Hs Hk). clear Hf.
  induction a as [|z r IH]; cbn in *; inversion Hs as [|? ? Hs' HF]; subst.
  - rewrite Forall_forall in HF. by apply HF.
  - by apply IH.
Qed.
Print Assumptions C75_btree_increasing.

(** A committed transaction moves the members of a set link of an existing node like this:
    first the redirect_links calls in call order, then the redirect_all_links calls, then the
    removals. *)
Theorem C75_existing_node :
  forall {D} (E : env) (T : Prop) (g : graph D) (t : trans D) (s : tspec D) g' i n f k l,
  history E T g t s -> commit E t g = Done g' tt -> graph_get g i = Some n -> untouched s i ->
  nlinks n !! f = Some (LSet k l) -> ~ declared E (Link (nvar n) f) ->
  exists n' l' res1 res2, graph_get g' i = Some n' /\ nlinks n' !! f = Some (LSet k l') /\
    redir_resolved (ts_redir s) res1 /\ redir_resolved (ts_redir_all s) res2 /\
    set_moves (st_kind k) (res1 ++ res2 ++ ((fun x => (x, 0%N)) <$> ts_del s)) l l'.
Proof. intros. by eapply final_moves_old. Qed.
Print Assumptions C75_existing_node.

(** ... and of a node of the transaction like this. *)
Theorem C75_new_node :
  forall {D} (E : env) (T : Prop) (g : graph D) (t : trans D) (s : tspec D) g' i n f k l,
  history E T g t s -> commit E t g = Done g' tt -> ts_new s !! i = Some n -> untouched s i ->
  nlinks n !! f = Some (LSet k l) -> ~ declared E (Link (nvar n) f) ->
  exists n' l' res, graph_get g' i = Some n' /\ nlinks n' !! f = Some (LSet k l') /\
    redir_resolved (ts_redir_all s) res /\ set_moves (st_kind k) (res ++ ((fun x => (x, 0%N)) <$> ts_del s)) l l'.
Proof. intros. by eapply final_moves_new. Qed.
Print Assumptions C75_new_node.

(** The two theorems above leave one result: the resolved calls are determined, and so is
    what they do to a set. *)
Theorem C75_one_result :
  forall {D} (E : env) (T : Prop) (g : graph D) i n f k l,
  graph_of E T g -> graph_get g i = Some n -> nlinks n !! f = Some (LSet k l) ->
  (forall reps res res', redir_resolved reps res -> redir_resolved reps res' -> res = res') /\
  (forall ms l1 l2, set_moves (st_kind k) ms l l1 -> set_moves (st_kind k) ms l l2 -> l1 = l2).
Proof.
  intros D E T g i n f k l Hg Hi Hf. destruct (graph_of_ok E _ _ Hg) as (Hwf&_). split.
  - intros. by eapply redir_resolved_det.
  - intros ms l1 l2. apply moves_det. eapply (node_ok_rep E); [|done]. by apply (wf_nodes _ _ Hwf i).
Qed.
Print Assumptions C75_one_result.

(** An OrderSet keeps the order of the members that stay, and puts the new ones behind them
    in call order. *)
Theorem C75_order_set_keeps_order :
  forall {D} (E : env) (T : Prop) (g : graph D) (t : trans D) (s : tspec D) g' i n f k l,
  history E T g t s -> commit E t g = Done g' tt -> graph_get g i = Some n -> untouched s i ->
  nlinks n !! f = Some (LSet k l) -> st_kind k = SOrder -> ~ declared E (Link (nvar n) f) ->
  exists n' tail res1 res2, graph_get g' i = Some n' /\
    nlinks n' !! f = Some (LSet k (filter (fun y => y ∉ (ts_redir s).*1 ++ (ts_redir_all s).*1 ++ ts_del s) l ++ tail)) /\
    redir_resolved (ts_redir s) res1 /\ redir_resolved (ts_redir_all s) res2 /\ sublist tail (res1.*2 ++ res2.*2).
Proof.
  intros D E T g t s g' i n f k l Hh Hc Hi Hu Hf Hk Hb.
  destruct (final_moves_old E T g t s Hh g' i n f k l Hc Hi Hu Hf Hb) as (n'&l'&res1&res2&Hg'&Hf'&Hr1&Hr2&Hm).
  rewrite Hk in Hm. destruct (history_ok _ _ _ _ _ Hh) as (Hwf&_).
  apply moves_order in Hm as (_&tail&Ht&->&H0); [|by eapply (node_ok_set E); [by apply (wf_nodes _ _ Hwf i)|done]].
  exists n', tail, res1, res2. split; [done|]. split; [|split; [done|]; split; [done|]].
  - rewrite Hf'. do 3 f_equal. apply list_filter_iff. intros y. rewrite !fmap_app, (resolved_keys _ _ Hr1), (resolved_keys _ _ Hr2).
    by rewrite <- list_fmap_compose, list_fmap_id.
  - rewrite !fmap_app in Ht. revert Ht H0. rewrite app_assoc, <- list_fmap_compose. generalize (res1.*2 ++ res2.*2). intros L Ht H0.
    apply sublist_app_r in Ht as (t1&t2&->&Ht1&Ht2). destruct t2 as [|z t2]; [by rewrite app_nil_r|].
    exfalso. apply H0, elem_of_app. right. apply elem_of_cons. left.
    assert (z ∈ (snd ∘ (fun x : N => (x, 0%N))) <$> ts_del s) as Hz.
    { eapply elem_of_submseteq; [|by apply sublist_submseteq]. left. }
    apply elem_of_list_fmap in Hz as (?&->&_). done.
Qed.
Print Assumptions C75_order_set_keeps_order.

(** The generated functions on nodes. *)
Theorem C75_node_functions :
  forall {D} (E : env) (n : node D) f k l x y, node_ok E n -> nlinks n !! f = Some (LSet k l) ->
  (exists b l', add_link n (Link (nvar n) f) x = Ok (set_field n f (LSet k l'), b) /\ added_to (st_kind k) x l l') /\
  (exists b l', remove_link n (Link (nvar n) f) x = Ok (set_field n f (LSet k l'), b) /\ removed_from (st_kind k) x l l') /\
  (exists b l1 l', modify_link n (Src (nvar n) f None) x y = Ok (set_field n f (LSet k l'), b) /\
     removed_from (st_kind k) x l l1 /\ (if decide (y = 0%N) then l' = l1 else added_to (st_kind k) y l1 l')).
Proof.
  intros D E n f k l x y Hok Hf. pose proof (node_ok_rep E n f k l Hok Hf) as Hr.
  pose proof (set_remove_removed k x l (set_rep_nd _ _ Hr)) as Hrm.
  unfold add_link, remove_link, modify_link. cbn. rewrite !decide_True by done. rewrite Hf. split; [|split].
  - do 2 eexists. split; [done|]. by apply set_insert_added.
  - do 2 eexists. split; [done|]. done.
  - destruct (N.eqb_spec y 0) as [->|Hy]; do 3 eexists; (split; [done|]); (split; [done|]).
    + done.
    + rewrite decide_False by done. apply set_insert_added. by apply set_remove_rep.
Qed.
Print Assumptions C75_node_functions.

(** One variant with an OrderSet, an IndexSet and a BTreeSet.  Node 5 holds 1, 2, 3, 4 in
    each (the first two listed 3, 1, 4, 2); 1 is redirected to 6 and 3 removed. *)
Definition E75 : env := Env [[KSet SOrder; KSet SIndex; KSet SBTree]] (fun _ => []) (fun _ _ => true) (fun _ l => l) true.
Definition n75 (a b c : list idx) : node nat := Node 0 [LSet SOrder a; LSet SIndex b; LSet SBTree c] [].
Definition e75 : list opn :=
  [ONewCtx 7; ONewGraph 0 0; ONewTrans 0 0; OInsert 0 (n75 [] [] []) 1; OInsert 0 (n75 [] [] []) 2; OInsert 0 (n75 [] [] []) 3;
   OInsert 0 (n75 [] [] []) 4; OInsert 0 (n75 [3; 1; 4; 2] [3; 1; 4; 2] [1; 2; 3; 4]) 5; OInsert 0 (n75 [] [] []) 6; OCommit 0 0;
   ONewTrans 1 0; ORedirect 1 1 6; ORemove 1 3]%N.
Example C75_case :
  history E75 True (kg E75 e75 1) (kt E75 e75 1) (ks E75 e75 1) /\ (forall l, ~ declared E75 l) /\ untouched (ks E75 e75 1) 5%N /\
  commit E75 (kt E75 e75 1) (kg E75 e75 1) = Done (kc E75 e75 1) tt /\
  (ts_redir (ks E75 e75 1), ts_del (ks E75 e75 1)) = ([(1, 6)], [3])%N /\
  graph_get (kg E75 e75 1) 5%N = Some (n75 [3; 1; 4; 2] [3; 1; 4; 2] [1; 2; 3; 4])%N /\
  graph_get (kc E75 e75 1) 5%N = Some (n75 [4; 2; 6] [6; 2; 4] [2; 4; 6])%N.
Proof.
  split; [hist|]. split; [intros l [k Hk]; by apply elem_of_nil in Hk|].
  split; [split; [|split]; apply (proj1 (bool_decide_eq_true _)); computes|].
  split; [computes|]. split; [computes|]. split; computes.
Qed.

(** An IndexSet does not keep the order of the members that stay: removing node 3 puts the
    last member where 3 was. *)
Theorem C75_index_set_swaps :
  exists (g : graph nat) t s g' i n n' f k l l', history E75 True g t s /\ commit E75 t g = Done g' tt /\
    (ts_redir s, ts_redir_all s, ts_del s) = ([], [], [3%N]) /\ graph_get g i = Some n /\ graph_get g' i = Some n' /\
    untouched s i /\ ~ declared E75 (Link (nvar n) f) /\ st_kind k = SIndex /\
    nlinks n !! f = Some (LSet k l) /\ nlinks n' !! f = Some (LSet k l') /\
    l = [3; 1; 4; 2]%N /\ l' = [2; 1; 4]%N.
Proof.
  set (os := take 11 e75 ++ [ORemove 1 3%N]).
  exists (kg E75 os 1), (kt E75 os 1), (ks E75 os 1), (kc E75 os 1), 5%N, (n75 [3; 1; 4; 2] [3; 1; 4; 2] [1; 2; 3; 4])%N,
    (n75 [1; 4; 2] [2; 1; 4] [1; 2; 4])%N, 1, (SIndex : settype), [3; 1; 4; 2]%N, [2; 1; 4]%N.
  split; [hist|]. do 2 (split; [computes|]). do 2 (split; [computes|]).
  split; [split; [|split]; apply (proj1 (bool_decide_eq_true _)); computes|].
  split; [intros [k Hk]; by apply elem_of_nil in Hk|]. done.
Qed.
Print Assumptions C75_index_set_swaps.
