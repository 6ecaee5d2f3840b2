(** * Iteration order of whole histories *)
From Verif Require Export Order.

Section replay.
  Context {D : Type}.
  Implicit Types (o : op (D:=D)) (i : idx) (d k kg c : nat).

  (** What is needed to predict the order: of every transaction its context, the order
      of its new nodes per variant, its unfilled reservations, its queued updates and
      removals; of every graph the order per variant; of every context its counter. *)
  Record tord := TOrd { q_ctx : nat; q_new : nat -> list idx; q_res : list idx; q_upd : list idx; q_del : list idx }.
  Record orders := Orders { o_cnt : list idx; o_graph : nat -> nat -> list idx; o_trans : nat -> tord }.
  Definition orders_new : orders := Orders [] (fun _ _ => []) (fun _ => TOrd 0 (fun _ => []) [] [] []).

  Definition at_key {A} (f : nat -> A) k (v : A) : nat -> A := fun k' => if decide (k' = k) then v else f k'.
  Definition set_graph_ord (s : orders) kg (l : nat -> list idx) : orders :=
    Orders (o_cnt s) (at_key (o_graph s) kg l) (o_trans s).
  Definition set_trans_ord (s : orders) k (t : tord) : orders :=
    Orders (o_cnt s) (o_graph s) (at_key (o_trans s) k t).
  Definition set_cnt_ord (s : orders) c (i : idx) : orders := Orders (<[c := i]> (o_cnt s)) (o_graph s) (o_trans s).

  Definition add_new (t : tord) (v : nat) i : nat -> list idx :=
    fun d => q_new t d ++ (if decide (d = v) then [i] else []).
  (** [nv]: number of variants *)
  Definition is_new (nv : nat) (t : tord) i : bool := existsb (fun d => bool_decide (i ∈ q_new t d)) (seq 0 nv).

  Definition replay (nv : nat) (s : orders) o : orders :=
    match o with
    | ONewCtx _ => Orders (o_cnt s ++ [0%N]) (o_graph s) (o_trans s)
    | ONewGraph kg _ => set_graph_ord s kg (fun _ => [])
    | ONewTrans k c => set_trans_ord s k (TOrd c (fun _ => []) [] [] [])
    | OInsert k n i =>
      let t := o_trans s k in
      set_cnt_ord (set_trans_ord s k (TOrd (q_ctx t) (add_new t (nvar n) i) (q_res t) (q_upd t) (q_del t))) (q_ctx t) i
    | OAlloc k _ i | OAllocUntyped k i =>
      let t := o_trans s k in
      set_cnt_ord (set_trans_ord s k (TOrd (q_ctx t) (q_new t) (q_res t ++ [i]) (q_upd t) (q_del t))) (q_ctx t) i
    | OFill k i n | OFillUntyped k i n =>
      let t := o_trans s k in
      set_trans_ord s k (TOrd (q_ctx t) (add_new t (nvar n) i) (filter (fun j => j <> i) (q_res t)) (q_upd t) (q_del t))
    | ORemove k i =>
      let t := o_trans s k in
      set_trans_ord s k
        (if is_new nv t i then TOrd (q_ctx t) (fun d => take_out i (q_new t d)) (q_res t) (q_upd t) (q_del t)
         else if decide (i ∈ q_res t) then TOrd (q_ctx t) (q_new t) (filter (fun j => j <> i) (q_res t)) (q_upd t) (q_del t)
         else TOrd (q_ctx t) (q_new t) (q_res t) (q_upd t) (if decide (i ∈ q_del t) then q_del t else q_del t ++ [i]))
    | OUpdate k i _ =>
      let t := o_trans s k in
      set_trans_ord s k
        (if is_new nv t i then TOrd (q_ctx t) (fun d => touch i (q_new t d)) (q_res t) (q_upd t) (q_del t)
         else TOrd (q_ctx t) (q_new t) (q_res t) (q_upd t ++ [i]) (q_del t))
    | OMerge k kg =>
      let t := o_trans s k in
      set_trans_ord s k (TOrd (q_ctx t) (fun d => q_new t d ++ o_graph s kg d) (q_res t) (q_upd t) (q_del t))
    | OCommit kg k | OCommitChecked kg k _ =>
      let t := o_trans s k in
      set_graph_ord s kg (fun d =>
        fold_left (fun l x => take_out x l) (q_del t)
          (fold_left (fun l x => touch x l) (q_upd t) (o_graph s kg d ++ q_new t d)))
    | OSwitch kg c =>
      let cnt := default 0%N (o_cnt s !! c) in
      let before d := length (concat (o_graph s kg <$> seq 0 d)) in
      set_cnt_ord
        (set_graph_ord s kg (fun d => (fun j => (cnt + 1 + N.of_nat j)%N) <$> seq (before d) (length (o_graph s kg d))))
        c (cnt + N.of_nat (before nv))%N
    | ODeser kg gs =>
      Orders (o_cnt s ++ [foldr N.max 0%N (gs_nodes gs).*1])
        (at_key (o_graph s) kg (fun d => (filter (fun kv => nvar kv.2 = d) (gs_nodes gs)).*1)) (o_trans s)
    | OMutate _ _ _ | ORedirect _ _ _ | ORedirectAll _ _ _ | OGiveUp _ | ODropGraph _ | OCommitPanic _ _ _ => s
    end.

  (** the worlds a sequence of calls leads to *)
  Inductive runs (E : env) (T : Prop) : list (op (D:=D)) -> world (D:=D) -> Prop :=
  | runs_nil : runs E T [] world_new
  | runs_snoc os w o w' : runs E T os w -> step E T w o w' -> runs E T (os ++ [o]) w'.
  Lemma runs_reachable E T os w : runs E T os w -> reachable E T w.
  Proof. induction 1; [constructor|by econstructor]. Qed.
  Lemma reachable_runs E T w : reachable E T w -> exists os, runs E T os w.
  Proof. induction 1 as [|w o w' _ [os IH] Hs]; [exists []; constructor|]. exists (os ++ [o]). by econstructor. Qed.
  Definition no_caught_panic (os : list (op (D:=D))) : Prop := forall kg k p, OCommitPanic kg k p ∉ os.
  Definition no_switch (os : list (op (D:=D))) : Prop := forall kg c, OSwitch kg c ∉ os.
End replay.

Section orderhist.
  Context {D : Type} (E : env) (T : Prop).
  Implicit Types (T : Prop) (w : world (D:=D)) (g : graph D) (t : trans D) (s : orders).

  Let nv := length (e_kinds E).

  Record tsim s k c t : Prop := {
    ts_ctx : q_ctx (o_trans s k) = c;
    ts_ord : forall d, q_new (o_trans s k) d = korder (t_inc t) d;
    ts_rs : forall i, i ∈ q_res (o_trans s k) <-> i ∈ t_alloc t;
    ts_up : q_upd (o_trans s k) = (t_upd t).*1;
    ts_dl : q_del (o_trans s k) = t_dec t }.
  Record osim s w : Prop := {
    os_cnt : o_cnt s = (w_ctx w).*2;
    os_graph : forall kg c g, w_graphs w !! kg = Some (c, g) -> forall d, o_graph s kg d = korder (g_nodes g) d;
    os_trans : forall k c t, w_trans w !! k = Some (c, t) -> tsim s k c t }.

  Lemma is_new_contains s k c t i : trans_wf E T t \/ arena_ok E (t_inc t) -> tsim s k c t ->
    is_new nv (o_trans s k) i = arena_contains (t_inc t) i.
  Proof.
    intros Hok' Hs. assert (arena_ok E (t_inc t)) as Hok by (destruct Hok' as [[]|]; done).
    apply eq_true_iff_eq. rewrite arena_contains_get. unfold is_new. rewrite existsb_exists. split.
    - intros (d&_&Hd). apply bool_decide_eq_true in Hd. rewrite (ts_ord _ _ _ _ Hs) in Hd.
      apply elem_of_list_fmap in Hd as ([j n]&->&Hin). cbn. exists n. by apply (arena_get_cont E) in Hin as [? _].
    - intros [n Hn]. destruct (arena_get_inv _ _ _ Hn) as (d&Hd&Hc&Hg). exists d. split.
      + apply in_seq. apply lookup_lt_Some in Hc. destruct Hok as (_&Hl&_). unfold nv. lia.
      + apply bool_decide_eq_true. rewrite (ts_ord _ _ _ _ Hs). by eapply omap_get_Some_key.
  Qed.

  Lemma osim_set_t s w k c t tt :
    osim s w ->
    q_ctx tt = c -> (forall d, q_new tt d = korder (t_inc t) d) -> (forall i, i ∈ q_res tt <-> i ∈ t_alloc t) ->
    q_upd tt = (t_upd t).*1 -> q_del tt = t_dec t ->
    osim (set_trans_ord s k tt) (set_t w k (c, t)).
  Proof.
    intros [Hc Hg Ht] H1 H2 H3 H4 H5. split; [done|done|]. cbn. intros k' c' t'. destruct (decide (k' = k)) as [->|Hne].
    - rewrite lookup_insert. intros [= <- <-]. split; cbn; unfold at_key; by rewrite decide_True.
    - rewrite lookup_insert_ne by done. intros Hk. destruct (Ht k' c' t' Hk). split; cbn; unfold at_key; by rewrite decide_False.
  Qed.
  Lemma osim_set_g s w kg c g l :
    osim s w -> (forall d, l d = korder (g_nodes g) d) -> osim (set_graph_ord s kg l) (set_g w kg (c, g)).
  Proof.
    intros [Hc Hg Ht] H1. split; [done| |].
    - cbn. intros k' c' g'. unfold at_key. destruct (decide (k' = kg)) as [->|Hne].
      + rewrite lookup_insert. by intros [= <- <-].
      + rewrite lookup_insert_ne by done. apply Hg.
    - cbn. intros k' c' t' Hk. by destruct (Ht k' c' t' Hk).
  Qed.
  Lemma osim_set_cnt s w c u i : osim s w -> osim (set_cnt_ord s c i) (set_cnt w c u i).
  Proof.
    intros [Hc Hg Ht]. split; [|done|].
    - cbn. rewrite list_fmap_insert. by rewrite Hc.
    - cbn. intros k' c' t' Hk. by destruct (Ht k' c' t' Hk).
  Qed.
  Lemma osim_del_t s w k : osim s w -> osim s (del_t w k).
  Proof. intros [Hc Hg Ht]. split; [done|done|]. cbn. intros k' c' t' [_ Hk]%lookup_delete_Some. by apply Ht. Qed.
  Lemma osim_del_g s w k : osim s w -> osim s (del_g w k).
  Proof. intros [Hc Hg Ht]. split; [done| |done]. cbn. intros k' c' t' [_ Hk]%lookup_delete_Some. by eapply Hg. Qed.
  Lemma osim_app s w u i : osim s w ->
    osim (Orders (o_cnt s ++ [i]) (o_graph s) (o_trans s)) (World (w_ctx w ++ [(u, i)]) (w_graphs w) (w_trans w)).
  Proof.
    intros [Hc Hg Ht]. split; cbn; [by rewrite fmap_app, Hc|done|].
    intros k' c' t' Hk. by destruct (Ht k' c' t' Hk).
  Qed.

  Lemma same_order_switch bl m a : 
    wp (switch_relabel (D:=D) bl m) a (fun _ a' => same_ord E a a') (fun _ _ => True).
  Proof.
    apply (wp_mfor_simple _ _ (same_ord E a)); [done|].
    intros [i j] a1 _ Hs1. apply wp_bind, wp_unwrap; [|done]. intros es _.
    apply (wp_mfor_simple _ _ (same_ord E a)); [done|]. intros [y s] a2 _ Hs2.
    apply wp_bind, wp_unwrap; [|done]. intros y' _. apply wp_bind, wp_get, wp_bind, wp_unwrap; [|done].
    intros n2 Hn2. apply wp_bind, wp_lift; [|done]. intros [n' fl] Hm. apply wp_put.
    eapply same_trans; [done|]. by eapply same_set.
  Qed.
  Lemma rebuild_order ctx a g r : arena_ok E a -> rebuild E ctx a = Done (g, r) tt -> forall d, korder (g_nodes g) d = korder a d.
  Proof.
    intros Ha Hr d. unfold rebuild in Hr.
    assert (progP E (run! merge_nodes E a; do! (_, r) <- getM; apply_bidirectional_links E r) ([fun d l => l ++ korder a d] ++ []) (graph_new E ctx) lcr_new) as Hp.
    { apply progP_bind.
      - apply prog_merge; [apply arena_new_ok|done|]. intros i _. done.
      - intros _. apply keeps_prog. apply keeps_bind; [apply keeps_get|]. intros [g1 r1]. apply keeps_bidi. }
    unfold progP, wp in Hp. rewrite Hr in Hp. destruct Hp as [_ Ho]. cbn in Ho. rewrite Ho. unfold korder at 1.
    by rewrite cont_new.
  Qed.
  Lemma deser_order gs cnt g : (forall i n, (i, n) ∈ gs_nodes gs -> node_ok E n) -> deserialize_graph E gs = Ok (cnt, g) ->
    forall d, korder (g_nodes g) d = (filter (fun kv => nvar kv.2 = d) (gs_nodes gs)).*1.
  Proof.
    intros Hok Hd d. unfold deserialize_graph, do_deserialize in Hd. pose proof (arena_new_from_iter_spec E (gs_nodes gs) Hok) as Ha.
    destruct (arena_new_from_iter E (gs_nodes gs)) as [a []|p a]; [|done]. destruct Ha as [_ Hfi].
    destruct (rebuild E (gs_ctx gs) a) as [[g1 r] []|p [g1 r]] eqn:Hr; [|done]. injection Hd as _ ->.
    rewrite (rebuild_order _ _ _ _ (fi_ok _ _ _ Hfi) Hr). unfold korder. by rewrite (fi_cont _ _ _ Hfi).
  Qed.

  Lemma imap_app_plus {A B} (f : nat -> A -> B) l1 l2 : imap f (l1 ++ l2) = imap f l1 ++ imap (fun j => f (length l1 + j)) l2.
  Proof. apply imap_app. Qed.
  (** numbering the nodes of all variants in sequence *)
  Lemma number_order c (L : list (list (idx * node D))) : forall p b,
    (forall d l i n, L !! d = Some l -> (i, n) ∈ l -> nvar n = p + d) ->
    forall d, (filter (fun kv => nvar kv.2 = d) (imap (fun k (kv : idx * node D) => (newix c (b + k), kv.2)) (concat L))).*1 =
      if decide (p <= d) then newix c <$> seq (b + length (concat (take (d - p) L))) (length (default [] (L !! (d - p)))) else [].
  Proof.
    induction L as [|l L IH]; intros p b Hty d; cbn [concat].
    - cbn. by destruct (decide (p <= d)).
    - assert (forall l' b', (forall i n, (i, n) ∈ l' -> nvar n = p) ->
        (filter (fun kv => nvar kv.2 = d) (imap (fun k (kv : idx * node D) => (newix c (b' + k), kv.2)) l')).*1 =
        if decide (p = d) then newix c <$> seq b' (length l') else []) as Hl.
      { induction l' as [|[i n] l' IHl]; intros b' Hn; [cbn; by destruct (decide (p = d))|].
        rewrite imap_cons, filter_cons. cbn [snd]. rewrite (imap_ext _ (fun k (kv : idx * node D) => (newix c (S b' + k), kv.2))).
        2:{ intros k kv _. unfold compose. by rewrite Nat.add_succ_r. }
        specialize (IHl (S b') (fun i n H => Hn i n (elem_of_list_further _ _ _ H))).
        rewrite (Hn i n) by left. destruct (decide (p = d)).
        - rewrite fmap_cons, IHl, Nat.add_0_r. done.
        - done. }
      rewrite imap_app_plus, filter_app, fmap_app, Hl by (intros i n Hin; rewrite (Hty 0 l i n) by done; lia).
      rewrite (imap_ext _ (fun k (kv : idx * node D) => (newix c ((b + length l) + k), kv.2))).
      2:{ intros k kv _. cbn. by rewrite Nat.add_assoc. }
      rewrite (IH (S p)).
      2:{ intros d' l' i n Hd Hin. rewrite (Hty (S d') l' i n) by done. lia. }
      destruct (decide (p = d)) as [->|Hne].
      + rewrite (decide_False (P := S d <= d)), (decide_True (P := d <= d)) by lia. rewrite Nat.sub_diag. cbn. by rewrite app_nil_r, Nat.add_0_r.
      + destruct (decide (p <= d)) as [Hle|Hgt].
        * rewrite decide_True by lia. replace (d - p) with (S (d - S p)) by lia. cbn. rewrite app_length. by rewrite Nat.add_assoc.
        * by rewrite decide_False by lia.
  Qed.
  Lemma items_seq (a : arena D) : arena_ok E a -> forall d, concat (take d (a_cont a)) = concat (cont a <$> seq 0 d) \/ d > nv.
  Proof.
    intros (_&Hl&_) d. destruct (decide (d <= nv)) as [Hd|]; [left|right; lia]. f_equal.
    apply list_eq. intros j. rewrite list_lookup_fmap. destruct (decide (j < d)).
    - rewrite lookup_take, lookup_seq_lt by lia. cbn. unfold cont.
      destruct (lookup_lt_is_Some_2 (a_cont a) j) as [x ->]; [unfold nv in *; lia|done].
    - rewrite lookup_take_ge, lookup_seq_ge by lia. done.
  Qed.
  Lemma switch_order g u cnt cnt' g' : WF E g -> gtyped g -> (cnt + N.of_nat (length (graph_iter g)) < usize_mod)%N ->
    switch_context E g u cnt = Done cnt' g' ->
    cnt' = (cnt + N.of_nat (length (concat (korder (g_nodes g) <$> seq 0 nv))))%N /\
    forall d, korder (g_nodes g') d =
      newix cnt <$> seq (length (concat (korder (g_nodes g) <$> seq 0 d))) (length (korder (g_nodes g) d)).
  Proof.
    intros Hwf Hty Hroom Hsw. set (a := g_nodes g) in *.
    assert (forall d, length (concat (korder a <$> seq 0 d)) = length (concat (take d (a_cont a)))) as Hlen.
    { intros d. assert (forall d, length (concat (korder a <$> seq 0 d)) = length (concat (cont a <$> seq 0 d))) as Hf.
      { intros d'. generalize (seq 0 d'). intros l. induction l as [|x l IH]; cbn; [done|]. rewrite !app_length, IH.
        unfold korder. by rewrite fmap_length. }
      rewrite Hf. destruct (decide (d <= nv)) as [Hd|Hd].
      - destruct (items_seq a (wf_arena _ _ Hwf) d) as [->|]; [done|lia].
      - replace (take d (a_cont a)) with (take nv (a_cont a)).
        + destruct (items_seq a (wf_arena _ _ Hwf) nv) as [->|]; [|lia].
          replace d with (nv + (d - nv)) by lia. rewrite seq_app, fmap_app, concat_app, app_length. cbn.
          assert (length (concat (cont a <$> seq nv (d - nv))) = 0) as ->; [|lia].
          assert (forall b m, nv <= b -> length (concat (cont a <$> seq b m)) = 0) as Hz; [|by apply Hz].
          intros b m. revert b. induction m as [|m IH]; intros b Hb; cbn; [done|]. rewrite app_length, IH by lia.
          unfold cont. rewrite lookup_ge_None_2; [done|]. destruct (wf_arena _ _ Hwf) as (_&Hl&_). unfold nv in Hb. subst a. lia.
        + destruct (wf_arena _ _ Hwf) as (_&Hl&_). fold a in Hl. rewrite !take_ge; [done|unfold nv in *; lia|unfold nv in *; lia]. }
    pose proof (switch_context_wf E g u cnt Hwf Hroom) as Hc. rewrite Hsw in Hc. destruct Hc as (Hc&_). split.
    { rewrite Hlen. rewrite Hc. destruct (wf_arena _ _ Hwf) as (_&Hl&_). fold a in Hl. rewrite take_ge by (unfold nv; lia). done. }
    intros d. unfold switch_context in Hsw. 
    destruct (switch_insert_spec E (arena_items a) [] cnt (arena_new E)) as (a1&Ha1&Hin); [apply arena_new_ok|by apply arena_items_ok|done|by intros j [? ?]|].
    fold a in Hsw. rewrite Ha1 in Hsw.
    pose proof (same_order_switch (g_back g) (switch_map (arena_items a) cnt []) a1) as Hr. unfold wp in Hr.
    destruct (switch_relabel (g_back g) (switch_map (arena_items a) cnt []) a1) as [a2 []|]; [|done].
    destruct (rebuild E u a2) as [[g1 r] []|p [g1 r]] eqn:Hrb; [|done].
    pose proof (check_link_type_state E r g1) as Hk. destruct (check_link_type E r g1) as [g2 []|]; [|done]. subst g2. injection Hsw as _ ->.
    rewrite (rebuild_order _ _ _ _ (so_ok _ _ _ Hr (in_ok _ _ _ _ _ Hin)) Hrb), (so_ord _ _ _ Hr). unfold korder at 1.
    rewrite (in_cont _ _ _ _ _ Hin), cont_new. cbn [app]. rewrite Hlen. unfold arena_items.
    pose proof (number_order cnt (a_cont a) 0 0) as Hn. cbn [Nat.add] in Hn. rewrite Hn.
    - rewrite decide_True, Nat.sub_0_r by lia. f_equal. f_equal. unfold korder. by rewrite fmap_length.
    - intros d' l i n Hl Hil. assert ((i, n) ∈ cont a d') as Hi by (unfold cont; by rewrite Hl).
      destruct (arena_get_cont E a i n d' (wf_arena _ _ Hwf) Hi) as [H1 H2]. by apply (Hty i n d').
  Qed.

  Lemma elem_oset_del (i j : idx) l : NoDup l -> i ∈ oset_del j l <-> i ∈ filter (fun x => x <> j) l.
  Proof.
    intros Hnd. rewrite elem_of_list_filter. destruct (decide (j ∈ l)) as [Hj|Hj].
    - destruct (swap_del_perm (fun y => y = j) l) as (z&->&_&Hp); [by exists j|]. unfold oset_del.
      set (l' := swap_del _ l) in *. clearbody l'. rewrite Hp in Hnd. apply NoDup_cons in Hnd as [Hn _]. split.
      + intros Hi. split; [by intros ->|]. rewrite Hp. by right.
      + rewrite Hp, elem_of_cons. intros [? [?|?]]; done.
    - unfold oset_del. rewrite swap_del_none by (by intros a Ha ->). split; [|by intros [_ ?]].
      intros Hi. split; [by intros ->|done].
  Qed.
  Lemma orun_maps (l1 l2 : list idx) d l :
    orun (((fun x _ => touch x) <$> l1) ++ ((fun x _ => take_out x) <$> l2)) d l =
    fold_left (fun l x => take_out x l) l2 (fold_left (fun l x => touch x l) l1 l).
  Proof.
    rewrite orun_app. unfold orun. revert l. induction l1 as [|x l1 IH]; intros l; cbn; [|apply IH].
    revert l. induction l2 as [|x l2 IH]; intros l; cbn; [done|apply IH].
  Qed.

  Lemma osim_commit s w kg k c t g g' : inv E T w -> osim s w -> w_trans w !! k = Some (c, t) -> w_graphs w !! kg = Some (c, g) ->
    commit E t g = Done g' tt -> osim (replay nv s (OCommit (D:=D) kg k)) (set_g (del_t w k) kg (c, g')).
  Proof.
    intros Hinv Hs Hk Hkg Hc. destruct (inv_trans_ok E T w kg k c g t Hinv Hkg Hk) as (Hwf&_&Hok&_).
    pose proof (commit_order E T t g Hwf Hok) as Ho. rewrite Hc in Ho.
    apply osim_set_g; [by apply osim_del_t|]. intros d. pose proof (os_trans _ _ Hs k c t Hk) as Ht.
    rewrite (os_graph _ _ Hs kg c g Hkg d), (ts_ord _ _ _ _ Ht d), (ts_up _ _ _ _ Ht), (ts_dl _ _ _ _ Ht).
    etransitivity; [|symmetry; exact (Ho d)]. unfold commit_steps. rewrite <- (orun_maps _ _ d). done.
  Qed.

  Lemma osim_step s w o w' : reachable E T w -> osim s w -> step E T w o w' -> (forall kg k p, o <> OCommitPanic kg k p) ->
    T \/ (forall kg c, o <> OSwitch kg c) -> osim (replay nv s o) w'.
  Proof.
    intros Hr Hs Hst Hnp Hsw. pose proof (reachable_inv E T w Hr) as Hinv.
    destruct Hst; cbn [replay].
    - by apply osim_app.
    - apply osim_set_g; [done|]. intros d. unfold korder. cbn. by rewrite cont_new.
    - apply osim_set_t; try done. intros d. unfold korder. cbn. by rewrite cont_new.
    - pose proof (os_trans _ _ Hs k c t H) as Ht. destruct (iv_trans _ _ _ Hinv k c t H) as [Hwf _].
      assert (i = cnt' /\ exists a', arena_put E (t_inc t) i n a' /\ t' = with_inc t a') as (->&a'&Hp&->).
      { unfold trans_insert in H3. destruct (arena_insert_spec E cnt (t_inc t) n (tw_inc _ _ _ Hwf)) as (a'&Ha&Hp); [done|done| |].
        - apply eq_None_not_Some. intros Hd. assert (cnt + 1 <= cnt)%N; [|lia].
          apply (inv_bound E T w k c t u cnt Hinv H H0). by left.
        - rewrite Ha in H3. injection H3 as <- <- <-. split; [done|]. by exists a'. }
      rewrite (ts_ctx _ _ _ _ Ht). apply osim_set_cnt. apply osim_set_t; try done; cbn; try (first [apply (ts_ord _ _ _ _ Ht)|apply (ts_ctx _ _ _ _ Ht)|apply (ts_rs _ _ _ _ Ht)|apply (ts_up _ _ _ _ Ht)|apply (ts_dl _ _ _ _ Ht)]).
      + intros d. unfold add_new. rewrite (order_put E _ _ _ _ d Hp), (ts_ord _ _ _ _ Ht). done.
    - pose proof (os_trans _ _ Hs k c t H) as Ht. unfold trans_alloc, arena_alloc in H2. rewrite dist_alloc_ok in H2 by done.
      destruct (arena_dispatch (t_inc t) (cnt + 1)%N); [done|]. injection H2 as <- <- <-. rewrite (ts_ctx _ _ _ _ Ht).
      apply osim_set_cnt. apply osim_set_t; try done; cbn; try (first [apply (ts_ord _ _ _ _ Ht)|apply (ts_ctx _ _ _ _ Ht)|apply (ts_rs _ _ _ _ Ht)|apply (ts_up _ _ _ _ Ht)|apply (ts_dl _ _ _ _ Ht)]). intros i. rewrite elem_of_app, elem_of_list_singleton, (ts_rs _ _ _ _ Ht).
      unfold oset_insert. case_decide; [set_solver|]. rewrite elem_of_app, elem_of_list_singleton. done.
    - pose proof (os_trans _ _ Hs k c t H) as Ht. unfold trans_alloc_untyped, arena_alloc_untyped in H2. rewrite dist_alloc_ok in H2 by done.
      injection H2 as <- <- <-. rewrite (ts_ctx _ _ _ _ Ht).
      apply osim_set_cnt. apply osim_set_t; try done; cbn; try (first [apply (ts_ord _ _ _ _ Ht)|apply (ts_ctx _ _ _ _ Ht)|apply (ts_rs _ _ _ _ Ht)|apply (ts_up _ _ _ _ Ht)|apply (ts_dl _ _ _ _ Ht)]). intros i. rewrite elem_of_app, elem_of_list_singleton, (ts_rs _ _ _ _ Ht).
      unfold oset_insert. case_decide; [set_solver|]. rewrite elem_of_app, elem_of_list_singleton. done.
    - pose proof (os_trans _ _ Hs k c t H) as Ht. destruct (iv_trans _ _ _ Hinv k c t H) as [Hwf _].
      unfold trans_fill_back in H1. pose proof (arena_fill_back_spec E (t_inc t) i n (tw_inc _ _ _ Hwf) H0) as Hf.
      destruct (arena_fill_back i n (t_inc t)) as [a' []|]; [|done]. injection H1 as <-. destruct Hf as (_&_&Hp).
      apply osim_set_t; try done; cbn; try (first [apply (ts_ord _ _ _ _ Ht)|apply (ts_ctx _ _ _ _ Ht)|apply (ts_rs _ _ _ _ Ht)|apply (ts_up _ _ _ _ Ht)|apply (ts_dl _ _ _ _ Ht)]).
      + intros d. unfold add_new. rewrite (order_put E _ _ _ _ d Hp), (ts_ord _ _ _ _ Ht). done.
      + intros j. rewrite elem_oset_del by apply Hwf. rewrite !elem_of_list_filter. by rewrite (ts_rs _ _ _ _ Ht).
    - pose proof (os_trans _ _ Hs k c t H) as Ht. destruct (iv_trans _ _ _ Hinv k c t H) as [Hwf _].
      unfold trans_fill_back_untyped in H2.
      destruct (arena_fill_back_untyped_spec E (t_inc t) i n (tw_inc _ _ _ Hwf) H0) as (a'&Ha&Hp); [by eapply tw_alloc|].
      rewrite Ha in H2. injection H2 as <-.
      apply osim_set_t; try done; cbn; try (first [apply (ts_ord _ _ _ _ Ht)|apply (ts_ctx _ _ _ _ Ht)|apply (ts_rs _ _ _ _ Ht)|apply (ts_up _ _ _ _ Ht)|apply (ts_dl _ _ _ _ Ht)]).
      + intros d. unfold add_new. rewrite (order_put E _ _ _ _ d Hp), (ts_ord _ _ _ _ Ht). done.
      + intros j. rewrite elem_oset_del by apply Hwf. rewrite !elem_of_list_filter. by rewrite (ts_rs _ _ _ _ Ht).
    - pose proof (os_trans _ _ Hs k c t H) as Ht. destruct (iv_trans _ _ _ Hinv k c t H) as [Hwf _].
      rewrite (is_new_contains s k c t i) by auto. unfold trans_remove.
      pose proof (fun d => order_remove E (t_inc t) i d (tw_inc _ _ _ Hwf)) as Ho. pose proof (arena_remove_result (t_inc t) i) as Hrs.
      destruct (arena_remove (t_inc t) i) as [a' o]. cbn in Ho, Hrs. subst o.
      destruct (arena_contains (t_inc t) i) eqn:Hc.
      + apply arena_contains_get in Hc as [n Hn]. rewrite Hn. apply osim_set_t; try done; cbn; try (first [apply (ts_ord _ _ _ _ Ht)|apply (ts_ctx _ _ _ _ Ht)|apply (ts_rs _ _ _ _ Ht)|apply (ts_up _ _ _ _ Ht)|apply (ts_dl _ _ _ _ Ht)]).
        intros d. by rewrite Ho, (ts_ord _ _ _ _ Ht).
      + apply arena_contains_false in Hc. rewrite Hc.
        assert (forall d, q_new (o_trans s k) d = korder a' d) as Ho'.
        { intros d. rewrite Ho, (ts_ord _ _ _ _ Ht), take_out_notin; [done|].
          intros ([j n]&->&Hin)%elem_of_list_fmap. apply (arena_get_cont E) in Hin as [Hin _]; [|apply Hwf]. cbn in Hc. congruence. }
        destruct (decide (i ∈ t_alloc t)) as [Hi|Hi].
        * rewrite decide_True by by apply (ts_rs _ _ _ _ Ht). apply osim_set_t; try done; cbn; try (first [apply (ts_ord _ _ _ _ Ht)|apply (ts_ctx _ _ _ _ Ht)|apply (ts_rs _ _ _ _ Ht)|apply (ts_up _ _ _ _ Ht)|apply (ts_dl _ _ _ _ Ht)]).
          intros j. rewrite elem_oset_del by apply Hwf. rewrite !elem_of_list_filter. by rewrite (ts_rs _ _ _ _ Ht).
        * rewrite decide_False by by rewrite (ts_rs _ _ _ _ Ht). apply osim_set_t; try done; cbn; try (first [apply (ts_ord _ _ _ _ Ht)|apply (ts_ctx _ _ _ _ Ht)|apply (ts_rs _ _ _ _ Ht)|apply (ts_up _ _ _ _ Ht)|apply (ts_dl _ _ _ _ Ht)]).
          rewrite (ts_dl _ _ _ _ Ht). done.
    - pose proof (os_trans _ _ Hs k c t H) as Ht.
      assert (tsim s k c t') as [].
      { unfold trans_mutate in H1. destruct (arena_contains (t_inc t) i); [|injection H1 as <-; split; apply Ht].
        destruct (arena_get (t_inc t) i) as [n|] eqn:Hn; [|done]. destruct (f n) as [n' []|]; [|done]. injection H1 as <-.
        split; cbn; try apply Ht. intros d. rewrite (so_ord _ _ _ (same_set E _ _ _ n' Hn)). apply Ht. }
      destruct Hs as [Hc Hg Htt]. split; [done|done|]. cbn. intros k' c' t0. destruct (decide (k' = k)) as [->|Hne].
      + rewrite lookup_insert. by intros [= <- <-].
      + rewrite lookup_insert_ne by done. apply Htt.
    - pose proof (os_trans _ _ Hs k c t H) as Ht. destruct (iv_trans _ _ _ Hinv k c t H) as [Hwf _].
      rewrite (is_new_contains s k c t i) by auto. unfold trans_update in H1. destruct (arena_contains (t_inc t) i).
      + pose proof (fun d => order_update E (t_inc t) i f d (tw_inc _ _ _ Hwf)) as Ho.
        destruct (arena_update_with i f (t_inc t)) as [a' []|]; [|done]. injection H1 as <-.
        apply osim_set_t; try done; cbn; try (first [apply (ts_ord _ _ _ _ Ht)|apply (ts_ctx _ _ _ _ Ht)|apply (ts_rs _ _ _ _ Ht)|apply (ts_up _ _ _ _ Ht)|apply (ts_dl _ _ _ _ Ht)]). intros d. by rewrite Ho, (ts_ord _ _ _ _ Ht).
      + injection H1 as <-. apply osim_set_t; try done; cbn; try (first [apply (ts_ord _ _ _ _ Ht)|apply (ts_ctx _ _ _ _ Ht)|apply (ts_rs _ _ _ _ Ht)|apply (ts_up _ _ _ _ Ht)|apply (ts_dl _ _ _ _ Ht)]). by rewrite fmap_app, (ts_up _ _ _ _ Ht).
    - pose proof (os_trans _ _ Hs k c t H) as Ht. destruct Hs as [Hc Hg Htt]. split; [done|done|]. cbn. intros k' c' t0.
      destruct (decide (k' = k)) as [->|Hne].
      + rewrite lookup_insert. intros [= <- <-]. split; apply Ht.
      + rewrite lookup_insert_ne by done. apply Htt.
    - pose proof (os_trans _ _ Hs k c t H) as Ht. destruct Hs as [Hc Hg Htt]. split; [done|done|]. cbn. intros k' c' t0.
      destruct (decide (k' = k)) as [->|Hne].
      + rewrite lookup_insert. intros [= <- <-]. split; apply Ht.
      + rewrite lookup_insert_ne by done. apply Htt.
    - pose proof (os_trans _ _ Hs k c t H) as Ht. pose proof (inv_trans_ok E T w kg k c g t Hinv H0 H) as (Hwf&_&Hok&_).
      apply osim_del_g. unfold trans_merge in H1. destruct (_ =? _)%N; [|done]. injection H1 as <-.
      apply osim_set_t; try done; cbn; try (first [apply (ts_ord _ _ _ _ Ht)|apply (ts_ctx _ _ _ _ Ht)|apply (ts_rs _ _ _ _ Ht)|apply (ts_up _ _ _ _ Ht)|apply (ts_dl _ _ _ _ Ht)]). intros d. rewrite (os_graph _ _ Hs kg c g H0), (ts_ord _ _ _ _ Ht).
      symmetry. apply (order_merge E); [apply Hok|apply Hwf|]. intros i [x Hi].
      destruct (arena_dispatch (t_inc t) i) as [y|] eqn:Hti; [|done]. exfalso.
      pose proof (to_disj _ _ _ _ Hok i) as Hdj. rewrite Hdj in Hi; [done|by rewrite Hti].
    - by apply osim_del_t.
    - by apply osim_del_g.
    - by apply (osim_commit s w kg k c t g g').
    - apply (osim_commit s w kg k c t g g'); try done. by eapply commit_checked_commit.
    - by destruct (Hnp kg k p).
    - destruct (iv_graph _ _ _ Hinv kg c0 g H) as (Hwf&Hty&_). destruct Hsw as [HT|Hsw]; [|by destruct (Hsw kg c)]. destruct (switch_order g u cnt cnt' g' Hwf (Hty HT) H1 H2) as [-> Ho].
      assert (o_cnt s !! c = Some cnt) as Hcnt by (rewrite (os_cnt _ _ Hs), list_lookup_fmap, H0; done).
      rewrite Hcnt. cbn [default]. 
      assert (forall d, o_graph s kg <$> seq 0 d = korder (g_nodes g) <$> seq 0 d) as Hx.
      { intros d. apply list_fmap_ext. intros _ x _. by apply (os_graph _ _ Hs kg c0). }
      rewrite Hx. apply osim_set_cnt. apply osim_set_g; [done|]. intros d. rewrite Ho, Hx, (os_graph _ _ Hs kg c0 g H). done.
    - assert (cnt = foldr N.max 0%N (gs_nodes s0).*1) as ->.
      { unfold deserialize_graph in H0. destruct (do_deserialize E (gs_ctx s0) (gs_nodes s0)); [|done]. injection H0 as <- _.
        unfold dist_from_count. apply fold_symmetric; intros; lia. }
      pose proof (osim_app s w (gs_ctx s0) (foldr N.max 0%N (gs_nodes s0).*1) Hs) as Ha.
      apply (osim_set_g _ _ kg (length (w_ctx w)) g (fun d => (filter (fun kv => nvar kv.2 = d) (gs_nodes s0)).*1)) in Ha; [exact Ha|].
      intros d. symmetry. eapply deser_order; [|done]. intros i n Hin. by apply (H i n).
  Qed.

  (** the order is a function of the calls *)
  Theorem order_replayed os w : runs E T os w -> no_caught_panic os -> T \/ no_switch os -> osim (fold_left (replay nv) os orders_new) w.
  Proof.
    induction 1 as [|os w o w' Hr IH Hs]; intros Hn Hw.
    - split; [done|..]; intros ? ? ? [=].
    - rewrite fold_left_app. cbn. apply (osim_step _ w); [by eapply runs_reachable| |done| |].
      + apply IH; [|destruct Hw as [?|Hw]; [by left|right]]; intros kg k; [intros p|]; intros Hin; [apply (Hn kg k p)|apply (Hw kg k)]; apply elem_of_app; by left.
      + intros kg k p ->. apply (Hn kg k p). apply elem_of_app. right. left.
      + destruct Hw as [?|Hw]; [by left|right]. intros kg c ->. apply (Hw kg c). apply elem_of_app. right. left.
  Qed.
End orderhist.
