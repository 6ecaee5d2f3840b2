(** * The abstract machine with [switch_context], [commit_checked] and the iteration order

    The machine of [MachineBidi.v] with the iteration order of every graph (what [replay] of
    [OrderHist.v] computes from the calls alone).  With the order it can also renumber a
    graph, and it makes checked commits.  Only going on after a caught panic is left out. *)
From stdpp Require Export gmap.
From Verif Require Export MachineBidi OrderHist.

(** the [k]-th node in the order gets the [k]-th new index *)
Definition renumber (ord : list idx) (c x : idx) : idx :=
  match list_find (fun y => y = x) ord with Some (k, _) => (c + 1 + N.of_nat k)%N | None => x end.
(** [z] comes after [x] *)
Definition later (ord : list idx) (x z : idx) : Prop := exists i j, i < j /\ ord !! i = Some x /\ ord !! j = Some z.
(** a link value with new indices: the link of a set to [x] is lost if the new index of [x]
    was in the same set and belonged to a later node *)
Definition lv_moved (ord : list idx) (f : idx -> idx) (lv lv' : linkval) : Prop :=
  match lv, lv' with
  | LDirect x, LDirect x' => x' = f x
  | LSet k l, LSet k' l' => k' = k /\ NoDup l' /\
      forall z, z ∈ l' <-> exists x, x ∈ l /\ z = f x /\ ~ (f x ∈ l /\ later ord x (f x))
  | LVec l, LVec l' => l' = f <$> l
  | _, _ => False
  end.
Definition node_moved {D} (ord : list idx) (f : idx -> idx) (n n' : node D) : Prop :=
  nvar n' = nvar n /\ ndata n' = ndata n /\ length (nlinks n') = length (nlinks n) /\
  forall fld lv, nlinks n !! fld = Some lv -> exists lv', nlinks n' !! fld = Some lv' /\ lv_moved ord f lv lv'.
(** the nodes of [m] with new indices *)
Definition moved_entries {D} (m : gmap N (node D)) (ord : list idx) (c : idx) (L : list (idx * node D)) : Prop :=
  NoDup L.*1 /\
  (forall x n, m !! x = Some n -> exists n', (renumber ord c x, n') ∈ L /\ node_moved ord (renumber ord c) n n') /\
  (forall j n', (j, n') ∈ L -> exists x n, m !! x = Some n /\ j = renumber ord c x /\ node_moved ord (renumber ord c) n n').

Section moved.
  Context {D : Type}.
  Implicit Types (m : gmap N (node D)) (n : node D) (L : list (idx * node D)) (g : graph D).

  Lemma renumber_new g c x : renumber (graph_iter g).*1 c x = new_index g c x.
  Proof.
    unfold renumber, new_index. rewrite list_find_fmap.
    change (list_find ((fun y => y = x) ∘ fst) (graph_iter g)) with (list_find (fun kv : idx * node D => kv.1 = x) (graph_iter g)).
    by destruct (list_find _ _) as [[k [? ?]]|].
  Qed.
  Lemma node_moved_switched g f f' n n' : (forall x, f x = f' x) -> node_moved (graph_iter g).*1 f n n' <-> node_switched g f' n n'.
  Proof.
    intros Hf. assert (forall lv lv', lv_moved (graph_iter g).*1 f lv lv' <-> lv_switched g f' lv lv') as Hlv.
    { intros lv lv'. destruct lv as [x|k l|l], lv' as [x'|k' l'|l']; cbn; try done.
      - by rewrite Hf.
      - setoid_rewrite Hf. done.
      - by rewrite (list_fmap_ext f f' l) by (intros; apply Hf). }
    unfold node_moved, node_switched. by setoid_rewrite Hlv.
  Qed.
  Lemma moved_switched g m c L : nodes_are g m -> moved_entries m (graph_iter g).*1 c L <-> switched_entries g c L.
  Proof.
    intros Hm.
    assert (forall n n', node_moved (graph_iter g).*1 (renumber (graph_iter g).*1 c) n n' <-> node_switched g (new_index g c) n n') as Hn.
    { intros n n'. apply node_moved_switched. intros x. apply renumber_new. }
    unfold moved_entries, switched_entries. setoid_rewrite Hn. setoid_rewrite renumber_new. by setoid_rewrite Hm.
  Qed.

  Lemma lv_moved_alike ord f lv1 lv2 lv1' lv2' : lv_alike lv1 lv2 -> lv_moved ord f lv1 lv1' -> lv_moved ord f lv2 lv2' -> lv_alike lv1' lv2'.
  Proof.
    destruct lv1 as [x|k l|l], lv2 as [x2|k2 l2|l2]; cbn; try done; destruct lv1' as [x'|k' l'|l'], lv2' as [x2'|k2' l2'|l2']; cbn; try done.
    - congruence.
    - intros [Hk Hp] (->&Hnd&H) (->&Hnd2&H2). split; [done|]. apply NoDup_Permutation; [done..|]. intros z. rewrite H, H2. by setoid_rewrite Hp.
    - congruence.
  Qed.
  Lemma node_moved_alike ord f n1 n2 n1' n2' : alike n1 n2 -> node_moved ord f n1 n1' -> node_moved ord f n2 n2' -> alike n1' n2'.
  Proof.
    intros (Hv&Hd&HF) (Hv1&Hd1&Hl1&H1) (Hv2&Hd2&Hl2&H2). split; [congruence|]. split; [congruence|].
    apply Forall2_same_length_lookup. pose proof (Forall2_length _ _ _ HF) as Hlen. split; [congruence|].
    intros fld a b Ha Hb.
    destruct (lookup_lt_is_Some_2 (nlinks n1) fld) as [lv1 E1]. { rewrite <- Hl1. by eapply lookup_lt_Some. }
    destruct (lookup_lt_is_Some_2 (nlinks n2) fld) as [lv2 E2]. { rewrite <- Hl2. by eapply lookup_lt_Some. }
    destruct (H1 fld lv1 E1) as (a'&Ha'&Hma), (H2 fld lv2 E2) as (b'&Hb'&Hmb).
    assert (a' = a) as -> by congruence. assert (b' = b) as -> by congruence.
    eapply lv_moved_alike; [|done|done]. by eapply Forall2_lookup_lr.
  Qed.
  Lemma moved_alike m1 m2 ord c L1 L2 : malike m1 m2 -> moved_entries m1 ord c L1 -> moved_entries m2 ord c L2 ->
    malike (list_to_map L1) (list_to_map L2).
  Proof.
    assert (forall m1 m2 L1 L2 j n1, malike m1 m2 -> moved_entries m1 ord c L1 -> moved_entries m2 ord c L2 -> (j, n1) ∈ L1 ->
      exists n2, (j, n2) ∈ L2 /\ alike n1 n2) as Hone.
    { clear. intros m1 m2 L1 L2 j n1 Hm (_&_&Hb) (_&Hf&_) Hj. destruct (Hb j n1 Hj) as (x&n&Hx&->&Hn).
      specialize (Hm x). rewrite Hx in Hm. apply o2_r in Hm as (n'&Hx'&Hal). destruct (Hf x n' Hx') as (n2&Hn2&Hmv).
      exists n2. split; [done|]. by eapply node_moved_alike. }
    intros Hm H1 H2 j. destruct (list_to_map L1 !! j) as [n1|] eqn:E1.
    - apply elem_of_list_to_map_2 in E1. destruct (Hone m1 m2 L1 L2 j n1 Hm H1 H2 E1) as (n2&Hn2&Hal).
      rewrite (elem_of_list_to_map_1 L2 j n2) by (done || apply H2). by constructor.
    - apply not_elem_of_list_to_map_2 in E1. rewrite not_elem_of_list_to_map_1; [constructor|].
      intros ([j' n2]&->&Hin)%elem_of_list_fmap. apply E1. cbn. apply malike_sym in Hm.
      destruct (Hone m2 m1 L2 L1 j' n2 Hm H2 H1 Hin) as (n1&Hn1&_). apply elem_of_list_fmap. by exists (j', n1).
  Qed.
End moved.

(** ** Lists of entries that are alike *)
Section entries.
  Context {D : Type} (E : env).
  Implicit Types (L : list (idx * node D)).
  Definition entries_typed L : Prop := forall x y l ny, entry_link L x y l -> (y, ny) ∈ L -> e_chk E (nvar ny) l = true.

  Context (L1 L2 : list (idx * node D)) (Hnd1 : NoDup L1.*1) (Hnd2 : NoDup L2.*1) (Hal : malike (list_to_map L1) (list_to_map L2)).
  Lemma entry_in L x y l : NoDup L.*1 -> entry_link L x y l <-> in_nodes (list_to_map L) x y l.
  Proof.
    intros Hnd. unfold entry_link, in_nodes. by setoid_rewrite (elem_of_list_to_map L x).
  Qed.
  Lemma entry_link_alike x y l : entry_link L1 x y l <-> entry_link L2 x y l.
  Proof using Hnd1 Hnd2 Hal. rewrite !entry_in by done. by apply malike_link. Qed.
  Lemma entry_node x n : (x, n) ∈ L1 -> exists n', (x, n') ∈ L2 /\ alike n n'.
  Proof using Hnd1 Hal.
    intros Hx. pose proof (Hal x) as H. rewrite (elem_of_list_to_map_1 L1 x n) in H by done. apply o2_r in H as (n'&Hn'&Ha).
    exists n'. split; [by apply elem_of_list_to_map_2|done].
  Qed.
  Lemma completed_alike_1 a b k : completed E L1 a b k -> completed E L2 a b k.
  Proof using Hnd1 Hnd2 Hal.
    intros [H|(l&na&H&Hin&Hop)]; [left; by apply entry_link_alike|right]. destruct (entry_node a na Hin) as (nb&Hin'&Ha).
    exists l, nb. split; [by apply entry_link_alike|]. split; [done|]. by rewrite <- (proj1 Ha).
  Qed.
End entries.
Section entries2.
  Context {D : Type} (E : env).
  Context (L1 L2 : list (idx * node D)) (Hnd1 : NoDup L1.*1) (Hnd2 : NoDup L2.*1) (Hal : malike (list_to_map L1) (list_to_map L2)).
  Lemma completed_alike a b k : completed E L1 a b k <-> completed E L2 a b k.
  Proof using Hnd1 Hnd2 Hal. split; apply completed_alike_1; try done. by apply malike_sym. Qed.
  Lemma unclaimed_alike : unclaimed E L1 -> unclaimed E L2.
  Proof using Hnd1 Hnd2 Hal.
    intros H x y l ny k Hx Hy Hop Hk z Hz. pose proof (malike_sym _ _ Hal) as Hal'.
    destruct (entry_node L2 L1 Hnd2 Hal' y ny Hy) as (my&Hy'&Ha). eapply (H x y l my k); [|done| |done|].
    - by apply (entry_link_alike L1 L2). - by rewrite <- (proj1 Ha). - by apply completed_alike.
  Qed.
  Lemma entries_typed_alike : entries_typed E L1 -> entries_typed E L2.
  Proof using Hnd1 Hnd2 Hal.
    intros H x y l ny Hx Hy. pose proof (malike_sym _ _ Hal) as Hal'.
    destruct (entry_node L2 L1 Hnd2 Hal' y ny Hy) as (my&Hy'&Ha). rewrite (proj1 Ha). apply (H x y l my); [|done].
    by apply (entry_link_alike L1 L2).
  Qed.
End entries2.

Section machine.
  Context {D : Type} (E : env) (T : Prop).
  Implicit Types (m : gmap N (node D)) (n : node D) (L : list (idx * node D)) (a b : aworld (D:=D)) (s : orders).

  (** what [commit_checked] checks (C30) if the commit asks for [m'] and leaves [m2]: the
      changes are those that were asked for, the checks see the nodes that are left *)
  Definition m_checks m m' m2 (c : graph_check D) : Prop :=
    (forall nm chk x, (nm, chk) ∈ gc_node c -> (exists y l, m_added m m' x y l \/ m_dropped m m' x y l) ->
       exists nx, m2 !! x = Some nx /\ chk x nx = true) /\
    (forall nm chk x y l, (nm, chk) ∈ gc_add c \/ (nm, chk) ∈ gc_rem c -> m_added m m' x y l ->
       exists nx, m2 !! x = Some nx /\ chk x y nx (m2 !! y) = true).
  (** checks that look at sets as sets *)
  Definition check_same (c : graph_check D) : Prop :=
    (forall nm chk x n n', (nm, chk) ∈ gc_node c -> alike n n' -> chk x n = chk x n') /\
    (forall nm chk x y n n' o o', (nm, chk) ∈ gc_add c \/ (nm, chk) ∈ gc_rem c -> alike n n' -> option_Forall2 alike o o' ->
       chk x y n o = chk x y n' o').

  (** the iteration order of graph [kg]: variant by variant *)
  Definition order_of s (kg : nat) : list idx := concat (o_graph s kg <$> seq 0 (length (e_kinds E))).

  Inductive cstep a s : op (D:=D) -> aworld (D:=D) -> Prop :=
  | cs_plain o a' : bstep E T a o a' -> cstep a s o a'
  | cs_checked kg k chk c t A m' m2 : (forall l, nonvec E l) -> aw_trans a !! k = Some (c, t) -> aw_graphs a !! kg = Some (c, A) ->
      ts_res t = ∅ -> commit_listed (ts_txn t) (ag_nodes A) (ag_known A) ->
      sp_commit (ts_txn t) (ag_nodes A) m' -> new_links_typed E (ag_nodes A) m' -> m_unclaimed E (ag_nodes A) m' ->
      maintained E m' m2 (m_mirrored E (ag_nodes A) m') -> m_checks (ag_nodes A) m' m2 chk ->
      cstep a s (OCommitChecked kg k chk)
        (AW (aw_ctx a) (<[kg := (c, AG m2 (l_commit (ts_txn t) (ag_known A)))]> (aw_graphs a)) (delete k (aw_trans a)))
  | cs_switch kg c c0 A u cnt L m2 : aw_graphs a !! kg = Some (c0, A) -> aw_ctx a !! c = Some (u, cnt) ->
      (cnt + N.of_nat (length (order_of s kg)) < usize_mod)%N -> moved_entries (ag_nodes A) (order_of s kg) cnt L ->
      entries_typed E L -> unclaimed E L -> maintained E (list_to_map L) m2 (completed E L) ->
      cstep a s (OSwitch kg c)
        (AW (<[c := (u, cnt + N.of_nat (length (order_of s kg)))%N]> (aw_ctx a)) (<[kg := (c, AG m2 (known_in L))]> (aw_graphs a)) (aw_trans a)).

  Inductive cruns : list (op (D:=D)) -> aworld (D:=D) -> orders -> Prop :=
  | cruns_nil : cruns [] aw_new orders_new
  | cruns_snoc os a s o a' : cruns os a s -> cstep a s o a' -> cruns (os ++ [o]) a' (replay (length (e_kinds E)) s o).

  (** the calls of the machine *)
  Definition any_op (o : op (D:=D)) : Prop :=
    match o with
    | OCommitPanic _ _ _ => False
    | OCommitChecked _ _ c => (forall l, nonvec E l) /\ check_same c
    | _ => True
    end.

  Context (Hdb : e_dbg E = true) (Hbf : bidi_fields E) (Hone : forall l v, length (opposites_on E l v) <= 1)
    (Hck : forall v l, e_chk E v l = false -> nonvec E l).
  Local Lemma Hnv' : forall l k, k ∈ e_opp E l -> nonvec E l.
  Proof using Hbf. intros l k Hk. by eapply Hbf. Qed.

  (** ** switch_context *)
  Lemma switch_kept (g : graph D) u c c' g' : graph_of E T g -> (c + N.of_nat (length (graph_iter g)) < usize_mod)%N ->
    switch_context E g u c = Done c' g' ->
    c' = (c + N.of_nat (length (graph_iter g)))%N /\
    exists L, switched_entries g c L /\ entries_typed E L /\ unclaimed E L /\ maintained E (list_to_map L) (gmap_of g') (completed E L).
  Proof using Hbf.
    intros Hg Hroom Hd. pose proof Hnv' as Hnv.
    destruct (switch_prepared E T g u c Hg Hroom) as (a&[Hok Hok2 Hsome Honly]&Heq). rewrite Heq in Hd. clear Heq.
    assert (forall x n, arena_get a x = Some n <-> (x, n) ∈ arena_items a) as Hit by (intros; by apply (arena_get_items E)).
    assert (NoDup (arena_items a).*1) as Hnd by by apply (arena_items_NoDup E).
    set (L := arena_items a) in *. pose proof (rebuild_spec E u a Hok Hok2) as Hrb.
    destruct (merge_nodes_all E a (graph_new E u) lcr_new eq_refl) as (g1'&r'&Hm'&Hall).
    pose proof (merged_spec E u a (fun _ _ => False) Hok Hok2) as Hmg'. unfold wp in Hmg'. rewrite Hm' in Hmg'.
    destruct (rebuild E u a) as [[g2 r] []|p [g2 r0]] eqn:Hr; [|done]. destruct Hrb as (g1&Hrb). pose proof Hrb as [Hmg Hwf Hfr Hln _].
    assert (r = r') as ->.
    { unfold rebuild, bindM in Hr. rewrite Hm' in Hr. unfold getM in Hr.
      pose proof (apply_bidirectional_links_wp E r' g1' r' (mg_wf _ _ _ _ _ Hmg')) as Hw. unfold wp in Hw. rewrite Hr in Hw. by destruct Hw as [-> _]. }
    pose proof (check_link_type_spec E r' g2) as Hcs. destruct (check_link_type E r' g2) as [g3 []|p g3]; [|done].
    destruct Hcs as [-> Hcs]. injection Hd as <- <-. split; [done|]. exists L.
    assert (forall i, option_Forall2 (agree_nonbidi E) (graph_get g1 i) (graph_get g2 i)) as Hag.
    { eapply bframe_agree; [done|]. intros j k (x&l&_&Hk). by exists l. }
    assert (forall y n, (y, n) ∈ L -> exists n', graph_get g2 y = Some n' /\ agree_nonbidi E n n') as Hfwd.
    { intros y n Hy. rewrite <- (am_entry E _ _ _ _ _ Hmg Hit) in Hy. specialize (Hag y). rewrite Hy in Hag.
      inversion Hag as [? n' Hn Heq|]; subst. eauto. }
    assert (forall x y k, in_graph g2 x y k <-> completed E L x y k) as Hcp.
    { intros x y k. rewrite <- (am_completed E _ _ _ _ _ Hmg Hit) by done. apply Hln. }
    assert (nodes_are g2 (gmap_of g2)) as Hn2. { intros i. by rewrite (gmap_of_get E). }
    split; [|split; [|split; [|split]]].
    - split; [done|]. split.
      + intros x n Hx. destruct (Hsome x n Hx) as (n'&Hn'&Hrl). exists n'. by rewrite <- Hit.
      + intros j n' Hj%Hit. by apply Honly.
    - intros x y l ny (n&Hn&Hl) Hy. destruct (Hfwd y ny Hy) as (ny'&Hy'&Hv&_). rewrite <- Hv.
      apply (Hcs x y l ny'); [exact (Hall x n y l Hn Hl)|exact Hy'].
    - intros x y l ny k Hl Hy Hopp Hk z Hz.
      assert (in_graph g2 y z k) as (n1&Hg1&Hl1) by by apply Hcp.
      assert (in_graph g2 y x k) as (n2&Hg2&Hl2). { apply Hcp. right. by exists l, ny. }
      assert (n2 = n1) as -> by congruence. destruct (wf_nodes _ _ Hwf y n1 Hg1) as (ks&Hks&HF).
      destruct Hl1 as (_&Hv1&lv&Hlv&Hin1), Hl2 as (_&_&lv2&Hlv2&Hin2). assert (lv2 = lv) as -> by congruence.
      destruct (Forall2_lookup_r _ _ _ _ _ HF Hlv) as (kd&Hkd&[Hko _]).
      unfold linkkind in Hk. rewrite <- Hv1, Hks in Hk. cbn in Hk. assert (kd = KDirect) as -> by congruence.
      destruct lv; cbn in Hko; try done. cbn in Hin1, Hin2. apply elem_of_list_singleton in Hin1, Hin2. congruence.
    - intros i. assert (list_to_map L !! i = graph_get g1 i) as ->.
      { apply option_eq. intros n. rewrite (am_entry E _ _ _ _ _ Hmg Hit). by rewrite elem_of_list_to_map. }
      specialize (Hag i). rewrite (gmap_of_get E) by done. destruct (graph_get g1 i) as [b|] eqn:Eb.
      + apply o2_r in Hag as (n&En&Hn1). rewrite En. constructor. split; [by apply (wf_nodes _ _ Hwf i)|]. split; [done|].
        intros s0. by apply (bfr_zero _ _ _ Hfr i).
      + apply o2_none in Hag. rewrite Hag. constructor.
    - intros x y k. by rewrite <- (in_graph_iff g2 _ Hn2).
  Qed.
  Lemma moved_alike_g (g : graph D) c L1 L2 : graph_of E T g -> switched_entries g c L1 -> switched_entries g c L2 ->
    malike (list_to_map L1) (list_to_map L2).
  Proof.
    intros Hg H1 H2. destruct (graph_of_ok E _ _ Hg) as (Hwf&_).
    assert (nodes_are g (gmap_of g)) as Hn. { intros i. by rewrite (gmap_of_get E). }
    apply (moved_switched g _ c L1 Hn) in H1. apply (moved_switched g _ c L2 Hn) in H2.
    eapply moved_alike; [|exact H1|exact H2]. intros i. destruct (_ !! i); constructor. apply alike_refl.
  Qed.
  Lemma switch_goes (g : graph D) u c L : graph_of E T g -> (c + N.of_nat (length (graph_iter g)) < usize_mod)%N ->
    switched_entries g c L -> entries_typed E L -> unclaimed E L -> exists c' g', switch_context E g u c = Done c' g'.
  Proof using Hbf Hone.
    intros Hg Hroom HL Hty Hun. destruct (final_switch_bidi E T g u c Hg Hbf Hroom) as (L'&HL'&Hsw).
    destruct (switch_context E g u c) as [c' g'|p c']; [eauto|exfalso].
    pose proof (moved_alike_g g c L L' Hg HL HL') as Hal. pose proof (proj1 HL) as Hnd. pose proof (proj1 HL') as Hnd'.
    apply (entries_typed_alike E L L') in Hty; [|done..]. apply (unclaimed_alike E L L') in Hun; [|done..].
    destruct Hsw as (_&x&y&l&ny&Hl&Hy&[[_ Hf]|[(_&Hlen&_)|(_&k&z&Hop&Hk&Hz&Hcp)]]).
    - rewrite (Hty x y l ny Hl Hy) in Hf. done.
    - pose proof (Hone l (nvar ny)). lia.
    - apply Hz. by eapply (Hun x y l ny k).
  Qed.

  Lemma order_iter s w kg c (g : graph D) : arena_ok E (g_nodes g) -> osim s w -> w_graphs w !! kg = Some (c, g) ->
    order_of s kg = (graph_iter g).*1.
  Proof.
    intros Hok Hs Hg. unfold order_of, graph_iter, arena_items.
    destruct (items_seq E (g_nodes g) Hok (length (e_kinds E))) as [Heq|]; [|lia].
    rewrite take_ge in Heq by (destruct Hok as (_&Hl&_); lia). rewrite Heq.
    rewrite (list_fmap_ext (o_graph s kg) (korder (g_nodes g))) by (intros; by eapply os_graph).
    generalize (seq 0 (length (e_kinds E))). intros l. induction l as [|d l IH]; cbn; [done|]. by rewrite fmap_app, IH.
  Qed.
  (** ** Commits *)
  Lemma fwd_commit_bidi w lg a kg k c t g g' : lreach E T w lg -> sim E T w lg a -> w_trans w !! k = Some (c, t) -> w_graphs w !! kg = Some (c, g) ->
    commit E t g = Done g' tt ->
    exists x A m', aw_trans a !! k = Some (c, x) /\ aw_graphs a !! kg = Some (c, A) /\ history E T g t x /\ gmap_of g = ag_nodes A /\
      ts_res x = ∅ /\ commit_listed (ts_txn x) (ag_nodes A) (ag_known A) /\ sp_commit (ts_txn x) (ag_nodes A) m' /\ new_links_typed E (ag_nodes A) m' /\
      m_unclaimed E (ag_nodes A) m' /\ maintained E m' (gmap_of g') (m_mirrored E (ag_nodes A) m') /\
      sim E T (set_g (del_t w k) kg (c, g')) lg
        (AW (aw_ctx a) (<[kg := (c, AG (gmap_of g') (l_commit (ts_txn x) (ag_known A)))]> (aw_graphs a)) (delete k (aw_trans a))).
  Proof using Hdb Hbf Hone Hck.
    intros Hl Hs Ht Hg Hcm. destruct (history_in E T w lg kg k c g t Hl) as (x&Hh&Hlg); [done|done|].
    destruct (sim_t E T w lg a k c t Hl Hs) as (s1&u&cnt&Ha&Hlg'&_); [done|]. assert (s1 = x) as -> by congruence.
    destruct (sim_g E T w lg a kg c g Hs) as (A&HA&Hm&HB); [done|].
    destruct (proj1 (commit_iff' E T Hdb Hbf Hone Hck g t x (ag_known A) Hh HB)) as (Hres&Hcl&Hty); [eauto|].
    destruct (MachineBidi.commit_kept E T Hbf g t x g' Hh) as (m'&Hsp&Hmt); [done|]. destruct (Hty m' Hsp) as [Hty1 Hun].
    rewrite Hm in *. exists x, A, m'. do 10 (split; [by auto|]).
    refine (sim_set_g E T _ _ (AW (aw_ctx a) (aw_graphs a) (delete k (aw_trans a))) _ _ _ _ _ _ _); [by apply sim_del_t|done|].
    by eapply kn_commit.
  Qed.
  Lemma checked_bidi g t x g' m' c : history E T g t x -> (forall l, nonvec E l) -> commit E t g = Done g' tt ->
    sp_commit (ts_txn x) (gmap_of g) m' -> commit_checked E t c g = Done g' tt <-> m_checks (gmap_of g) m' (gmap_of g') c.
  Proof.
    intros Hh Hv Hc Hsp. destruct (final_checked_exact E T g t x g' Hh Hv Hc) as (m1&m1'&Hm1&Hsp1&H).
    pose proof (history_nodes E T g t x Hh) as Hm.
    assert (m1 = gmap_of g) as ->. { apply map_eq. intros j. by rewrite (Hm1 j), (Hm j). }
    assert (m1' = m') as -> by by eapply sp_commit_det. rewrite (proj1 (H c)).
    destruct (history_ok E T g t x Hh) as (Hwf&Hty&Ht&_).
    destruct (commit_done E T g t Hwf Hty Ht g' Hc) as (_&g1&r&m1&Hcm&_). pose proof (cm_wf _ _ _ _ _ _ _ _ Hcm) as Hwf'.
    assert (forall i, graph_get g' i = gmap_of g' !! i) as Hn'. { intros i. by rewrite (gmap_of_get E). }
    unfold passes, m_checks, m_added, m_dropped. setoid_rewrite (in_graph_iff g _ Hm). setoid_rewrite Hn'.
    split; intros [H1 H2]; (split; [exact H1|]); [intros nm chk y z l Hin [Hx Hy]; by eapply H2|intros nm chk y z l Hin Hx Hy; by eapply H2].
  Qed.
  Lemma m_checks_alike m (n : gmap N (node D)) m' (n' : gmap N (node D)) m2 (n2 : gmap N (node D)) c : malike m n -> malike m' n' -> malike m2 n2 -> check_same c ->
    m_checks m m' m2 c -> m_checks n n' n2 c.
  Proof.
    intros Hm Hm' H2 [Hs1 Hs2] [H3 H4].
    assert (forall x y l, m_added m m' x y l <-> m_added n n' x y l) as Ha.
    { intros x y l. unfold m_added. by rewrite (malike_link _ _ _ _ _ Hm), (malike_link _ _ _ _ _ Hm'). }
    assert (forall x y l, m_dropped m m' x y l <-> m_dropped n n' x y l) as Hd.
    { intros x y l. unfold m_dropped. by rewrite (malike_link _ _ _ _ _ Hm), (malike_link _ _ _ _ _ Hm'). }
    split.
    - intros nm chk x Hin (y&l&Hyl). destruct (H3 nm chk x Hin) as (nx&Hx&Hc). { exists y, l. rewrite Ha, Hd. done. }
      pose proof (H2 x) as Hxx. rewrite Hx in Hxx. apply o2_r in Hxx as (nx'&Hx'&Hal). exists nx'. split; [done|]. rewrite <- Hc. symmetry. by eapply Hs1.
    - intros nm chk x y l Hin Hadd. destruct (H4 nm chk x y l Hin) as (nx&Hx&Hc); [by apply Ha|].
      pose proof (H2 x) as Hxx. rewrite Hx in Hxx. apply o2_r in Hxx as (nx'&Hx'&Hal). exists nx'. split; [done|]. rewrite <- Hc. symmetry. by eapply Hs2.
  Qed.
  Lemma malike_id m : malike m m.
  Proof. intros i. destruct (m !! i); constructor. apply alike_refl. Qed.

  (** ** One call *)
  Lemma fwd_all w lg a s o w' : lreach E T w lg -> sim E T w lg a -> osim s w -> any_op o -> step E T w o w' ->
    exists a', cstep a s o a' /\ sim E T w' (log_step w o lg) a'.
  Proof using Hdb Hbf Hone Hck.
    intros Hl Hs Ho Hp Hst. assert (plain_op o \/ ~ plain_op o) as [Hpl|Hpl] by (destruct o; cbn; tauto).
    { destruct (fwd_bidi E T Hdb Hbf Hone Hck w lg a o w' Hl Hs Hpl Hst) as (a'&Ha'&Hs'). exists a'. split; [by constructor|done]. }
    pose proof (sim_ctx _ _ _ _ _ Hs) as Hcx. destruct Hst; try (by destruct Hpl); cbn [log_step].
    - assert (commit E t g = Done g' tt) as Hcm by by eapply commit_checked_commit. destruct Hp as [Hv Hsm].
      destruct (fwd_commit_bidi w lg a kg k c t g g') as (x&A&m'&Ht&HA&Hh&Hm&Hres&Hcl&Hsp&Hty&Hun&Hmt&Hsim); [done..|].
      eexists. split; [|exact Hsim]. eapply cs_checked; try done. rewrite <- Hm in *. by eapply (checked_bidi g t x g').
    - assert (graph_of E T g) as Hgo. { exists w, kg, c0. split; [by eapply lreach_reachable|done]. }
      destruct (graph_of_ok E _ _ Hgo) as (Hwf&_).
      destruct (sim_g E T w lg a kg c0 g Hs) as (A&HA&Hm&HB); [done|].
      pose proof (order_iter s w kg c0 g (wf_arena _ _ Hwf) Ho ltac:(done)) as Hord.
      assert (length (order_of s kg) = length (graph_iter g)) as Hlen by (rewrite Hord; apply fmap_length).
      destruct (switch_kept g u cnt cnt' g' Hgo) as (->&L&HL&Hty&Hun&Hmt); [done|done|].
      eexists. split.
      + eapply cs_switch; [done|by rewrite Hcx|by rewrite Hlen| |done|done|exact Hmt].
        rewrite Hord. apply moved_switched; [|done]. intros i. by rewrite <- Hm, (gmap_of_get E).
      + rewrite Hlen, Hcx. refine (sim_ctx_to E T (set_g w kg (c, g')) lg (AW (aw_ctx a) (<[kg := (c, _)]> (aw_graphs a)) (aw_trans a)) _ _).
        apply sim_set_g; [done|done|]. by eapply kn_switch.
  Qed.
  Lemma bwd_all w lg a s o a' : lreach E T w lg -> sim E T w lg a -> osim s w -> any_op o -> cstep a s o a' -> exists w', step E T w o w'.
  Proof using Hdb Hbf Hone Hck.
    intros Hl Hs Ho Hp Hst. pose proof (sim_ctx _ _ _ _ _ Hs) as Hcx.
    destruct Hst as [o a' Hb|kg k chk c t A m' m2 Hv Ht HA Hres Hcl Hsp Hty Hun Hmt Hchk|kg c c0 A u cnt L m2 HA Hc Hroom HL Hty Hun Hmt].
    - by eapply (bwd_bidi E T Hdb Hbf Hone Hck).
    - destruct (sim_t' E T w lg a k c t Hl Hs Ht) as (t0&u&cnt&Ht'&Hlg&Htr&Hc&Hh).
      destruct (sim_g' E T w lg a kg c A Hs HA) as (g&Hg&Hm&HB).
      destruct (history_in E T w lg kg k c g t0 Hl) as (s1&Hh1&Hlg1); [done|done|]. assert (s1 = t) as -> by congruence.
      destruct (proj2 (commit_iff' E T Hdb Hbf Hone Hck g t0 t (ag_known A) Hh1 HB)) as (g'&Hg').
      { rewrite Hm. split; [done|]. split; [done|]. intros m1 Hm1. by assert (m1 = m') as -> by by eapply sp_commit_det. }
      destruct (MachineBidi.commit_kept E T Hbf g t0 t g' Hh1 Hg') as (m1&Hsp1&Hmt1). rewrite Hm in *.
      assert (m1 = m') as -> by by eapply sp_commit_det.
      eexists. eapply st_commit_checked; [done|done|]. rewrite <- Hm in *. eapply checked_bidi; [done|done|done|done|].
      eapply (m_checks_alike _ _ m' m' m2); [apply malike_id|apply malike_id| |by destruct Hp|done].
      eapply (maintained_alike E Hbf); [apply malike_id| |done|done]. done.
    - destruct (sim_g' E T w lg a kg c0 A Hs HA) as (g&Hg&Hm&HB). rewrite Hcx in Hc.
      assert (graph_of E T g) as Hgo. { exists w, kg, c0. split; [by eapply lreach_reachable|done]. }
      destruct (graph_of_ok E _ _ Hgo) as (Hwf&_).
      pose proof (order_iter s w kg c0 g (wf_arena _ _ Hwf) Ho Hg) as Hord.
      assert (length (order_of s kg) = length (graph_iter g)) as Hlen by (rewrite Hord; apply fmap_length). rewrite Hlen in Hroom.
      destruct (switch_goes g u cnt L Hgo Hroom) as (c'&g'&Hsw); [|done|done|].
      { rewrite Hord in HL. apply (moved_switched g (ag_nodes A)); [|done]. intros i. by rewrite <- Hm, (gmap_of_get E). }
      eexists. by eapply st_switch.
  Qed.

  (** ** Whole programs *)
  Lemma any_no_panic o : any_op o -> forall kg k p, o <> OCommitPanic kg k p.
  Proof. by intros Ho kg k p ->. Qed.
  Lemma runs_fwd_all os w : T -> runs E T os w -> Forall any_op os ->
    exists lg a s, lreach E T w lg /\ cruns os a s /\ sim E T w lg a /\ osim s w.
  Proof using Hdb Hbf Hone Hck.
    intros HT. induction 1 as [|os w o w' Hr IH Hs]; intros Hp.
    - exists (fun _ => []), aw_new, orders_new. split; [constructor|]. split; [constructor|].
      split; [split; [done|..]; intros k; cbn; rewrite !lookup_empty; constructor|]. split; [done|..]; intros ? ? ? [=].
    - apply Forall_app in Hp as [Hp Ho]. inversion_clear Ho as [|? ? Ho1 _]. rename Ho1 into Ho. destruct (IH Hp) as (lg&a&s&Hl&Ha&Hsim&Hos).
      destruct (fwd_all w lg a s o w' Hl Hsim Hos Ho Hs) as (a'&Ha'&Hs'). exists (log_step w o lg), a', (replay (length (e_kinds E)) s o).
      split; [|split; [by econstructor|split; [done|]]].
      + econstructor; [done|done|]. destruct o; try done. intros c g _. by rewrite Hdb.
      + eapply osim_step; [by eapply runs_reachable|done|done|by apply any_no_panic|by left].
  Qed.

  (** the iteration order of the graphs of [w] *)
  Definition same_order (w : world (D:=D)) s : Prop := forall kg c g, w_graphs w !! kg = Some (c, g) -> (graph_iter g).*1 = order_of s kg.
  Definition graphs_alike (a1 a2 : aworld (D:=D)) : Prop := forall kg, option_Forall2 (fun p q : nat * agraph (D:=D) =>
      p.1 = q.1 /\ malike (ag_nodes p.2) (ag_nodes q.2) /\ forall y, ag_known p.2 y <-> ag_known q.2 y) (aw_graphs a1 !! kg) (aw_graphs a2 !! kg).

  Lemma known_in_alike L1 L2 y : NoDup L1.*1 -> malike (list_to_map L1) (list_to_map L2) -> known_in L1 y -> known_in L2 y.
  Proof.
    intros Hnd Hal (i&n&Hin&Hy). destruct (entry_node L1 L2 Hnd Hal i n Hin) as (n'&Hin'&Ha). exists i, n'. split; [done|].
    destruct Hy as [Hy|Hy]; [by left|right]. by eapply alike_refers.
  Qed.
  (** two choices for the new graph of [switch_context] *)
  Lemma switch_choices m (n : gmap N (node D)) ord c L1 L2 m1 m2 : malike m n -> moved_entries m ord c L1 -> moved_entries n ord c L2 ->
    maintained E (list_to_map L1) m1 (completed E L1) -> maintained E (list_to_map L2) m2 (completed E L2) ->
    malike m1 m2 /\ forall y, known_in L1 y <-> known_in L2 y.
  Proof using Hbf.
    intros Hm H1 H2 M1 M2. pose proof (moved_alike m n ord c L1 L2 Hm H1 H2) as Hal. pose proof (proj1 H1) as Hnd1. pose proof (proj1 H2) as Hnd2. split.
    - eapply (maintained_alike E Hbf); [exact Hal| |exact M1|exact M2]. by apply completed_alike.
    - intros y. split; apply known_in_alike; try done. by apply malike_sym.
  Qed.

  Lemma choices_all a s o a1 a2 : cstep a s o a1 -> cstep a s o a2 -> aw_ctx a1 = aw_ctx a2 /\ aw_trans a1 = aw_trans a2 /\ graphs_alike a1 a2.
  Proof using Hbf.
    assert (forall (M : gmap nat (nat * agraph (D:=D))) kg, option_Forall2 (fun p q : nat * agraph (D:=D) => p.1 = q.1 /\ malike (ag_nodes p.2) (ag_nodes q.2) /\ forall y, ag_known p.2 y <-> ag_known q.2 y)
      (M !! kg) (M !! kg)) as Hr. { intros M kg. destruct (M !! kg); constructor. split; [done|]. split; [apply malike_id|done]. }
    intros H1 H2. destruct H1 as [o a1 Hb|kg k chk c t A m' m2 Hv Ht HA Hres Hcl Hsp Hty Hun Hmt Hchk|kg c c0 A u cnt L m2 HA Hc Hroom HL Hty Hun Hmt].
    - pose proof (bstep_plain _ _ _ _ _ Hb) as Hp. destruct H2 as [o a2 Hb2| |]; [|done..]. by eapply (bstep_choices E T Hbf).
    - inversion H2 as [? ? Hb|? ? ? c1 t1 A1 m1' m21 Hv1 Ht1 HA1 Hres1 Hcl1 Hsp1 Hty1 Hun1 Hmt1 Hchk1|]; subst; [by apply bstep_plain in Hb|].
      rewrite Ht in Ht1. injection Ht1 as <- <-. rewrite HA in HA1. injection HA1 as <-.
      assert (m1' = m') as -> by by eapply sp_commit_det. split; [done|]. split; [done|]. intros kg'. cbn.
      destruct (decide (kg' = kg)) as [->|Hne]; [|rewrite !lookup_insert_ne by done; apply Hr].
      rewrite !lookup_insert. constructor. cbn. split; [done|]. split; [|done]. eapply (maintained_alike E Hbf); [apply malike_id| |done|done]. done.
    - inversion H2 as [? ? Hb| |? ? c1 A1 u1 cnt1 L1 m21 HA1 Hc1 Hroom1 HL1 Hty1 Hun1 Hmt1]; subst; [by apply bstep_plain in Hb|].
      rewrite Hc in Hc1. injection Hc1 as <- <-. rewrite HA in HA1. injection HA1 as <- <-.
      split; [done|]. split; [done|]. intros kg'. cbn.
      destruct (decide (kg' = kg)) as [->|Hne]; [|rewrite !lookup_insert_ne by done; apply Hr].
      rewrite !lookup_insert. constructor. cbn. split; [done|].
      exact (switch_choices _ _ _ _ L L1 m2 m21 (malike_id _) HL HL1 Hmt Hmt1).
  Qed.

  Lemma final_runs_all os w : T -> runs E T os w -> Forall any_op os ->
    exists a s, cruns os a s /\ same_contents E T w a /\ same_order w s /\
      forall o, any_op o -> (exists w', step E T w o w') <-> exists a', cstep a s o a'.
  Proof using Hdb Hbf Hone Hck.
    intros HT Hw Hp. destruct (runs_fwd_all os w HT Hw Hp) as (lg&a&s&Hl&Ha&Hs&Hos). exists a, s. split; [done|]. split; [by eapply sim_same|]. split.
    - intros kg c g Hg. symmetry. eapply order_iter; [|done|done]. destruct (lreach_inv E T w lg Hl) as [Hi _].
      destruct (iv_graph _ _ _ Hi _ _ _ Hg) as [Hwf _]. apply Hwf.
    - intros o Ho. split.
      + intros [w' Hw']. destruct (fwd_all w lg a s o w' Hl Hs Hos Ho Hw') as (a'&?&_). eauto.
      + intros [a' Ha']. by eapply bwd_all.
  Qed.

  (** ** Programs whose closures and checks look at sets as sets *)
  Definition calls_same (o : op (D:=D)) : Prop :=
    match o with OCommitChecked _ _ c => (forall l, nonvec E l) /\ check_same c | _ => op_same o end.
  Lemma calls_same_any o : calls_same o -> any_op o.
  Proof. by destruct o. Qed.

  Lemma bwd_alike_all w lg a b s o a' : lreach E T w lg -> sim E T w lg b -> osim s w -> aalike a b -> calls_same o -> cstep a s o a' ->
    exists w' b', step E T w o w' /\ cstep b s o b' /\ sim E T w' (log_step w o lg) b' /\ aalike a' b'.
  Proof using Hdb Hbf Hone Hck.
    intros Hl Hs Hos Hab Ho Hst. pose proof (aa_ctx _ _ Hab) as Hcx. pose proof (sim_ctx _ _ _ _ _ Hs) as Hcw.
    destruct Hst as [o a' Hb|kg k chk c t A m' m2 Hv Ht HA Hres Hcl Hsp Hty Hun Hmt Hchk|kg c c0 A u cnt L m2 HA Hc Hroom HL Hty Hun Hmt].
    - destruct (bwd_alike E T Hdb Hbf Hone Hck w lg a b o a' Hl Hs Hab) as (w'&b'&Hw'&Hb'&Hs'&Hab'); [|done|].
      { pose proof (bstep_plain _ _ _ _ _ Hb) as Hp. by destruct o. }
      exists w', b'. split; [done|]. split; [by constructor|done].
    - assert (bstep E T a (OCommit kg k) (AW (aw_ctx a) (<[kg := (c, AG m2 (l_commit (ts_txn t) (ag_known A)))]> (aw_graphs a)) (delete k (aw_trans a)))) as Hb by by eapply bs_commit.
      destruct (bwd_alike E T Hdb Hbf Hone Hck w lg a b (OCommit kg k) _ Hl Hs Hab I Hb) as (w'&b'&Hw'&Hb'&Hs'&Hab').
      destruct (aa_t a b k c t Hab Ht) as (t'&Ht'&Hss&Hmf&Huf). destruct (aa_g a b kg c A Hab HA) as (A'&HA'&HAA&HAB).
      inversion Hb' as [? ? Hn|? ? c1 t1 A1 m1' m21 Ht1 HA1 Hres1 Hcl1 Hsp1 Hty1 Hun1 Hmt1|]; [done|]. subst.
      rewrite Ht' in Ht1. injection Ht1 as <- <-. rewrite HA' in HA1. injection HA1 as <-.
      inversion Hw' as [| | | | | | | | | | | | | | | |? ? c1 t0 g g' Htw Hgw Hcm| | | |]; subst.
      destruct (sim_t' E T w lg b k c t' Hl Hs Ht') as (t2&u&cnt&Htw2&Hlg&Htr&Hc&Hh). rewrite Htw in Htw2. injection Htw2 as -> <-.
      destruct (history_in E T w lg kg k c g t0 Hl) as (s1&Hh1&Hlg1); [done|done|]. assert (s1 = t') as -> by congruence.
      destruct (sim_g' E T w lg b kg c A' Hs HA') as (g0&Hg0&Hm0&_). rewrite Hgw in Hg0. injection Hg0 as <-.
      assert (gmap_of g' = m21) as Hm21.
      { pose proof (sim_graphs _ _ _ _ _ Hs' kg) as Hx. cbn in Hx. rewrite !lookup_insert in Hx. inversion Hx as [? ? (_&?&_)|]. done. }
      destruct Ho as [_ Hsm].
      assert (m_checks (ag_nodes A') m1' m21 chk) as Hchk'.
      { eapply (m_checks_alike (ag_nodes A) _ m' _ m2); [done|by eapply sp_commit_alike| |done|done].
        pose proof (aa_graphs _ _ Hab' kg) as Hx. cbn in Hx. rewrite !lookup_insert in Hx. inversion Hx as [? ? (_&?&_)|]. done. }
      eexists _, _. split; [|split; [|split; [exact Hs'|exact Hab']]].
      + eapply st_commit_checked; [done|done|]. eapply checked_bidi; [done|done|done|by rewrite Hm0|]. by rewrite Hm0, Hm21.
      + by eapply cs_checked.
    - destruct (aa_g a b kg c0 A Hab HA) as (A'&HA'&HAA&HAB). destruct (sim_g' E T w lg b kg c0 A' Hs HA') as (g&Hg&Hm&HB).
      assert (graph_of E T g) as Hgo. { exists w, kg, c0. split; [by eapply lreach_reachable|done]. }
      destruct (graph_of_ok E _ _ Hgo) as (Hwf&_). rewrite Hcx, Hcw in Hc.
      pose proof (order_iter s w kg c0 g (wf_arena _ _ Hwf) Hos Hg) as Hord.
      assert (length (order_of s kg) = length (graph_iter g)) as Hlen by (rewrite Hord; apply fmap_length). rewrite Hlen in Hroom.
      assert (nodes_are g (ag_nodes A')) as Hna. { intros i. by rewrite <- Hm, (gmap_of_get E). }
      destruct (switched_exists E T g cnt Hgo Hroom) as (L'&HL').
      assert (moved_entries (ag_nodes A') (order_of s kg) cnt L') as HLm. { rewrite Hord. by apply (moved_switched g). }
      pose proof (moved_alike _ _ _ _ L L' HAA HL HLm) as Hal. pose proof (proj1 HL) as Hnd. pose proof (proj1 HLm) as Hnd'.
      destruct (switch_goes g u cnt L' Hgo Hroom HL') as (c'&g'&Hsw); [by eapply (entries_typed_alike E L)|by eapply (unclaimed_alike E L)|].
      assert (step E T w (OSwitch kg c) (set_cnt (set_g w kg (c, g')) c u c')) as Hw' by by eapply st_switch.
      destruct (fwd_all w lg b s (OSwitch kg c) _ Hl Hs Hos I Hw') as (b'&Hb'&Hs').
      eexists _, b'. split; [exact Hw'|]. split; [done|]. split; [done|].
      inversion Hb' as [? ? Hb| |? ? c1 A1 u1 cnt1 L1 m21 HA1 Hc1 Hroom1 HL1 Hty1 Hun1 Hmt1]; subst; [by apply bstep_plain in Hb|].
      rewrite Hcw, Hc in Hc1. injection Hc1 as <- <-. rewrite HA' in HA1. injection HA1 as <- <-.
      destruct (switch_choices _ _ _ _ L L1 m2 m21 HAA HL HL1 Hmt Hmt1) as [Hm2 Hkn].
      rewrite Hcx. by apply aa_put_g.
  Qed.

  Lemma runs_bwd_all os a s : T -> cruns os a s -> Forall calls_same os ->
    exists w lg b, runs E T os w /\ lreach E T w lg /\ cruns os b s /\ sim E T w lg b /\ osim s w /\ aalike a b.
  Proof using Hdb Hbf Hone Hck.
    intros HT. induction 1 as [|os a s o a' Hr IH Hs]; intros Hp.
    - exists world_new, (fun _ => []), aw_new. split; [constructor|]. split; [constructor|]. split; [constructor|].
      split; [split; [done|..]; intros k; cbn; rewrite !lookup_empty; constructor|]. split; [split; [done|..]; intros ? ? ? [=]|].
      split; [done|..]; intros k; cbn; rewrite !lookup_empty; constructor.
    - apply Forall_app in Hp as [Hp Ho]. inversion_clear Ho as [|? ? Ho1 _]. destruct (IH Hp) as (w&lg&b&Hw&Hl&Hb&Hsim&Hos&Hab).
      destruct (bwd_alike_all w lg a b s o a' Hl Hsim Hos Hab Ho1 Hs) as (w'&b'&Hw'&Hb'&Hs'&Hab').
      exists w', (log_step w o lg), b'. split; [by econstructor|]. split; [|split; [by econstructor|split; [done|split; [|done]]]].
      + econstructor; [done|done|]. destruct o; try done. intros c g _. by rewrite Hdb.
      + eapply osim_step; [by eapply runs_reachable|done|done|by apply any_no_panic, calls_same_any|by left].
  Qed.
  Lemma final_cruns_iff os : T -> Forall calls_same os -> (exists w, runs E T os w) <-> exists a s, cruns os a s.
  Proof using Hdb Hbf Hone Hck.
    intros HT Hsm. split.
    - intros [w Hw]. destruct (runs_fwd_all os w HT Hw) as (lg&a&s&_&Ha&_); [|eauto]. eapply Forall_impl; [exact Hsm|]. apply calls_same_any.
    - intros (a&s&Ha). destruct (runs_bwd_all os a s HT Ha Hsm) as (w&lg&b&Hw&_). eauto.
  Qed.
  Lemma final_cruns_alike os w a s : T -> Forall calls_same os -> runs E T os w -> cruns os a s ->
    same_order w s /\ exists b, same_contents E T w b /\ aalike a b.
  Proof using Hdb Hbf Hone Hck.
    intros HT Hsm Hw Ha. destruct (runs_bwd_all os a s HT Ha Hsm) as (w'&lg&b&Hw'&Hl&_&Hs&Hos&Hab). assert (w' = w) as -> by by eapply runs_det.
    split; [|exists b; split; [by eapply sim_same|done]]. intros kg c g Hg. symmetry. eapply order_iter; [|done|done]. destruct (lreach_inv E T w lg Hl) as [Hi _].
    destruct (iv_graph _ _ _ Hi _ _ _ Hg) as [Hwf _]. apply Hwf.
  Qed.
End machine.
