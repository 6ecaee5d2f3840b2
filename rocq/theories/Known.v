(** * The indices a graph knows, over whole programs *)
From stdpp Require Export gmap.
From Verif Require Export Listed AlikeRuns Deser.

Section known.
  Context {D : Type} (E : env).
  Implicit Types (g : graph D) (n : node D) (L : list (idx * node D)).

  (** the indices of a list of nodes, and those its nodes mention *)
  Definition known_in L (y : idx) : Prop := exists i n, (i, n) ∈ L /\ (y = i \/ refers n y).

  Lemma rebuild_listed ctx a g' r : arena_ok E a -> (forall x n, arena_get a x = Some n -> node_ok E n /\ x <> 0%N) ->
    rebuild E ctx a = Done (g', r) tt -> forall y, listed g' y <-> known_in (arena_items a) y.
  Proof.
    intros Hok Hn Hr. assert (forall x n, arena_get a x = Some n <-> (x, n) ∈ arena_items a) as Hit by (intros; by apply (arena_get_items E)).
    pose proof (merge_nodes_wp E a (graph_new E ctx) lcr_new (glink (graph_new (D:=D) E ctx)) (fun _ _ => False)) as Hm.
    unfold rebuild, bindM, wp in *. destruct (merge_nodes E a (graph_new E ctx, lcr_new)) as [[g1 r1] []|p s1]; [|done].
    destruct Hm as (Hwf&_&_&_&_&Hhas); [apply wf_new|done|done|done|apply LC_new|]. cbn [getM] in Hr.
    assert (forall x, is_Some (graph_get g1 x) -> listed g1 x) as Hg1 by by apply (wf_listed E).
    pose proof (bidi_listed E g1 Hg1 r1 g1 r1) as Hb. unfold wp in Hb. rewrite Hr in Hb. cbn in Hb.
    intros y. destruct Hb as [_ Hb]; [done|]. cbn in Hb. rewrite Hb. change (hasback g1 y <-> known_in (arena_items a) y). rewrite Hhas. split.
    - intros [H|[[n Hy]|(x&n&s&Hx&Hs)]].
      + by destruct H.
      + exists y, n. split; [by apply Hit|by left].
      + exists x, n. split; [by apply Hit|]. right. apply (proj2 (refers_src n y)). by exists s.
    - intros (i&n&Hi%Hit&[->|Hy]); [right; left; by exists n|]. right. right. apply refers_src in Hy as [s Hs]. by exists i, n, s.
  Qed.

  Lemma switched_refers g f n n1 n2 y : node_switched g f n n1 -> node_switched g f n n2 -> refers n1 y -> refers n2 y.
  Proof.
    intros (_&_&Hl1&H1) (_&_&Hl2&H2) (fl&lv1&Hf&Hin&Hnz).
    destruct (lookup_lt_is_Some_2 (nlinks n) fl) as [lv Hlv]. { rewrite <- Hl1. by eapply lookup_lt_Some. }
    destruct (H1 _ _ Hlv) as (x1&Hx1&Hs1), (H2 _ _ Hlv) as (x2&Hx2&Hs2). assert (x1 = lv1) as -> by congruence.
    exists fl, x2. split; [done|]. destruct lv, lv1, x2; cbn in Hs1, Hs2; try done; cbn in *; subst; try done.
    destruct Hs1 as (->&_&Hz1), Hs2 as (->&_&Hz2). split; [by apply Hz2, Hz1|]. right. eauto.
  Qed.
  Lemma switched_known g c L1 L2 : switched_entries g c L1 -> switched_entries g c L2 -> forall y, known_in L1 y -> known_in L2 y.
  Proof.
    intros (_&_&H1) (_&H2&_) y (i&n1&Hi&Hy). destruct (H1 i n1 Hi) as (x&n&Hx&->&Hs1). destruct (H2 x n Hx) as (n2&Hn2&Hs2).
    exists (new_index g c x), n2. split; [done|]. destruct Hy as [?|Hy]; [by left|right]. exact (switched_refers g _ n n1 n2 y Hs1 Hs2 Hy).
  Qed.
  Lemma switched_exists T g c : graph_of E T g -> (c + N.of_nat (length (graph_iter g)) < usize_mod)%N -> exists L, switched_entries g c L.
  Proof.
    intros Hg Hroom. destruct (switch_prepared E T g 0%N c Hg Hroom) as (a&[Hok Hok2 Hsome Honly]&_).
    assert (forall x n, arena_get a x = Some n <-> (x, n) ∈ arena_items a) as Hit by (intros; by apply (arena_get_items E)).
    exists (arena_items a). split; [by apply (arena_items_NoDup E)|]. split.
    - intros x n Hx. destruct (Hsome x n Hx) as (n'&Hn'&Hrr). exists n'. by rewrite <- Hit.
    - intros j n' Hj%Hit. by apply Honly.
  Qed.
  Lemma switch_listed T g ctx c c' g' L : graph_of E T g -> (c + N.of_nat (length (graph_iter g)) < usize_mod)%N ->
    switch_context E g ctx c = Done c' g' -> switched_entries g c L -> forall y, listed g' y <-> known_in L y.
  Proof.
    intros Hg Hroom Hs HL. destruct (switch_prepared E T g ctx c Hg Hroom) as (a&[Hok Hok2 Hsome Honly]&Heq). rewrite Heq in Hs.
    destruct (rebuild E ctx a) as [[g1 r] []|p s1] eqn:Hr; [|done]. pose proof (check_link_type_spec E r g1) as Hk.
    destruct (check_link_type E r g1) as [g2 []|p s1]; [|done]. destruct Hk as [-> _]. injection Hs as _ <-.
    assert (forall x n, arena_get a x = Some n <-> (x, n) ∈ arena_items a) as Hit by (intros; by apply (arena_get_items E)).
    assert (switched_entries g c (arena_items a)) as Ha.
    { split; [by apply (arena_items_NoDup E)|]. split.
      - intros x n Hx. destruct (Hsome x n Hx) as (n'&Hn'&Hrr). exists n'. by rewrite <- Hit.
      - intros j n' Hj%Hit. by apply Honly. }
    intros y. rewrite (rebuild_listed ctx a g1 r Hok Hok2 Hr). split; by eapply switched_known.
  Qed.
  Lemma deser_listed s cnt g : (forall i n, (i, n) ∈ gs_nodes s -> node_ok E n /\ i <> 0%N) -> deserialize_graph E s = Ok (cnt, g) ->
    forall y, listed g y <-> known_in (gs_nodes s) y.
  Proof.
    intros Hok. unfold deserialize_graph, do_deserialize. pose proof (arena_new_from_iter_spec E (gs_nodes s)) as Ha.
    destruct (arena_new_from_iter E (gs_nodes s)) as [a []|p a]; [|done]. destruct Ha as [Hnd Hfi]; [naive_solver|].
    destruct (rebuild E (gs_ctx s) a) as [[g1 r] []|p s1] eqn:Hr; [|done]. intros [= _ <-].
    assert (forall x n, arena_get a x = Some n <-> (x, n) ∈ gs_nodes s) as Hin.
    { intros x n. rewrite (fi_get _ _ _ Hfi). by apply omap_get_iff. }
    assert (forall x n, (x, n) ∈ arena_items a <-> (x, n) ∈ gs_nodes s) as Hit.
    { intros x n. rewrite <- Hin. symmetry. apply (arena_get_items E), (fi_ok _ _ _ Hfi). }
    intros y. rewrite (rebuild_listed (gs_ctx s) a g1 r (fi_ok _ _ _ Hfi)); [|by intros x n Hx%Hin; apply Hok|done].
    unfold known_in. by setoid_rewrite Hit.
  Qed.

  (** [known T g B]: the graph [g] knows the indices [B] *)
  Inductive known (T : Prop) : graph D -> (idx -> Prop) -> Prop :=
  | kn_new u : known T (graph_new E u) (fun _ => False)
  | kn_commit g t s g' B : known T g B -> history E T g t s -> commit E t g = Done g' tt -> known T g' (l_commit (ts_txn s) B)
  | kn_switch g u c c' g' L : graph_of E T g -> (c + N.of_nat (length (graph_iter g)) < usize_mod)%N ->
      switch_context E g u c = Done c' g' -> switched_entries g c L -> known T g' (known_in L)
  | kn_deser s cnt g : (forall i n, (i, n) ∈ gs_nodes s -> node_ok E n /\ i <> 0%N) -> deserialize_graph E s = Ok (cnt, g) ->
      known T g (known_in (gs_nodes s)).

  Lemma known_listed T g B : known T g B -> forall y, listed g y <-> B y.
  Proof.
    induction 1 as [u|g t s g' B _ IH Hh Hc|g u c c' g' L Hg Hroom Hs HL|s cnt g Hok Hd]; intros y.
    - split; [|done]. by intros [? ?].
    - destruct (final_listed E T g t s Hh g' Hc) as [_ Hl]. rewrite Hl. unfold l_commit, l_queue, l_new, l_redir. by setoid_rewrite IH.
    - by eapply switch_listed.
    - by eapply deser_listed.
  Qed.
  (** every graph of a program without caught panics knows some indices *)
  Lemma runs_known T os w lg : lruns E T os w lg -> no_caught_panic os ->
    forall kg c g, w_graphs w !! kg = Some (c, g) -> exists B, known T g B.
  Proof.
    induction 1 as [|os w lg o w' Hr IH Hs Hc]; intros Hnp kg c g Hg; [done|].
    assert (forall kg c g, w_graphs w !! kg = Some (c, g) -> exists B, known T g B) as IH'.
    { apply IH. intros ??? Hin. eapply Hnp, elem_of_app. left. exact Hin. } clear IH.
    pose proof (lruns_lreach _ _ _ _ _ Hr) as Hlr.
    destruct Hs; cbn in Hg; try (by eapply IH'); try (apply lookup_delete_Some in Hg as [_ Hg]; by eapply IH').
    - apply lookup_insert_Some in Hg as [[_ [= _ <-]]|[_ Hg]]; [|by eapply IH']. eexists. constructor.
    - apply lookup_insert_Some in Hg as [[_ [= _ <-]]|[_ Hg]]; [|by eapply IH'].
      match goal with H : w_graphs w !! _ = Some _ |- _ => destruct (IH' _ _ _ H) as [B HB] end.
      destruct (history_in E T w lg kg0 k c0 g0 t Hlr) as (s&Hh&_); [done|done|]. eexists. by eapply kn_commit.
    - apply lookup_insert_Some in Hg as [[_ [= _ <-]]|[_ Hg]]; [|by eapply IH'].
      match goal with H : w_graphs w !! _ = Some _ |- _ => destruct (IH' _ _ _ H) as [B HB] end.
      destruct (history_in E T w lg kg0 k c0 g0 t Hlr) as (s&Hh&_); [done|done|]. eexists. eapply kn_commit; [done|done|].
      by eapply commit_checked_commit.
    - edestruct Hnp. apply elem_of_app. right. by left.
    - apply lookup_insert_Some in Hg as [[_ [= _ <-]]|[_ Hg]]; [|by eapply IH'].
      assert (graph_of E T g0) as Hgo. { exists w, kg0, c0. split; [by eapply lreach_reachable|done]. }
      destruct (switched_exists T g0 cnt Hgo) as (L&HL); [done|]. eexists. by eapply kn_switch.
    - apply lookup_insert_Some in Hg as [[_ [= _ <-]]|[_ Hg]]; [|by eapply IH']. eexists. eapply kn_deser; [|done].
      intros i n Hin. match goal with H : forall i n, _ -> node_ok E n /\ _ |- _ => destruct (H i n Hin) end. split; [done|lia].
  Qed.

  Lemma redir_listed_ext reps (B B' : idx -> Prop) : (forall y, B y -> B' y) -> redir_listed reps B -> redir_listed reps B'.
  Proof. intros HB [H1 H2]. split; [done|]. intros o Ho. by apply HB, H2. Qed.
  Lemma l_queue_ext (t : txn D) (B B' : idx -> Prop) : (forall y, B y -> B' y) -> forall y, l_queue t B y -> l_queue t B' y.
  Proof. intros HB y. unfold l_queue, l_new, l_redir. intros [[?|?]|?]; eauto. Qed.
  Lemma commit_listed_ext (t : txn D) m (B B' : idx -> Prop) : (forall y, B y -> B' y) -> commit_listed t m B -> commit_listed t m B'.
  Proof.
    intros HB [H1 H2]. split; [by eapply redir_listed_ext|]. intros m1 Hm1. destruct (H2 m1 Hm1) as [H3 H4].
    pose proof (l_queue_ext t B B' HB) as HQ. split; [by eapply mutates_listed_ext|]. intros m2 Hm2.
    destruct (H4 m2 Hm2) as (H5&H6&H7). split; [by eapply updates_listed_ext|]. split; [by eapply redir_listed_ext|done].
  Qed.
  Lemma known_commit_iff T g t (s : tspec D) m B : history E T g t s -> bidi_fields E -> (forall v l, e_chk E v l = false -> nonvec E l) ->
    (forall l v, length (opposites_on E l v) <= 1) -> nodes_are g m -> known T g B ->
    (exists g', commit E t g = Done g' tt) <->
    (e_dbg E = false \/ ts_res s = ∅) /\ commit_listed (ts_txn s) m B /\
    forall m', sp_commit (ts_txn s) m m' -> no_conflict E g m' /\ added_typed E g m'.
  Proof.
    intros Hh Hbf Hck Hone Hm HB. rewrite (final_commit_iff E T g t s Hh m) by done. pose proof (known_listed T g B HB) as Hl.
    assert (commit_listed (ts_txn s) m (listed g) <-> commit_listed (ts_txn s) m B) as ->; [|done].
    split; apply commit_listed_ext; intros y; apply Hl.
  Qed.
  (** without bidirectional links and link types *)
  Lemma known_commit_plain T g t (s : tspec D) m B : history E T g t s -> (forall l, e_opp E l = []) -> (forall v l, e_chk E v l = true) ->
    nodes_are g m -> known T g B ->
    (exists g', commit E t g = Done g' tt) <-> (e_dbg E = false \/ ts_res s = ∅) /\ commit_listed (ts_txn s) m B.
  Proof.
    intros Hh Ho Hc Hm HB. rewrite (known_commit_iff T g t s m B Hh); [|..|done|done].
    - split; [tauto|]. intros [H1 H2]. split; [done|]. split; [done|]. intros m' _. split.
      + intros x y l ny _ _. unfold opposites_on. by rewrite Ho.
      + intros x y l ny _ _. apply Hc.
    - intros l k Hk. rewrite Ho in Hk. by apply elem_of_nil in Hk.
    - intros v l. by rewrite Hc.
    - intros l v. unfold opposites_on. rewrite Ho. cbn. lia.
  Qed.
  Lemma known_nodes T g B : graph_of E T g -> known T g B -> forall i, is_Some (graph_get g i) -> B i.
  Proof. intros Hg HB i Hi. apply (known_listed T g B HB). destruct (graph_of_ok E T g Hg) as [Hwf _]. by apply (wf_listed E). Qed.
  (** the indices a node of the graph refers to *)
  Lemma known_refs T g B : graph_of E T g -> known T g B -> forall i n y, graph_get g i = Some n -> refers n y -> B y.
  Proof.
    intros Hg HB i n y Hi Hy. apply (known_listed T g B HB). destruct (graph_of_ok E T g Hg) as [Hwf _].
    apply refers_src in Hy as [s Hs]. eapply inback_hasback, (wf_b2 _ _ Hwf); done.
  Qed.
End known.
