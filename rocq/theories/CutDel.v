(** * Removing nodes now or later, with bidirectional links

    [t] is [ta] with further removals [d2], and [tb] is nothing but the removals [d2].  Used
    by PropsCut.v (C76). *)
From stdpp Require Export gmap.
From Verif Require Export Undo.

Lemma final_all_ok {D} (E : env) T (g : graph D) t s g' m' : history E T g t s -> commit E t g = Done g' tt ->
  sp_commit (ts_txn s) (gmap_of g) m' -> all_ok E m'.
Proof.
  intros Hh Hc Hsp i n Hn. destruct (history_ok E T g t s Hh) as (Hwf&Hty&Ht&_).
  destruct (commit_done E T g t Hwf Hty Ht g' Hc) as (_&g1&r&m1&Hcm&_).
  pose proof (cm_spec _ _ _ _ _ _ _ _ Hcm) as Hsp'. rewrite (history_txn E T g t s Hh) in Hsp'.
  assert (m1 = m') as -> by exact (sp_commit_det (ts_txn s) _ _ _ Hsp' Hsp).
  pose proof (cm_st _ _ _ _ _ _ _ _ Hcm) as Hst. apply (wf_nodes _ _ (st_wf _ _ _ _ _ _ _ _ Hst) i).
  by rewrite (st_get E T _ _ _ _ _ _ Hst).
Qed.

Section clear.
  Context {D : Type} (E : env) (xs : list idx) (m m' : gmap N (node D)).
  Context (Hrm : sp_removes xs m = Some m') (Hok : all_ok E m) (Hz : forall x, x ∈ xs -> x <> 0%N).
  Lemma clear_lookup i n : i ∉ xs -> m !! i = Some n -> exists n', m' !! i = Some n' /\ nvar n' = nvar n /\ ndata n' = ndata n /\
    nlinks n' = lvs_redirect ((fun x => (x, 0%N)) <$> xs) <$> nlinks n.
  Proof using Hrm.
    intros Hi Hn. rewrite (sp_removes_closed xs _ _ Hrm), decide_False, Hn by done. eexists. split; [done|].
    by rewrite node_redirects_links.
  Qed.
  Lemma clear_some i : is_Some (m' !! i) <-> is_Some (m !! i) /\ i ∉ xs.
  Proof using Hrm. apply (sp_removes_dom _ _ _ Hrm). Qed.
  Lemma clear_links a b k : in_nodes m' a b k <-> in_nodes m a b k /\ a ∉ xs /\ b ∉ xs.
  Proof using Hrm Hok Hz.
    unfold in_nodes. rewrite (sp_removes_closed xs _ _ Hrm). case_decide as Ha; [naive_solver|].
    destruct (m !! a) as [n|] eqn:Hn; cbn; [|naive_solver]. split.
    - intros (?&[= <-]&Hl). apply (has_link_redirects0 E) in Hl as [??]; [|done|by eapply Hok]. eauto.
    - intros [(?&[= <-]&Hl) [_ Hb]]. eexists. split; [done|]. apply (has_link_redirects0 E); [done|by eapply Hok|done].
  Qed.

  (** what the maintenance makes of the links *)
  Lemma clear_mirrored g a b k : mirrored E g m' a b k <-> mirrored E g m a b k /\ a ∉ xs /\ b ∉ xs.
  Proof using Hrm Hok Hz.
    assert (forall x y l, added g m' x y l <-> added g m x y l /\ x ∉ xs /\ y ∉ xs) as Had.
    { intros x y l. unfold added. rewrite clear_links. tauto. }
    split.
    - intros [[Hin Hno]|(l&na&Hadd&Hna&Ho)].
      + apply clear_links in Hin as (Hin&Ha&Hb). split; [|done]. left. split; [done|]. intros (l&[H1 H2]&Hk&Hs). apply Hno. exists l.
        split; [|split; [done|by apply clear_some]]. split; [done|]. rewrite clear_links. tauto.
      + apply Had in Hadd as (Hadd&Hb&Ha). split; [|done]. right. destruct (proj1 (clear_some a)) as [[n Hn] _]; [eauto|].
        destruct (clear_lookup a n Ha Hn) as (n'&Hn'&Hv&_). exists l, n. split; [done|]. split; [done|].
        assert (na = n') as -> by congruence. by rewrite <- Hv.
    - intros ([[Hin Hno]|(l&na&Hadd&Hna&Ho)]&Ha&Hb).
      + left. split; [by apply clear_links|]. intros (l&[H1 H2]&Hk&Hs). apply Hno. exists l.
        split; [|split; [done|by apply clear_some in Hs as [? _]]]. split; [done|]. intros H3. apply H2, clear_links. done.
      + right. destruct (clear_lookup a na Ha Hna) as (n'&Hn'&Hv&_). exists l, n'. split; [by apply Had|]. split; [done|]. by rewrite Hv.
  Qed.
  (** no conflict and no link of a wrong type can appear *)
  Lemma clear_no_conflict g : (forall l v, length (opposites_on E l v) <= 1) -> no_conflict E g m -> no_conflict E g m'.
  Proof using Hrm Hok Hz.
    intros Hone Hnc x y l ny [Hin Hng] Hy. apply clear_links in Hin as (Hin&Hx&Hyx).
    destruct (proj1 (clear_some y)) as [[n Hn] _]; [eauto|]. destruct (clear_lookup y n Hyx Hn) as (n'&Hn'&Hv&_).
    assert (ny = n') as -> by congruence. rewrite Hv. specialize (Hnc x y l n (conj Hin Hng) Hn).
    specialize (Hone l (nvar n)). destruct (opposites_on E l (nvar n)) as [|k [|k2 ks]]; [done| |cbn in Hone; lia].
    intros Hk z Hm. apply (Hnc Hk z). by apply clear_mirrored in Hm as [? _].
  Qed.
  Lemma clear_added_typed g : added_typed E g m -> added_typed E g m'.
  Proof using Hrm Hok Hz.
    intros Ht x y l ny [Hin Hng] Hy. apply clear_links in Hin as (Hin&Hx&Hyx).
    destruct (proj1 (clear_some y)) as [[n Hn] _]; [eauto|]. destruct (clear_lookup y n Hyx Hn) as (n'&Hn'&Hv&_).
    assert (ny = n') as -> by congruence. rewrite Hv. by apply (Ht x y l n).
  Qed.
End clear.

Section cutdel.
  Context {D : Type} (E : env) (T : Prop) (g g1 : graph D) (t ta tb : trans D) (s sa sb : tspec D).
  Context (r : list (idx * idx)) (n : gmap N (node D)) (q : list (idx * mut_fn D)) (u : list (idx * upd_fn D))
    (a : list (idx * idx)) (d1 d2 : list idx).
  Context (Hh : history E T g t s) (Ha : history E T g ta sa) (Hb : history E T g1 tb sb).
  Context (Et : ts_txn s = Txn r n q u a (d1 ++ d2)) (Ea : ts_txn sa = Txn r n q u a d1) (Eb : ts_txn sb = Txn [] ∅ [] [] [] d2).
  Context (Hc1 : commit E ta g = Done g1 tt).

  Lemma cd_cut m m' : sp_commit (ts_txn s) m m' <-> exists m1, sp_commit (ts_txn sa) m m1 /\ sp_removes d2 m1 = Some m'.
  Proof using Ea Eb Et.
    rewrite (cut_commit (ts_txn s) (ts_txn sa) (ts_txn sb)) by (rewrite Et, Ea, Eb; constructor).
    by setoid_rewrite (sp_only_removes sb d2 Eb).
  Qed.
  Lemma cd_nz (m m' : gmap N (node D)) x : sp_removes d2 m = Some m' -> (forall i, is_Some (m !! i) <-> is_Some (graph_get g1 i)) -> x ∈ d2 -> x <> 0%N.
  Proof using Hb.
    intros Hs Hm Hx ->. destruct (proj1 (sp_removes_iff d2 m)) as [_ H]; [eauto|]. specialize (H _ Hx). apply Hm in H as [n' Hn'].
    destruct (history_ok E T g1 tb sb Hb) as (Hwf&_). by rewrite (wf_zero _ _ Hwf) in Hn'.
  Qed.
  Lemma cd_first m1 : sp_commit (ts_txn sa) (gmap_of g) m1 -> (forall l k, k ∈ e_opp E l -> nonvec E l) ->
    (forall i, option_Forall2 (agree_nonbidi E) (m1 !! i) (graph_get g1 i)) /\
    (forall x y k, in_graph g1 x y k <-> mirrored E g m1 x y k) /\ all_ok E m1.
  Proof using Ha Hc1.
    intros Hsp Hnv. destruct (final_links_exact E T g ta sa Ha g1 Hnv Hc1) as (m&m1'&Hm&Hsp'&Hho&Hl).
    assert (m = gmap_of g) as -> by (apply map_eq; intros j; rewrite Hm; symmetry; apply (history_nodes E T g ta sa Ha)).
    assert (m1' = m1) as -> by exact (sp_commit_det (ts_txn sa) _ _ _ Hsp' Hsp).
    split; [done|]. split; [done|]. by eapply (final_all_ok E T g ta sa).
  Qed.
  Lemma cd_second m2 : sp_removes d2 (gmap_of g1) = Some m2 ->
    (forall x y k, ~ added g1 m2 x y k) /\
    forall x y k, mirrored E g1 m2 x y k <-> in_graph g1 x y k /\ x ∉ d2 /\ y ∉ d2.
  Proof using Hb.
    intros Hrm. pose proof (history_nodes E T g1 tb sb Hb) as Hg1.
    assert (forall x, x ∈ d2 -> x <> 0%N) as Hz by (intros x; apply (cd_nz _ m2 x Hrm); intros i; by rewrite Hg1).
    pose proof (clear_links E d2 _ _ Hrm (history_all_ok E T g1 tb sb Hb) Hz) as Hcl.
    assert (forall x y k, in_nodes (gmap_of g1) x y k <-> in_graph g1 x y k) as Hin.
    { intros x y k. unfold in_nodes, in_graph. by rewrite Hg1. }
    assert (forall x y k, ~ added g1 m2 x y k) as Hno.
    { intros x y k [H1 H2]. apply H2, Hin. by apply Hcl in H1 as [? _]. }
    split; [done|]. intros x y k. unfold mirrored. rewrite Hcl, Hin. split.
    - intros [[? _]|(l&na&H1&_)]; [done|]. by apply Hno in H1.
    - intros H. left. split; [done|]. intros (l&[H1 H2]&_). apply H2, Hcl. rewrite Hin. tauto.
  Qed.

  Lemma final_cut_del g' g2 : (forall l k, k ∈ e_opp E l -> nonvec E l) ->
    commit E t g = Done g' tt -> commit E tb g1 = Done g2 tt ->
    forall i, option_Forall2 (same_node E) (graph_get g' i) (graph_get g2 i).
  Proof using Ea Eb Et Ha Hb Hc1 Hh.
    intros Hnv Hc Hc2. destruct (final_links_exact E T g t s Hh g' Hnv Hc) as (m&m'&Hm&Hsp&Hho&Hl).
    assert (m = gmap_of g) as -> by (apply map_eq; intros j; rewrite Hm; symmetry; apply (history_nodes E T g t s Hh)).
    apply cd_cut in Hsp as (m1&Hspa&Hrm). destruct (cd_first m1 Hspa Hnv) as (Hag1&Hl1&Hok1).
    destruct (final_links_exact E T g1 tb sb Hb g2 Hnv Hc2) as (m0&m2&Hm0&Hspb&Hho2&Hl2).
    assert (m0 = gmap_of g1) as -> by (apply map_eq; intros j; rewrite Hm0; symmetry; apply (history_nodes E T g1 tb sb Hb)).
    apply (sp_only_removes sb d2 Eb) in Hspb. destruct (cd_second m2 Hspb) as (_&Hmir2).
    assert (forall i, is_Some (m1 !! i) <-> is_Some (graph_get g1 i)) as Hdom.
    { intros i. specialize (Hag1 i). destruct Hag1; split; intros [? [=]]; eauto. }
    assert (forall x, x ∈ d2 -> x <> 0%N) as Hz by (intros x; by apply (cd_nz m1 m' x)).
    assert (forall x y k, in_graph g2 x y k <-> in_graph g' x y k) as Hlinks.
    { intros x y k. rewrite Hl2, Hmir2, Hl, (clear_mirrored E d2 m1 m' Hrm Hok1 Hz), Hl1. done. }
    intros i. specialize (Hho i). specialize (Hho2 i). specialize (Hag1 i).
    destruct (m1 !! i) as [n1|] eqn:Hn1.
    - apply o2_r in Hag1 as (ng1&Hng1&Hv1&Hd1&Hf1). rewrite <- Hm0 in Hng1.
      destruct (decide (i ∈ d2)) as [Hi|Hi].
      { rewrite (sp_removes_closed _ _ _ Hrm), decide_True in Hho by done. rewrite (sp_removes_closed _ _ _ Hspb), decide_True in Hho2 by done.
        apply o2_none in Hho as ->. apply o2_none in Hho2 as ->. constructor. }
      destruct (clear_lookup d2 _ _ Hrm i n1 Hi Hn1) as (n'&Hn'&Hv'&Hd'&Hf').
      destruct (clear_lookup d2 _ _ Hspb i ng1 Hi Hng1) as (n2&Hn2&Hv2&Hd2&Hf2).
      rewrite Hn' in Hho. rewrite Hn2 in Hho2. apply o2_r in Hho as (b'&Hb'&Hbv&Hbd&Hbf). apply o2_r in Hho2 as (b2&Hb2&Hb2v&Hb2d&Hb2f).
      rewrite Hb', Hb2. constructor. split.
      + split; [congruence|]. split; [congruence|]. intros f Hfd.
        assert (~ declared E (Link (nvar n1) f)) as Hfd1 by congruence.
        rewrite Hb2f by congruence. rewrite Hbf by congruence. rewrite Hf', Hf2, !list_lookup_fmap. by rewrite Hf1.
      + intros l y. specialize (Hlinks i y l). unfold in_graph in Hlinks. rewrite Hb', Hb2 in Hlinks.
        split; intros H; [destruct (proj2 Hlinks) as (?&[= <-]&?)|destruct (proj1 Hlinks) as (?&[= <-]&?)]; eauto.
    - apply o2_none in Hag1. rewrite <- Hm0 in Hag1.
      assert (m' !! i = None) as Hx'. { rewrite (sp_removes_closed _ _ _ Hrm), Hn1. by case_decide. }
      assert (m2 !! i = None) as Hx2. { rewrite (sp_removes_closed _ _ _ Hspb), Hag1. by case_decide. }
      rewrite Hx' in Hho. rewrite Hx2 in Hho2. apply o2_none in Hho as ->. apply o2_none in Hho2 as ->. constructor.
  Qed.

  (** the second part succeeds exactly if it removes nodes that exist; the whole then succeeds *)
  Lemma final_cut_del_second : bidi_fields E -> (forall v l, e_chk E v l = false -> nonvec E l) -> e_dbg E = false \/ ts_res sb = ∅ ->
    (exists g2, commit E tb g1 = Done g2 tt) <-> forall x, x ∈ d2 -> is_Some (graph_get g1 x).
  Proof using Eb Hb.
    intros Hbf Hck Hres. pose proof (history_nodes E T g1 tb sb Hb) as Hg1. split.
    - intros (g2&Hc2). destruct (final_refines E T g1 tb sb Hb g2 Hc2) as (m&m'&Hm&Hsp&_).
      apply (sp_only_removes sb d2 Eb) in Hsp. intros x Hx. rewrite <- Hm.
      apply (proj1 (sp_removes_iff d2 m)); [eauto|done].
    - intros His. pose proof (history_del_NoDup E T g1 tb sb Hb) as Hnd.
      assert (ts_del sb = d2) as Hd by (change (x_del (ts_txn sb) = d2); by rewrite Eb). rewrite Hd in Hnd.
      apply (final_succeeds_bidi E T g1 tb sb Hb (gmap_of g1)); [done|done|done|done|..].
      + rewrite Eb. split; [split; [exists ∅; constructor|intros o Ho; by apply elem_of_nil in Ho]|]. cbn.
        intros m1 ->%sp_redirect_nil. split; [done|]. eexists. split; [done|]. split; [done|]. eexists. split; [done|].
        split; [split; [exists ∅; constructor|intros o Ho; by apply elem_of_nil in Ho]|].
        intros m4 ->%sp_redirect_nil. apply sp_removes_iff. split; [done|]. intros x Hx. rewrite map_empty_union, Hg1. by apply His.
      + intros m' Hsp. apply (sp_only_removes sb d2 Eb) in Hsp. destruct (cd_second m' Hsp) as (Hno&_).
        split; intros x y l ny Hadd; by apply Hno in Hadd.
  Qed.
  Lemma final_cut_del_whole : bidi_fields E -> (forall v l, e_chk E v l = false -> nonvec E l) ->
    (forall l v, length (opposites_on E l v) <= 1) -> e_dbg E = false \/ ts_res s = ∅ ->
    (exists g2, commit E tb g1 = Done g2 tt) -> exists g', commit E t g = Done g' tt.
  Proof using Ea Eb Et Ha Hb Hc1 Hh.
    intros Hbf Hck Hone Hres (g2&Hc2). assert (forall l k, k ∈ e_opp E l -> nonvec E l) as Hnv by (intros l k Hk; by eapply Hbf).
    pose proof (proj1 (final_commit_iff E T g ta sa Ha (gmap_of g) Hbf Hck Hone (history_nodes E T g ta sa Ha)) ltac:(eauto)) as (_&Hli&Hnc).
    destruct (final_refines E T g1 tb sb Hb g2 Hc2) as (m0&m2&Hm0&Hspb&_). apply (sp_only_removes sb d2 Eb) in Hspb.
    assert (forall m1, sp_commit (ts_txn sa) (gmap_of g) m1 -> is_Some (sp_removes d2 m1)) as Hrem.
    { intros m1 Hsp. destruct (cd_first m1 Hsp Hnv) as (Hag1&_). apply sp_removes_iff.
      destruct (proj1 (sp_removes_iff d2 m0)) as [Hnd Hd]; [eauto|]. split; [done|]. intros x Hx. specialize (Hd x Hx). rewrite Hm0 in Hd.
      specialize (Hag1 x). destruct Hd as [nx Hnx]. rewrite Hnx in Hag1. apply o2_l in Hag1 as (?&->&_). eauto. }
    apply (final_commit_iff E T g t s Hh (gmap_of g) Hbf Hck Hone (history_nodes E T g t s Hh)).
    split; [done|]. split.
    - apply (cut_listed (ts_txn s) (ts_txn sa) (ts_txn sb)); [rewrite Et, Ea, Eb; constructor|]. split; [done|].
      intros m1 Hsp. rewrite Eb. split; [apply redir_listed_nil|]. cbn. intros ? ->%sp_redirect_nil. split; [done|].
      intros ? [= <-]. split; [done|]. split; [apply redir_listed_nil|]. intros ? ? [= <-] ->%sp_redirect_nil. rewrite map_empty_union. by apply Hrem.
    - intros m' Hsp. apply cd_cut in Hsp as (m1&Hsp&Hrm). destruct (Hnc m1 Hsp) as [H1 H2].
      destruct (cd_first m1 Hsp Hnv) as (Hag1&_&Hok1).
      assert (forall x, x ∈ d2 -> x <> 0%N) as Hz.
      { intros x. apply (cd_nz m1 m' x Hrm). intros i. specialize (Hag1 i). destruct Hag1; split; intros [? [=]]; eauto. }
      split; [by eapply clear_no_conflict|by eapply clear_added_typed].
  Qed.
End cutdel.
