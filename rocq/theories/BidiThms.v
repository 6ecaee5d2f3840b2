(** * Bidirectional links and link types over whole commits *)
From Verif Require Export CommitThms.

Section bidi.
  Context {D : Type} (E : env).
  Implicit Types (g : graph D) (t : trans D) (n : node D) (l k : link) (m : gmap N (node D)) (T : Prop).

  Lemma lcr_exact T g t g1 r m1 g' x y l :
    committed E T g t g1 r m1 g' -> y <> 0%N -> nonvec E l ->
    ((x, y, l) ∈ lc_adds r <-> glink g1 x y l /\ ~ glink g x y l) /\
    ((x, y, l) ∈ lc_rems r <-> glink g x y l /\ ~ glink g1 x y l).
  Proof.
    intros Hcm Hy Hl. pose proof (st_lc _ _ _ _ _ _ _ _ (cm_st _ _ _ _ _ _ _ _ Hcm)) as Hlc.
    split; [by apply (lc_a _ _ _ _ Hlc)|by apply (lc_r _ _ _ _ Hlc)].
  Qed.
  Lemma glink_nz g x y l : glink g x y l -> y <> 0%N.
  Proof. by intros (n&_&?&_). Qed.
  Lemma glink_var g x y l n : glink g x y l -> graph_get g x = Some n -> l_var l = nvar n.
  Proof. intros (n'&Hn&_&Hv&_) Hg. rewrite Hn in Hg. by injection Hg as <-. Qed.
  Lemma glink_at g x y l n : graph_get g x = Some n -> glink g x y l <-> has_link n l y.
  Proof. intros Hg. unfold glink. rewrite Hg. naive_solver. Qed.

  Lemma single_sole g y ny l k :
    single_choice E -> graph_get g y = Some ny -> k ∈ e_opp E l -> l_var k = nvar ny -> sole_opp E g y l k.
  Proof.
    intros Hsc Hy Hk Hv. exists ny. split; [done|].
    assert (k ∈ match_bd ny (e_opp E l)) as Hin by by apply elem_match_bd.
    assert (NoDup (match_bd ny (e_opp E l))) as Hnd by apply NoDup_filter, Hsc.
    assert (forall k', k' ∈ match_bd ny (e_opp E l) -> k' = k) as Hall.
    { intros k' [Hk' Hv']%elem_match_bd. eapply sc_uniq; try done. congruence. }
    destruct (match_bd ny (e_opp E l)) as [|a [|b ls]] eqn:Heq.
    - by apply elem_of_nil in Hin.
    - f_equal. apply Hall. left.
    - apply NoDup_cons in Hnd as [Hn _]. destruct Hn. rewrite (Hall a) by left. rewrite (Hall b) by (right; left). left.
  Qed.

  Section one.
    Context (g : graph D) (t : trans D).
    Hypothesis (Hwf : WF E g) (Hty : gtyped g) (Ht : trans_ok E True g t).

    Lemma committed_var g1 r m1 g' x n1 :
      committed E True g t g1 r m1 g' -> graph_get g1 x = Some n1 ->
      (exists n, own_node t x n /\ nvar n = nvar n1 /\ graph_get g x = None) \/
      (exists n, graph_get g x = Some n /\ nvar n = nvar n1 /\ arena_get (t_inc t) x = None).
    Proof using Hwf Hty Ht.
      intros Hcm Hx. pose proof (cm_st _ _ _ _ _ _ _ _ Hcm) as Hst.
      destruct (sp_commit_nvar E (trans_txn t) (gmap_of g) m1) with (i:=x) (n':=n1) as (n&Hv&Hn).
      - apply Ht.
      - apply Ht.
      - by apply ok_map_gmap.
      - by eapply ok_map_inc.
      - apply Hcm.
      - by rewrite (st_abs _ _ _ _ _ _ _ _ Hst).
      - cbn in Hn. rewrite (amap_get E), (gmap_of_get E) in Hn by (done || apply Ht).
        destruct Hn as [Hn|[Hn1 Hn2]].
        + left. exists n. split; [done|]. split; [done|].
          destruct (graph_get g x) eqn:Hg; [|done]. apply (own_not_old E True g t) in Hg; [congruence|done].
        + right. by exists n.
    Qed.
    Lemma frame_var g1 r m1 g' x n' :
      committed E True g t g1 r m1 g' -> graph_get g' x = Some n' ->
      exists n1, graph_get g1 x = Some n1 /\ nvar n1 = nvar n'.
    Proof.
      intros Hcm Hx. pose proof (cm_frame _ _ _ _ _ _ _ _ Hcm) as Hf.
      destruct (graph_get g1 x) as [n1|] eqn:H1.
      - destruct (bfr_some _ _ _ Hf x n1 H1) as (n''&Hn&Hv&_). exists n1. split; [done|]. congruence.
      - apply (bfr_none _ _ _ Hf) in H1. congruence.
    Qed.

    (** an old link between nodes that are present afterwards had both ends before *)
    Lemma old_both_ends g1 r m1 g' a b l nb :
      committed E True g t g1 r m1 g' -> no_early_link g t ->
      glink g a b l -> graph_get g1 b = Some nb ->
      exists na0 nb0, graph_get g a = Some na0 /\ graph_get g b = Some nb0 /\ nvar nb0 = nvar nb.
    Proof using Hwf Hty Ht.
      intros Hcm Hne (na0&Ha&Hl) Hb. exists na0.
      assert (links_to na0 b) as Hto by by exists l. pose proof (Hne a na0 b Ha Hto) as Hnone.
      destruct (committed_var _ _ _ _ _ _ Hcm Hb) as [(n&Hn&_)|(n&Hn&Hv&_)]; [unfold own_node in Hn; congruence|].
      by exists n.
    Qed.
    Lemma var_old g1 r m1 g' a na0 na1 :
      committed E True g t g1 r m1 g' -> graph_get g a = Some na0 -> graph_get g1 a = Some na1 -> nvar na0 = nvar na1.
    Proof using Hwf Hty Ht.
      intros Hcm H0 H1. destruct (committed_var _ _ _ _ _ _ Hcm H1) as [(n&_&_&Hn)|(n&Hn&Hv&_)]; congruence.
    Qed.

    (** C18 *)
    Lemma commit_symmetric_dir g1 r m1 g' a b na nb l k :
      committed E True g t g1 r m1 g' -> single_choice E -> no_early_link g t -> bidi_symmetric E g ->
      graph_get g' a = Some na -> graph_get g' b = Some nb ->
      k ∈ e_opp E l -> l_var l = nvar na -> l_var k = nvar nb ->
      has_link na l b -> has_link nb k a.
    Proof using Hwf Hty Ht.
      intros Hcm Hsc Hne Hsym Ha Hb Hk Hla Hkb Hl.
      pose proof (sc_sym _ Hsc _ _ Hk) as Hlk.
      pose proof (sc_nonvec _ Hsc _ _ Hk) as Hvk. pose proof (sc_nonvec _ Hsc _ _ Hlk) as Hvl.
      destruct (frame_var _ _ _ _ _ _ Hcm Ha) as (na1&Ha1&Hva). destruct (frame_var _ _ _ _ _ _ Hcm Hb) as (nb1&Hb1&Hvb).
      pose proof (cm_wf _ _ _ _ _ _ _ _ Hcm) as Hwf'.
      assert (a <> 0%N) as Ha0. { intros ->. rewrite (wf_zero _ _ Hwf') in Ha. done. }
      assert (b <> 0%N) as Hb0. { intros ->. rewrite (wf_zero _ _ Hwf') in Hb. done. }
      pose proof (lcr_exact _ _ _ _ _ _ _ a b l Hcm Hb0 Hvl) as [Aab Rab].
      pose proof (lcr_exact _ _ _ _ _ _ _ b a k Hcm Ha0 Hvk) as [Aba Rba].
      assert (glink g' a b l) as HK3 by by exists na.
      cut (glink g' b a k). { intros HG. by apply (glink_at g' b a k nb). }
      apply (cm_links _ _ _ _ _ _ _ _ Hcm). apply (cm_links _ _ _ _ _ _ _ _ Hcm) in HK3.
      (* removal of b's link to a comes only from the removal of a's link through l *)
      assert (forall l', (a, b, l') ∈ lc_rems r -> k ∈ e_opp E l' -> l' = l) as Honly.
      { intros l' Hin Hk'. pose proof (sc_sym _ Hsc _ _ Hk') as Hl'k.
        pose proof (sc_nonvec _ Hsc _ _ Hl'k) as Hvl'.
        apply (lcr_exact _ _ _ _ _ _ _ a b l' Hcm Hb0 Hvl') in Hin as [HK0 _].
        eapply (sc_uniq _ Hsc k); [done|done|]. destruct HK0 as (na0&Ha00&_&Hv0&_).
        rewrite <- Hv0, Hla, <- Hva. by eapply var_old. }
      (* symmetry of the old graph, for the pair a,b *)
      assert (glink g a b l -> glink g b a k) as Hold.
      { intros HK0. destruct (old_both_ends _ _ _ _ _ _ _ _ Hcm Hne HK0 Hb1) as (na0&nb0&Ha00&Hb00&Hvb0).
        apply (glink_at g b a k nb0 Hb00). apply (Hsym a b na0 nb0 l k); try done.
        - by apply (glink_var _ _ _ _ _ HK0).
        - rewrite Hkb. congruence.
        - by apply (glink_at g a b l na0). }
      destruct HK3 as [[HK1 Hnr]|(l'&Hin&Hb1'&(na1'&Ha1'&Hm))].
      - destruct (glink_dec g a b l) as [HK0|HK0].
        + left. assert (glink g1 b a k) as HK1b.
          { destruct (glink_dec g1 b a k) as [?|Hn]; [done|]. destruct Hnr. exists k. split; [|by eauto].
            apply Rba. split; [by apply Hold|done]. }
          split; [done|]. intros (l'&Hin&Hk'&_). rewrite (Honly l' Hin Hk') in Hin.
          apply Rab in Hin as [_ ?]. done.
        + right. exists l. split; [by apply Aab|]. split; [by eauto|].
          apply (single_sole g1 b nb1 l k); try done. congruence.
      - (* b's own new link to a was mirrored *)
        assert (l ∈ match_bd na1' (e_opp E l')) as Hlin by (rewrite Hm; left).
        apply elem_match_bd in Hlin as [Hll' _].
        pose proof (sc_sym _ Hsc _ _ Hll') as Hl'l. pose proof (sc_nonvec _ Hsc _ _ Hl'l) as Hvl'.
        apply (lcr_exact _ _ _ _ _ _ _ b a l' Hcm Ha0 Hvl') in Hin as [HK1 HK0].
        assert (l' = k) as ->.
        { eapply (sc_uniq _ Hsc l); [done|done|]. rewrite Hkb, <- Hvb. by eapply glink_var. }
        left. split; [done|]. intros (l'&Hin'&Hk'&_). rewrite (Honly l' Hin' Hk') in Hin'.
        apply Rab in Hin' as [HKab _]. by apply HK0, Hold.
    Qed.

    Lemma commit_symmetric g' :
      commit E t g = Done g' tt -> single_choice E -> no_early_link g t -> bidi_symmetric E g -> bidi_symmetric E g'.
    Proof using Hwf Hty Ht.
      intros Hc Hsc Hne Hsym. destruct (commit_done E True g t Hwf (fun _ => Hty) Ht g' Hc) as (_&g1&r&m1&Hcm&_).
      intros a b na nb l k Ha Hb Hk Hla Hkb. split.
      - by eapply commit_symmetric_dir.
      - eapply commit_symmetric_dir; try done. by apply Hsc.
    Qed.

    (** C24 *)
    Lemma commit_links_typed g' :
      commit E t g = Done g' tt -> (forall l k, k ∈ e_opp E l -> nonvec E l) -> bidi_typed E ->
      no_early_link g t -> links_typed E g -> links_typed E g'.
    Proof using Hwf Hty Ht.
      intros Hc Hnv Hbt Hne Hlt. destruct (commit_done E True g t Hwf (fun _ => Hty) Ht g' Hc) as (_&g1&r&m1&Hcm&_&Hchk).
      intros x y nx ny l Hx Hl Hvl Hy.
      destruct (frame_var _ _ _ _ _ _ Hcm Hy) as (ny1&Hy1&Hvy).
      assert (glink g' x y l) as HK by by exists nx.
      pose proof (glink_nz _ _ _ _ HK) as Hy0.
      apply (cm_links _ _ _ _ _ _ _ _ Hcm) in HK as [[HK1 _]|(l'&Hin&Hy1'&(nx1&Hx1&Hm))].
      - destruct (glink_dec g x y l) as [HK0|HK0].
        + destruct (old_both_ends _ _ _ _ _ _ _ _ Hcm Hne HK0 Hy1) as (nx0&ny0&Hx0&Hyy0&Hv0).
          rewrite <- Hvy, <- Hv0. eapply (Hlt x y nx0 ny0 l); try done. by apply (glink_at g x y l nx0).
        + eapply Hchk; [|done]. by apply (lcr_exact _ _ _ _ _ _ _ x y l Hcm Hy0 Hvl).
      - assert (l ∈ match_bd nx1 (e_opp E l')) as Hlin by (rewrite Hm; left).
        apply elem_match_bd in Hlin as [Hll' _].
        assert (x <> 0%N) as Hx0. { intros ->. by rewrite (wf_zero _ _ (cm_wf _ _ _ _ _ _ _ _ Hcm)) in Hx. }
        apply (lcr_exact _ _ _ _ _ _ _ y x l' Hcm Hx0 (Hnv _ _ Hll')) in Hin as [HK1 _].
        rewrite <- Hvy, <- (glink_var _ _ _ _ _ HK1 Hy1). by apply Hbt.
    Qed.
  End one.

  Section any.
    Context (T : Prop) (g : graph D) (t : trans D).
    Hypothesis (Hwf : WF E g) (Hty : T -> gtyped g) (Ht : trans_ok E T g t).

    (** C28 *)
    Lemma change_record g' r :
      do_commit E t g = Done g' r ->
      exists m', sp_commit (trans_txn t) (gmap_of g) m' /\ holds_nonbidi E g' m' /\
        forall x y l, y <> 0%N -> nonvec E l ->
          ((x, y, l) ∈ lc_adds r <-> mlink m' x y l /\ ~ glink g x y l) /\
          ((x, y, l) ∈ lc_rems r <-> glink g x y l /\ ~ mlink m' x y l).
    Proof using Hwf Hty Ht.
      intros Hd. pose proof (do_commit_spec E T g t Hwf Hty Ht) as Hs. rewrite Hd in Hs.
      destruct Hs as (_&g1&m1&Hcm). exists m1. split; [apply Hcm|]. split; [by eapply committed_holds|].
      intros x y l Hy Hl. rewrite (ST_mlink _ _ _ _ _ _ _ _ _ _ _ (cm_st _ _ _ _ _ _ _ _ Hcm)).
      by apply (lcr_exact T g t g1 r m1 g').
    Qed.

    (** C21 *)
    Lemma commit_maintenance g' :
      commit E t g = Done g' tt ->
      exists m', sp_commit (trans_txn t) (gmap_of g) m' /\ holds_nonbidi E g' m' /\
        forall a b k, ~ (glink g' a b k <-> mlink m' a b k) ->
          is_Some (graph_get g' a) /\ is_Some (graph_get g' b) /\
          exists l, k ∈ e_opp E l /\
            (nonvec E l -> ~ (glink g b a l <-> mlink m' b a l)).
    Proof using Hwf Hty Ht.
      intros Hc. destruct (commit_done E T g t Hwf Hty Ht g' Hc) as (_&g1&r&m1&Hcm&_). exists m1.
      split; [apply Hcm|]. split; [by eapply committed_holds|]. intros a b k Hneq.
      pose proof (cm_st _ _ _ _ _ _ _ _ Hcm) as Hst.
      rewrite (ST_mlink _ _ _ _ _ _ _ _ _ _ _ Hst), (cm_links _ _ _ _ _ _ _ _ Hcm) in Hneq.
      assert (forall z, is_Some (graph_get g1 z) -> is_Some (graph_get g' z)) as Hpres.
      { intros z [n Hz]. destruct (bfr_some _ _ _ (cm_frame _ _ _ _ _ _ _ _ Hcm) z n Hz) as (n'&->&_). eauto. }
      assert (forall z, is_Some (graph_get g1 z) -> z <> 0%N) as Hnz.
      { intros z [n Hz] ->. by rewrite (wf_zero _ _ (st_wf _ _ _ _ _ _ _ _ Hst)) in Hz. }
      assert (forall l, k ∈ e_opp E l -> is_Some (graph_get g1 a) ->
        (b, a, l) ∈ lc_rems r \/ (b, a, l) ∈ lc_adds r -> nonvec E l -> ~ (glink g b a l <-> mlink m1 b a l)) as Hl.
      { intros l Hk Ha Hin Hv. rewrite (ST_mlink _ _ _ _ _ _ _ _ _ _ _ Hst).
        destruct (lcr_exact _ _ _ _ _ _ _ b a l Hcm (Hnz a Ha) Hv) as [HA HR].
        destruct Hin as [Hin|Hin]; [apply HR in Hin|apply HA in Hin]; tauto. }
      destruct (glink_dec g1 a b k) as [HK1|HK1].
      - assert (is_Some (graph_get g1 a)) as Ha by (destruct HK1 as (n&?&_); eauto).
        destruct (decide (graph_get g1 b = None)) as [Hb|Hb].
        { destruct Hneq. split; [done|]. intros _. left. split; [done|]. intros (l&_&_&[? Hs]). congruence. }
        apply not_eq_None_Some in Hb.
        assert (exists l, (b, a, l) ∈ lc_rems r /\ k ∈ e_opp E l) as (l&Hin&Hk).
        { destruct (Exists_dec (fun e : idx * idx * link => e.1 = (b, a) /\ k ∈ e_opp E e.2) (lc_rems r)) as [He|He].
          - apply Exists_exists in He as ([[x y] l]&Hin&[= -> ->]&Hk). eauto.
          - destruct Hneq. split; [done|]. intros _. left. split; [done|]. intros (l&Hin&Hk&_). destruct He.
            apply Exists_exists. by exists (b, a, l). }
        split; [by apply Hpres|]. split; [by apply Hpres|]. exists l. split; [done|]. apply Hl; auto.
      - assert (exists l, (b, a, l) ∈ lc_adds r /\ is_Some (graph_get g1 b) /\ sole_opp E g1 a l k) as (l&Hin&Hb&(na&Ha&Hm)).
        { destruct (Exists_dec (fun e : idx * idx * link => e.1 = (b, a) /\ is_Some (graph_get g1 b) /\
              (fun na => match_bd na (e_opp E e.2)) <$> graph_get g1 a = Some [k]) (lc_adds r)) as [He|He].
          - apply Exists_exists in He as ([[x y] l]&Hin&[= -> ->]&Hb&Hm). exists l. split; [done|]. split; [done|].
            destruct (graph_get g1 a) as [na|] eqn:Ha; [|done]. exists na. split; [done|]. by injection Hm.
          - destruct Hneq. split; [|done]. intros [[? _]|(l&Hin&Hb&(na&Ha&Hm))]; [done|]. destruct He.
            apply Exists_exists. exists (b, a, l). cbn. rewrite Ha. cbn. by rewrite Hm. }
        assert (k ∈ match_bd na (e_opp E l)) as Hk by (rewrite Hm; left). apply elem_match_bd in Hk as [Hk _].
        split; [apply Hpres; eauto|]. split; [by apply Hpres|]. exists l. split; [done|]. apply Hl; eauto.
    Qed.

    (** C20: an occupied direct opposite is never overwritten; the commit panics *)
    Lemma commit_occupied g' :
      commit E t g = Done g' tt ->
      exists m', sp_commit (trans_txn t) (gmap_of g) m' /\ holds_nonbidi E g' m' /\
        (* links of the specified result survive, unless the mirrored link was removed *)
        (forall b z k, mlink m' b z k ->
           (forall l, k ∈ e_opp E l -> nonvec E l -> ~ (glink g z b l /\ ~ mlink m' z b l)) ->
           (forall l, k ∈ e_opp E l -> nonvec E l) ->
           glink g' b z k) /\
        (* every added link between present nodes with a single opposite is mirrored *)
        (forall a b l nb k, mlink m' a b l -> ~ glink g a b l -> nonvec E l ->
           m' !! b = Some nb -> match_bd nb (e_opp E l) = [k] -> glink g' b a k).
    Proof using Hwf Hty Ht.
      intros Hc. destruct (commit_done E T g t Hwf Hty Ht g' Hc) as (_&g1&r&m1&Hcm&_). exists m1.
      split; [apply Hcm|]. split; [by eapply committed_holds|].
      pose proof (cm_st _ _ _ _ _ _ _ _ Hcm) as Hst. split.
      - intros b z k HK Hnr Hnv. pose proof HK as HK1. apply (ST_mlink _ _ _ _ _ _ _ _ _ _ _ Hst) in HK1.
        assert (b <> 0%N) as Hb0.
        { intros ->. destruct HK1 as (n&Hn&_). by rewrite (wf_zero _ _ (st_wf _ _ _ _ _ _ _ _ Hst)) in Hn. }
        apply (cm_links _ _ _ _ _ _ _ _ Hcm). left. split; [done|]. intros (l&Hin&Hk&_).
        apply (Hnr l Hk (Hnv l Hk)). rewrite (ST_mlink _ _ _ _ _ _ _ _ _ _ _ Hst).
        by apply (lcr_exact _ _ _ _ _ _ _ z b l Hcm Hb0 (Hnv l Hk)).
      - intros a b l nb k HK Hn Hv Hb Hm. pose proof HK as HK1. apply (ST_mlink _ _ _ _ _ _ _ _ _ _ _ Hst) in HK1.
        rewrite (st_abs _ _ _ _ _ _ _ _ Hst) in Hb.
        apply (cm_links _ _ _ _ _ _ _ _ Hcm). right. exists l.
        split; [by apply (lcr_exact _ _ _ _ _ _ _ a b l Hcm (glink_nz _ _ _ _ HK1) Hv)|].
        split; [destruct HK1 as (n&?&_); eauto|]. by exists nb.
    Qed.

    (** C22 *)
    Lemma set_set_no_bidi_panic p g' :
      (forall l k, k ∈ e_opp E l -> exists sk, linkkind E k = Some (KSet sk)) ->
      (forall l v, length (filter (fun k => l_var k = v) (e_opp E l)) <= 1) ->
      commit E t g = Panicked p g' ->
      guard_fails E g t \/ ~ sp_valid (trans_txn t) (gmap_of g) \/ p = PLinkType.
    Proof using Hwf Hty Ht.
      intros Hset Hone Hc. pose proof (commit_spec E T g t Hwf Hty Ht) as Hs. rewrite Hc in Hs.
      destruct Hs as [[Hg|Hg Hnv|g1 r m1 Hg Hsp Hst Hb]|[-> _]]; [by left|by right; left| |by right; right].
      exfalso. destruct Hb as [(x&y&l&k&_&Hk&Hbad)|(x&y&l&ny&_&_&_&[(_&Hlen&_)|(k&Hm&Hbad)])].
      - destruct (Hset _ _ Hk) as [sk Hsk]. unfold badkind in Hbad. rewrite Hsk in Hbad. naive_solver.
      - specialize (Hone l (nvar ny)).
        assert (match_bd ny (e_opp E l) = filter (fun k => l_var k = nvar ny) (e_opp E l)) as Heq.
        { unfold match_bd. apply list_filter_iff. naive_solver. }
        rewrite Heq in Hlen. lia.
      - assert (k ∈ match_bd ny (e_opp E l)) as Hk by (rewrite Hm; left). apply elem_match_bd in Hk as [Hk _].
        destruct (Hset _ _ Hk) as [sk Hsk]. unfold badkind in Hbad. rewrite Hsk in Hbad. naive_solver.
    Qed.
  End any.
End bidi.
