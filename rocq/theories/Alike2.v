(** * Commits and rebuilt graphs that are equal up to the order inside sets *)
From stdpp Require Export gmap.
From Verif Require Export Alike.

Section alike2.
  Context {D : Type}.
  Implicit Types (g : graph D) (n : node D) (m : gmap N (node D)) (l k : link).

  Lemma o2_some {A B} (R : A -> B -> Prop) a b : option_Forall2 R (Some a) (Some b) -> R a b.
  Proof. by inversion 1. Qed.
  Lemma o2_r {A B} (R : A -> B -> Prop) a o : option_Forall2 R (Some a) o -> exists b, o = Some b /\ R a b.
  Proof. inversion 1; eauto. Qed.
  Lemma o2_l {A B} (R : A -> B -> Prop) b o : option_Forall2 R o (Some b) -> exists a, o = Some a /\ R a b.
  Proof. inversion 1; eauto. Qed.
  Lemma o2_none {A B} (R : A -> B -> Prop) o : option_Forall2 R None o -> o = None.
  Proof. by inversion 1. Qed.

  (** two graphs hold nodes that are alike under the same indices *)
  Definition galike g g' : Prop := forall i, option_Forall2 alike (graph_get g i) (graph_get g' i).

  Lemma galike_maps g g' m m' : nodes_are g m -> nodes_are g' m' -> galike g g' <-> malike m m'.
  Proof. intros H H'. unfold galike, malike. by setoid_rewrite H; setoid_rewrite H'. Qed.
  Lemma galike_link g g' x y l : galike g g' -> in_graph g x y l <-> in_graph g' x y l.
  Proof.
    intros H. specialize (H x). unfold in_graph. split; intros (n&Hn&Hl); rewrite Hn in H; inversion H as [a b Hab|]; subst.
    - eexists. split; [done|]. by eapply alike_has_link; [|exact Hl]; first [done|by apply alike_sym].
    - eexists. split; [done|]. by eapply alike_has_link; [|exact Hl]; first [done|by apply alike_sym].
  Qed.
  Lemma malike_link m m' x y l : malike m m' -> in_nodes m x y l <-> in_nodes m' x y l.
  Proof.
    intros H. specialize (H x). unfold in_nodes. split; intros (n&Hn&Hl); rewrite Hn in H; inversion H as [a b Hab|]; subst.
    - eexists. split; [done|]. by eapply alike_has_link; [|exact Hl]; first [done|by apply alike_sym].
    - eexists. split; [done|]. by eapply alike_has_link; [|exact Hl]; first [done|by apply alike_sym].
  Qed.
  Lemma malike_some m m' x : malike m m' -> is_Some (m !! x) <-> is_Some (m' !! x).
  Proof. intros H. destruct (H x); split; intros [? ?]; eauto; done. Qed.

  Section two.
    Context (E E' : env) (Hk : e_kinds E = e_kinds E') (Ho : forall l, e_opp E l = e_opp E' l) (Hbf : bidi_fields E).

    Lemma nonvec_same l : nonvec E l -> nonvec E' l.
    Proof using Hk. unfold nonvec, linkkind. by rewrite Hk. Qed.
    Lemma opposites_same l v : opposites_on E l v = opposites_on E' l v.
    Proof using Ho. unfold opposites_on. by rewrite Ho. Qed.
    Lemma bidi_fields_same : bidi_fields E'.
    Proof using Hk Ho Hbf. intros l k. rewrite <- Ho. intros Hlk. destruct (Hbf l k Hlk) as [H1 H2]. split; [by apply nonvec_same|]. unfold linkkind in *. by rewrite <- Hk. Qed.

    Lemma mirrored_alike g g' m m' a b k : galike g g' -> malike m m' -> mirrored E g m a b k <-> mirrored E' g' m' a b k.
    Proof using Ho.
      intros Hg Hm. unfold mirrored, added, dropped.
      setoid_rewrite (malike_link _ _ _ _ _ Hm). setoid_rewrite (galike_link _ _ _ _ _ Hg). setoid_rewrite (malike_some _ _ _ Hm). setoid_rewrite Ho.
      apply or_iff_compat_l. apply exist_proper. intros l. specialize (Hm a). split; intros (na&Hl&Ha&Hop); rewrite Ha in Hm; inversion Hm as [x y Hxy|]; subst.
      - exists y. split; [done|]. split; [done|]. rewrite <- opposites_same. by rewrite <- (proj1 Hxy).
      - exists x. split; [done|]. split; [done|]. rewrite opposites_same. by rewrite (proj1 Hxy).
    Qed.

    (** a commit of alike transactions to alike graphs *)
    Lemma commit_alike T g g' t t' s s' g1 g1' : history E T g t s -> history E' T g' t' s' -> galike g g' -> ts_alike s s' ->
      commit E t g = Done g1 tt -> commit E' t' g' = Done g1' tt -> galike g1 g1'.
    Proof using Hk Ho Hbf.
      intros Hh Hh' Hg Hs Hc Hc'.
      destruct (history_ok E T g t s Hh) as (Hwf&Hty&Ht&_), (history_ok E' T g' t' s' Hh') as (Hwf'&Hty'&Ht'&_).
      destruct (commit_done E T g t Hwf Hty Ht g1 Hc) as (_&g2&r&m&Hcm&_).
      destruct (commit_done E' T g' t' Hwf' Hty' Ht' g1' Hc') as (_&g2'&r'&m'&Hcm'&_).
      pose proof (cm_spec _ _ _ _ _ _ _ _ Hcm) as Hsp. rewrite (history_txn E T g t s Hh) in Hsp.
      pose proof (cm_spec _ _ _ _ _ _ _ _ Hcm') as Hsp'. rewrite (history_txn E' T g' t' s' Hh') in Hsp'.
      pose proof (history_nodes E T g t s Hh) as Hn. pose proof (history_nodes E' T g' t' s' Hh') as Hn'.
      assert (malike m m') as Hm. { eapply sp_commit_alike; [exact Hs| |exact Hsp|exact Hsp']. by eapply galike_maps. }
      pose proof (committed_holds _ _ _ _ _ _ _ _ Hcm) as Hh1. pose proof (committed_holds _ _ _ _ _ _ _ _ Hcm') as Hh1'.
      pose proof (cm_st _ _ _ _ _ _ _ _ Hcm) as Hst. pose proof (cm_st _ _ _ _ _ _ _ _ Hcm') as Hst'.
      assert (forall a b k, glink g1 a b k <-> glink g1' a b k) as Hlk.
      { intros a b k. rewrite (cm_links _ _ _ _ _ _ _ _ Hcm), (cm_links _ _ _ _ _ _ _ _ Hcm').
        rewrite (bidi_links_mirrored _ _ _ _ _ _ _ _ Hst) by (intros l0 k0 H0; by eapply Hbf).
        rewrite (bidi_links_mirrored _ _ _ _ _ _ _ _ Hst') by (intros l0 k0 H0; by eapply bidi_fields_same).
        by apply mirrored_alike. }
      intros i. pose proof (Hm i) as Hi. pose proof (Hh1 i) as H1. pose proof (Hh1' i) as H1'.
      destruct (m !! i) as [a|] eqn:Ea.
      - apply o2_r in Hi as (a'&Ea'&Haa). rewrite Ea' in H1'. apply o2_r in H1 as (n&En&Hag), H1' as (n'&En'&Hag'). rewrite En, En'. constructor.
        rewrite <- (st_get _ _ _ _ _ _ _ _ Hst) in Ea. rewrite <- (st_get _ _ _ _ _ _ _ _ Hst') in Ea'.
        eapply (alike_maintained E E' a a' n n'); try done.
        + by apply (wf_nodes _ _ (cm_wf _ _ _ _ _ _ _ _ Hcm) i).
        + by apply (wf_nodes _ _ (cm_wf _ _ _ _ _ _ _ _ Hcm') i).
        + intros s0. by apply (bfr_zero _ _ _ (cm_frame _ _ _ _ _ _ _ _ Hcm) i).
        + intros s0. by apply (bfr_zero _ _ _ (cm_frame _ _ _ _ _ _ _ _ Hcm') i).
        + intros l y. specialize (Hlk i y l). unfold glink in Hlk. rewrite En, En' in Hlk. naive_solver.
      - apply o2_none in Hi. rewrite Hi in H1'. apply o2_none in H1, H1'. rewrite H1, H1'. constructor.
    Qed.

    (** building a graph from alike arenas *)
    Lemma rebuilt_alike c c' (a a' : arena D) g1 g1' r r' g g' : (forall i, option_Forall2 alike (arena_get a i) (arena_get a' i)) ->
      rebuilt E c a g1 r g -> rebuilt E' c' a' g1' r' g' -> galike g g'.
    Proof using Hk Ho Hbf.
      intros Ha [Hmg Hwf Hfr Hln _] [Hmg' Hwf' Hfr' Hln' _].
      assert (galike g1 g1') as Hg1. { intros i. rewrite (mg_get _ _ _ _ _ Hmg), (mg_get _ _ _ _ _ Hmg'). apply Ha. }
      assert (forall x y k, glink g1 x y k <-> glink g1' x y k) as Hl1 by (intros; by apply galike_link).
      assert (forall x y l, nonvec E l -> (x, y, l) ∈ lc_adds r <-> (x, y, l) ∈ lc_adds r') as Hadd.
      { intros x y l Hl. pose proof (mg_lc _ _ _ _ _ Hmg) as Hlc. pose proof (mg_lc _ _ _ _ _ Hmg') as Hlc'. split; intros Hin.
        - apply (lc_a _ _ _ _ Hlc) in Hin as [H1 _]; [|by eapply (lc_nz_a _ _ _ _ Hlc)|done]. apply Hl1 in H1.
          apply (lc_a _ _ _ _ Hlc'); [by eapply glink_nz|by apply nonvec_same|]. split; [done|]. by intros [].
        - apply (lc_a _ _ _ _ Hlc') in Hin as [H1 _]; [|by eapply (lc_nz_a _ _ _ _ Hlc')|by apply nonvec_same]. apply Hl1 in H1.
          apply (lc_a _ _ _ _ Hlc); [by eapply glink_nz|done|]. split; [done|]. by intros []. }
      assert (forall i, is_Some (graph_get g1 i) <-> is_Some (graph_get g1' i)) as His.
      { intros i. destruct (Hg1 i); split; intros [? ?]; eauto; done. }
      assert (forall x y k, glink g x y k <-> glink g' x y k) as Hlk.
      { intros x y k. rewrite Hln, Hln'. unfold bidi_links, sole_opp. rewrite (mg_rems _ _ _ _ _ Hmg), (mg_rems _ _ _ _ _ Hmg'), Hl1.
        split; (intros [[H1 _]|(l&Hin&Hy&nx&Hx&Hop)]; [left; split; [done|]; intros (?&Hbad&_); by apply elem_of_nil in Hbad|right]); exists l.
        - pose proof Hop as Hop2. rewrite opposites_match in Hop2. apply nonvec_opp in Hop2; [|intros l0 k0 H0; by eapply Hbf].
          split; [by apply Hadd|]. split; [by apply His|]. pose proof (Hg1 x) as Hgx. rewrite Hx in Hgx. apply o2_r in Hgx as (b&Eb&Hab).
          exists b. split; [done|]. rewrite opposites_match, <- opposites_same, <- (proj1 Hab), <- opposites_match. done.
        - pose proof Hop as Hop2. rewrite opposites_match in Hop2. apply nonvec_opp in Hop2; [|intros l0 k0 H0; by eapply bidi_fields_same].
          assert (nonvec E l) as Hnv. { revert Hop2. unfold nonvec, linkkind. by rewrite Hk. }
          split; [by apply Hadd|]. split; [by apply His|]. pose proof (Hg1 x) as Hgx. rewrite Hx in Hgx. apply o2_l in Hgx as (b&Eb&Hab).
          exists b. split; [done|]. rewrite opposites_match, opposites_same, (proj1 Hab), <- opposites_match. done. }
      intros i. 
      assert (forall i, option_Forall2 (agree_nonbidi E) (graph_get g1 i) (graph_get g i)) as Hag.
      { eapply bframe_agree; [done|]. intros j k (x&l&_&Hkk). by exists l. }
      assert (forall i, option_Forall2 (agree_nonbidi E') (graph_get g1' i) (graph_get g' i)) as Hag'.
      { eapply bframe_agree; [done|]. intros j k (x&l&_&Hkk). by exists l. }
      specialize (Hag i). specialize (Hag' i). specialize (Hg1 i).
      destruct (graph_get g1 i) as [b|] eqn:Eb.
      - apply o2_r in Hg1 as (b'&Eb'&Hbb). rewrite Eb' in Hag'. apply o2_r in Hag as (n&En&Hn), Hag' as (n'&En'&Hn'). rewrite En, En'. constructor.
        eapply (alike_maintained E E' b b' n n'); try done.
        + by apply (wf_nodes _ _ Hwf i).
        + by apply (wf_nodes _ _ Hwf' i).
        + intros s0. by apply (bfr_zero _ _ _ Hfr i).
        + intros s0. by apply (bfr_zero _ _ _ Hfr' i).
        + intros l y. specialize (Hlk i y l). unfold glink in Hlk. rewrite En, En' in Hlk. naive_solver.
      - apply o2_none in Hg1. rewrite Hg1 in Hag'. apply o2_none in Hag, Hag'. rewrite Hag, Hag'. constructor.
    Qed.
  End two.
End alike2.
