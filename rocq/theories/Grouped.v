(** * Bidirectional declarations with several possible opposites

    What the maintenance guarantees when a link has more than one opposite on the same
    variant (links declared through groups). *)
From Verif Require Export BidiFinal.

(** a link to a node that could hold an opposite link is answered by one *)
Definition answered {D} (E : env) (g : graph D) : Prop :=
  forall a b na nb l, graph_get g a = Some na -> graph_get g b = Some nb -> has_link na l b ->
    (exists k, k ∈ e_opp E l /\ l_var k = nvar nb) -> exists k, k ∈ e_opp E l /\ has_link nb k a.

Section grouped.
  Context {D : Type} (E : env) (T : Prop) (g : graph D) (t : trans D) (s : tspec D).
  Implicit Types (n : node D) (l k : link) (m : gmap N (node D)).
  Context (Hh : history E T g t s).

  Lemma match_bd_nonempty n l : (exists k, k ∈ e_opp E l /\ l_var k = nvar n) -> match_bd n (e_opp E l) <> [].
  Proof using.
    intros (k&Hk&Hv) Hm. assert (k ∈ match_bd n (e_opp E l)) as Hin by (by apply elem_match_bd).
    rewrite Hm in Hin. by apply elem_of_nil in Hin.
  Qed.

  Lemma final_added_answered g' : commit E t g = Done g' tt ->
    exists m m', nodes_are g m /\ sp_commit (ts_txn s) m m' /\ holds_nonbidi E g' m' /\
      forall a b l nb, in_nodes m' a b l -> ~ in_graph g a b l -> nonvec E l -> m' !! b = Some nb ->
        (exists k, k ∈ e_opp E l /\ l_var k = nvar nb) -> exists k, k ∈ e_opp E l /\ in_graph g' b a k.
  Proof using Hh.
    intros Hc. destruct (history_ok E T g t s Hh) as (Hwf&Hty&Ht&_).
    destruct (commit_done E T g t Hwf Hty Ht g' Hc) as (_&g1&r&m1&Hcm&_).
    pose proof (cm_spec _ _ _ _ _ _ _ _ Hcm) as Hsp. rewrite (history_txn E T g t s Hh) in Hsp.
    exists (gmap_of g), m1. split; [exact (history_nodes E T g t s Hh)|]. split; [done|]. split; [by eapply committed_holds|].
    pose proof (cm_st _ _ _ _ _ _ _ _ Hcm) as Hst. intros a b l nb HK Hn Hv Hb Hex.
    apply (ST_mlink _ _ _ _ _ _ _ _ _ _ _ Hst) in HK. rewrite (st_abs _ _ _ _ _ _ _ _ Hst) in Hb.
    destruct (cm_done _ _ _ _ _ _ _ _ Hcm a b l nb) as (k&Hk&Hg).
    - by apply (lcr_exact _ _ _ _ _ _ _ _ a b l Hcm (glink_nz _ _ _ _ HK) Hv).
    - destruct HK as (na&?&_). eauto.
    - done.
    - by apply match_bd_nonempty.
    - exists k. split; [|done]. by apply elem_match_bd in Hk as [? _].
  Qed.

  (** If no declared link between nodes that stay is taken away, every link is answered
      after the commit. *)
  Lemma final_answered g' : T -> commit E t g = Done g' tt ->
    (forall l k, k ∈ e_opp E l -> l ∈ e_opp E k) -> (forall l k, k ∈ e_opp E l -> nonvec E l) ->
    no_early g s -> answered E g ->
    exists m m', nodes_are g m /\ sp_commit (ts_txn s) m m' /\ holds_nonbidi E g' m' /\
      ((forall a b l k, in_graph g a b l -> k ∈ e_opp E l -> is_Some (m' !! a) -> is_Some (m' !! b) -> in_nodes m' a b l) ->
       answered E g').
  Proof using Hh.
    intros HT Hc Hsym Hnv Hne Hans. destruct (history_ok E T g t s Hh) as (Hwf&Hty&Ht&_).
    apply (trans_ok_true E T _ _ HT) in Ht. specialize (Hty HT). apply (final_early E T g t s Hh) in Hne.
    destruct (commit_done E True g t Hwf (fun _ => Hty) Ht g' Hc) as (_&g1&r&m1&Hcm&_).
    pose proof (cm_spec _ _ _ _ _ _ _ _ Hcm) as Hsp. rewrite (history_txn E T g t s Hh) in Hsp.
    exists (gmap_of g), m1. split; [exact (history_nodes E T g t s Hh)|]. split; [done|]. split; [by eapply committed_holds|].
    pose proof (cm_st _ _ _ _ _ _ _ _ Hcm) as Hst. intros Hkeep a b na nb l Ha Hb Hl (k0&Hk0&Hv0).
    assert (forall x y l' k, glink g x y l' -> k ∈ e_opp E l' -> is_Some (graph_get g1 x) -> is_Some (graph_get g1 y) -> glink g1 x y l') as Hkeep'.
    { intros x y l' k H1 H2 H3 H4. rewrite <- (st_abs _ _ _ _ _ _ _ _ Hst) in H3, H4.
      apply (ST_mlink _ _ _ _ _ _ _ _ _ _ _ Hst). by eapply Hkeep. }
    destruct (graph_get g1 a) as [na1|] eqn:Ha1. 2:{ apply (bfr_none _ _ _ (cm_frame _ _ _ _ _ _ _ _ Hcm)) in Ha1. congruence. }
    destruct (graph_get g1 b) as [nb1|] eqn:Hb1. 2:{ apply (bfr_none _ _ _ (cm_frame _ _ _ _ _ _ _ _ Hcm)) in Hb1. congruence. }
    assert (nvar nb = nvar nb1) as Hvb by (eapply bframe_nvar; [apply Hcm|done..]).
    assert (a <> 0%N) as Ha0. { intros ->. by rewrite (wf_zero _ _ (cm_wf _ _ _ _ _ _ _ _ Hcm)) in Ha. }
    assert (b <> 0%N) as Hb0. { intros ->. by rewrite (wf_zero _ _ (cm_wf _ _ _ _ _ _ _ _ Hcm)) in Hb. }
    (* a declared link of b to a that the phases left is still there *)
    assert (forall k, l ∈ e_opp E k -> glink g1 b a k -> has_link nb k a) as Hstay.
    { intros k Hlk HK. apply (glink_at g' b a k nb Hb). apply (cm_links _ _ _ _ _ _ _ _ Hcm). left. split; [done|].
      intros (l'&Hin&Hk'&_). pose proof (Hnv _ _ Hk') as Hv'.
      apply (lcr_exact _ _ _ _ _ _ _ _ a b l' Hcm Hb0 Hv') in Hin as [HK0 HK1]. apply HK1. eapply Hkeep'; eauto. }
    assert (glink g' a b l) as HK by by exists na. apply (cm_links _ _ _ _ _ _ _ _ Hcm) in HK as [[HK _]|(l'&Hin&_&(na1'&Hna1'&Hm))].
    - destruct (glink_dec g a b l) as [HK0|HK0].
      + destruct (old_both_ends E g t Hwf Hty Ht _ _ _ _ _ _ _ _ Hcm Hne HK0 Hb1) as (na0&nb0&Ha00&Hb00&Hvb0).
        destruct (Hans a b na0 nb0 l Ha00 Hb00) as (k&Hk&Hkl).
        * by apply (glink_at g a b l na0).
        * exists k0. split; [done|]. congruence.
        * exists k. split; [done|]. pose proof (Hsym _ _ Hk) as Hk'. apply Hstay; [done|]. eapply (Hkeep' b a k l); eauto. by exists nb0.
      + destruct (cm_done _ _ _ _ _ _ _ _ Hcm a b l nb1) as (k&Hk&Hg).
        * apply (lcr_exact _ _ _ _ _ _ _ _ a b l Hcm Hb0); eauto.
        * eauto.
        * done.
        * apply match_bd_nonempty. exists k0. split; [done|]. congruence.
        * exists k. apply elem_match_bd in Hk as [Hk _]. split; [done|]. by apply (glink_at g' b a k nb Hb).
    - assert (l ∈ match_bd na1' (e_opp E l')) as Hlin by (rewrite Hm; left). apply elem_match_bd in Hlin as [Hll' _].
      pose proof (Hsym _ _ Hll') as Hl'. exists l'. split; [done|]. apply Hstay; [done|].
      apply (lcr_exact _ _ _ _ _ _ _ _ b a l' Hcm Ha0); [|done]. by eapply Hnv.
  Qed.
End grouped.
