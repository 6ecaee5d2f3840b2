(** * Deserialization with bidirectional links: the exact result, and when it succeeds *)
From Verif Require Export SerFinal Exact.

Section completed.
  Context {D : Type} (E : env) (L : list (idx * node D)).
  (** the entries [L] of serialized data contain a link from [x] to [y] *)
  Definition entry_link (x y : idx) (l : link) : Prop := exists n, (x, n) ∈ L /\ has_link n l y.
  (** the links of the entries, and the opposites of these links where there is only one
      possible opposite *)
  Definition completed (a b : idx) (k : link) : Prop :=
    entry_link a b k \/ exists l na, entry_link b a l /\ (a, na) ∈ L /\ opposites_on E l (nvar na) = [k].
  (** no direct opposite is claimed by two nodes *)
  Definition unclaimed : Prop :=
    forall x y l ny k, entry_link x y l -> (y, ny) ∈ L -> opposites_on E l (nvar ny) = [k] -> linkkind E k = Some KDirect ->
      forall z, completed y z k -> z = x.
End completed.

Section deser.
  Context {D : Type} (E : env).
  Implicit Types (g : graph D) (n : node D) (L : list (idx * node D)).

  Section mg.
    Context (ctx : N) (a : arena D) (g1 : graph D) (r : lcr) (L : list (idx * node D)).
    Context (Hmg : merged E ctx a g1 r) (Hfi : from_iter E L a) (Hnd : NoDup L.*1).
    Lemma mg_entry x n : graph_get g1 x = Some n <-> (x, n) ∈ L.
    Proof using Hmg Hfi Hnd. rewrite (mg_get _ _ _ _ _ Hmg), (fi_get _ _ _ Hfi). by apply omap_get_iff. Qed.
    Lemma mg_link x y l : glink g1 x y l <-> entry_link L x y l.
    Proof using Hmg Hfi Hnd. unfold glink, entry_link. by setoid_rewrite mg_entry. Qed.
    Lemma mg_adds x y l : nonvec E l -> (x, y, l) ∈ lc_adds r <-> entry_link L x y l.
    Proof using Hmg Hfi Hnd.
      intros Hl. rewrite <- mg_link. pose proof (mg_lc _ _ _ _ _ Hmg) as Hlc. split.
      - intros Hin. apply (lc_a _ _ _ _ Hlc) in Hin; [by apply Hin|by eapply (lc_nz_a _ _ _ _ Hlc)|done].
      - intros H. apply (lc_a _ _ _ _ Hlc); [by eapply glink_nz|done|]. split; [done|]. by intros [].
    Qed.
    Lemma mg_completed x y k : (forall l k, k ∈ e_opp E l -> nonvec E l) ->
      bidi_links E (lc_rems r) (lc_adds r) g1 x y k <-> completed E L x y k.
    Proof using Hmg Hfi Hnd.
      intros Hnv. unfold bidi_links, completed, sole_opp. rewrite (mg_rems _ _ _ _ _ Hmg), mg_link. split.
      - intros [[H _]|(l&Hl&_&na&Ha&Hm)]; [by left|]. right. rewrite opposites_match in Hm. exists l, na.
        split; [apply mg_adds; [by eapply nonvec_opp|done]|]. by rewrite <- mg_entry.
      - intros [H|(l&na&Hl&Ha&Hm)]; [left|right].
        + split; [done|]. intros (l&Hin&_). by apply elem_of_nil in Hin.
        + exists l. split; [apply mg_adds; [by eapply nonvec_opp|done]|].
          split; [destruct Hl as (n&Hn&_); exists n; by rewrite mg_entry|].
          exists na. rewrite mg_entry, opposites_match. done.
    Qed.
  End mg.

  Lemma deser_ok s cnt g : (forall i n, (i, n) ∈ gs_nodes s -> node_ok E n /\ i <> 0%N) -> deserialize_graph E s = Ok (cnt, g) ->
    NoDup (gs_nodes s).*1 /\ exists a g1 r, from_iter E (gs_nodes s) a /\ rebuilt E (gs_ctx s) a g1 r g.
  Proof.
    intros Hok. unfold deserialize_graph. pose proof (do_deserialize_spec E (gs_ctx s) (gs_nodes s) Hok) as H.
    destruct (do_deserialize E (gs_ctx s) (gs_nodes s)); [|done]. by intros [= _ <-].
  Qed.

  Lemma final_deser_links s cnt g : (forall l k, k ∈ e_opp E l -> nonvec E l) -> (forall i n, (i, n) ∈ gs_nodes s -> node_ok E n /\ i <> 0%N) ->
    deserialize_graph E s = Ok (cnt, g) ->
    g_ctx g = gs_ctx s /\ (forall i, is_Some (graph_get g i) -> i ∈ (gs_nodes s).*1) /\
    (forall i n, (i, n) ∈ gs_nodes s -> exists n', graph_get g i = Some n' /\ agree_nonbidi E n n') /\
    (forall a b k, in_graph g a b k <-> completed E (gs_nodes s) a b k).
  Proof.
    intros Hnv Hok Hd. destruct (deser_ok s cnt g Hok Hd) as (Hnd&a&g1&r&Hfi&[Hmg _ Hfr Hln _]).
    assert (forall i, option_Forall2 (agree_nonbidi E) (graph_get g1 i) (graph_get g i)) as Hag.
    { eapply bframe_agree; [done|]. intros j k (x&l&_&Hk). by exists l. }
    split; [rewrite (bfr_ctx _ _ _ Hfr); apply Hmg|]. split; [|split].
    - intros i [n Hi]. specialize (Hag i). rewrite Hi in Hag. inversion Hag as [n1 ? _ Heq|]; subst. symmetry in Heq.
      rewrite (mg_entry _ _ _ _ _ Hmg Hfi Hnd) in Heq. apply elem_of_list_fmap. by exists (i, n1).
    - intros i n Hi. rewrite <- (mg_entry _ _ _ _ _ Hmg Hfi Hnd) in Hi. specialize (Hag i). rewrite Hi in Hag.
      inversion Hag as [? n' Hn Heq|]; subst. eauto.
    - intros x y k. rewrite <- (mg_completed _ _ _ _ _ Hmg Hfi Hnd) by done. apply Hln.
  Qed.

  Lemma final_deser_fails s p : bidi_fields E -> (forall i n, (i, n) ∈ gs_nodes s -> node_ok E n /\ i <> 0%N) ->
    (forall l v, length (opposites_on E l v) <= 1) -> deserialize_graph E s = Err p ->
    (p = PDupIndex /\ ~ NoDup (gs_nodes s).*1) \/ (p = PAddOccupied /\ NoDup (gs_nodes s).*1 /\ ~ unclaimed E (gs_nodes s)).
  Proof.
    intros Hbf Hok Hone. unfold deserialize_graph. pose proof (do_deserialize_spec E (gs_ctx s) (gs_nodes s) Hok) as H.
    destruct (do_deserialize E (gs_ctx s) (gs_nodes s)) as [|q]; [done|]. intros [= ->].
    destruct H as [H|(Hnd&a&g1&r&Hfi&Hmg&Hb)]; [by left|right].
    assert (forall l k, k ∈ e_opp E l -> nonvec E l) as Hnv by (intros l k Hk; by eapply Hbf).
    destruct Hb as [(x&y&l&k&Hin&_)|(x&y&l&ny&Hin&Hy&Hx&Hcase)].
    { rewrite (mg_rems _ _ _ _ _ Hmg) in Hin. by apply elem_of_nil in Hin. }
    rewrite opposites_match in Hcase. destruct Hcase as [(_&Hlen&_)|(k&Hk&Hcase)].
    { specialize (Hone l (nvar ny)). lia. }
    assert (k ∈ opposites_on E l (nvar ny)) as Hko by (rewrite Hk; left). apply elem_of_list_filter in Hko as [_ Hko].
    destruct Hcase as [Hbad|(->&Hd&z&Hz&Hbl)].
    { destruct (Hbf _ _ Hko) as [_ Hkind]. unfold badkind in Hbad. naive_solver congruence. }
    split; [done|]. split; [done|]. intros Hu. apply Hz. eapply Hu; [|by rewrite <- (mg_entry _ _ _ _ _ Hmg Hfi Hnd)|done|done|].
    - apply (mg_adds _ _ _ _ _ Hmg Hfi Hnd); [by eapply Hnv|done].
    - by apply (mg_completed _ _ _ _ _ Hmg Hfi Hnd).
  Qed.

  Lemma final_deser_success s : bidi_fields E -> (forall i n, (i, n) ∈ gs_nodes s -> node_ok E n /\ i <> 0%N) ->
    (forall l v, length (opposites_on E l v) <= 1) ->
    (exists cnt g, deserialize_graph E s = Ok (cnt, g)) <-> NoDup (gs_nodes s).*1 /\ unclaimed E (gs_nodes s).
  Proof.
    intros Hbf Hok Hone. assert (forall l k, k ∈ e_opp E l -> nonvec E l) as Hnv by (intros l k Hk; by eapply Hbf). split.
    - intros (cnt&g&Hd). destruct (deser_ok s cnt g Hok Hd) as (Hnd&a&g1&r&Hfi&[Hmg Hwf Hfr Hln _]). split; [done|].
      intros x y l ny k Hl Hy Hopp Hk z Hz. pose proof (mg_completed _ _ _ _ _ Hmg Hfi Hnd) as Hcp.
      assert (glink g y z k) as (n1&Hg1&Hl1) by (by apply Hln, Hcp).
      assert (glink g y x k) as (n2&Hg2&Hl2). { apply Hln, Hcp; [done|]. right. by exists l, ny. }
      assert (n2 = n1) as -> by congruence. destruct (wf_nodes _ _ Hwf y n1 Hg1) as (ks&Hks&HF).
      destruct Hl1 as (_&Hv1&lv&Hlv&Hin1), Hl2 as (_&_&lv2&Hlv2&Hin2). assert (lv2 = lv) as -> by congruence.
      destruct (Forall2_lookup_r _ _ _ _ _ HF Hlv) as (kd&Hkd&[Hko _]).
      unfold linkkind in Hk. rewrite <- Hv1, Hks in Hk. cbn in Hk. assert (kd = KDirect) as -> by congruence.
      destruct lv; cbn in Hko; try done. cbn in Hin1, Hin2. apply elem_of_list_singleton in Hin1, Hin2. congruence.
    - intros [Hnd Hu]. destruct (deserialize_graph E s) as [[cnt g]|p] eqn:Hd; [by eauto|].
      destruct (final_deser_fails s p Hbf Hok Hone Hd) as [[_ ?]|(_&_&?)]; done.
  Qed.

  Lemma final_deser_symmetric s cnt g : single_choice E -> (forall i n, (i, n) ∈ gs_nodes s -> node_ok E n /\ i <> 0%N) ->
    deserialize_graph E s = Ok (cnt, g) -> bidi_symmetric E g.
  Proof.
    intros Hsc Hok Hd. assert (forall l k, k ∈ e_opp E l -> nonvec E l) as Hnv.
    { intros l k Hk. eapply (sc_nonvec _ Hsc), (sc_sym _ Hsc), Hk. }
    destruct (final_deser_links s cnt g Hnv Hok Hd) as (_&_&Hag&Hln).
    assert (forall a b na nb l k, graph_get g a = Some na -> graph_get g b = Some nb ->
      k ∈ e_opp E l -> l_var l = nvar na -> l_var k = nvar nb -> has_link na l b -> has_link nb k a) as Hdir.
    { intros a b na nb l k Ha Hb Hk Hla Hkb Hl.
      assert (in_graph g b a k) as (nb'&Hb'&Hl'); [|by assert (nb' = nb) as -> by congruence].
      apply Hln. assert (in_graph g a b l) as HL by by exists na. apply Hln in HL as [HL|(l'&na'&HL&Ha'&Hop)].
      - right. assert (exists nb0, (b, nb0) ∈ gs_nodes s) as (nb0&Hb0).
        { destruct (deser_ok s cnt g Hok Hd) as (Hnd&a0&g1&r&Hfi&[Hmg _ Hfr _ _]).
          destruct (graph_get g1 b) as [nb0|] eqn:Hb0; [|rewrite (bfr_none _ _ _ Hfr b Hb0) in Hb; done].
          exists nb0. by rewrite <- (mg_entry _ _ _ _ _ Hmg Hfi Hnd). }
        exists l, nb0. split; [done|]. split; [done|]. destruct (Hag b nb0 Hb0) as (nb'&Hb'&Hv&_).
        assert (nb' = nb) as -> by congruence. rewrite <- opposites_match.
        destruct (single_sole E g b nb l k Hsc Hb Hk Hkb) as (n'&Hn'&Hm). assert (n' = nb) as -> by congruence.
        rewrite !opposites_match in *. congruence.
      - left. assert (l ∈ opposites_on E l' (nvar na')) as Hin by (rewrite Hop; left).
        apply elem_of_list_filter in Hin as [_ Hin]. assert (l' = k) as ->; [|done].
        apply (sc_uniq _ Hsc l); [by apply (sc_sym _ Hsc)|done|].
        destruct HL as (nb0&Hb0&(_&Hv&_)). destruct (Hag b nb0 Hb0) as (nb'&Hb'&Hv'&_). assert (nb' = nb) as -> by congruence.
        congruence. }
    intros a b na nb l k Ha Hb Hk Hla Hkb. split; [by eapply Hdir|]. eapply Hdir; try done. by apply (sc_sym _ Hsc).
  Qed.

  Lemma final_deser_typed s cnt g : (forall l k, k ∈ e_opp E l -> nonvec E l) -> bidi_typed E ->
    (forall i n, (i, n) ∈ gs_nodes s -> node_ok E n /\ i <> 0%N) ->
    (forall x y n l, (y, n) ∈ gs_nodes s -> entry_link (gs_nodes s) x y l -> e_chk E (nvar n) l = true) ->
    deserialize_graph E s = Ok (cnt, g) ->
    forall x y nx ny l, graph_get g x = Some nx -> has_link nx l y -> graph_get g y = Some ny -> e_chk E (nvar ny) l = true.
  Proof.
    intros Hnv Hbt Hok Het Hd. destruct (final_deser_links s cnt g Hnv Hok Hd) as (_&Hdom&Hag&Hln).
    assert (forall y ny, graph_get g y = Some ny -> exists n, (y, n) ∈ gs_nodes s /\ nvar n = nvar ny) as Hent.
    { intros y ny Hy. assert (y ∈ (gs_nodes s).*1) as ([y' n]&->&Hin)%elem_of_list_fmap by (apply Hdom; eauto). cbn in *.
      exists n. split; [done|]. destruct (Hag y' n Hin) as (n'&Hn'&Hv&_). congruence. }
    intros x y nx ny l Hx Hl Hy. destruct (Hent y ny Hy) as (n&Hn&<-).
    assert (in_graph g x y l) as HL by by exists nx. apply Hln in HL as [HL|(l'&na&HL&Ha&Hop)]; [by eapply Het|].
    assert (l ∈ opposites_on E l' (nvar na)) as Hin by (rewrite Hop; left). apply elem_of_list_filter in Hin as [_ Hin].
    destruct HL as (n0&Hn0&_&Hv0&_). destruct (Hag y n0 Hn0) as (n'&Hn'&Hv'&_). destruct (Hag y n Hn) as (n''&Hn''&Hv''&_).
    assert (nvar n = l_var l') as -> by congruence. by apply Hbt.
  Qed.
End deser.
