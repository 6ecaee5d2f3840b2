(** * What a successful commit does (proofs of the commit-level properties) *)
From Verif Require Export PropDefs SpecProofs.

Section facts.
  Context {D : Type} (E : env).
  Implicit Types (g : graph D) (t : trans D) (n : node D) (l k : link) (m : gmap N (node D)) (T : Prop).

  Lemma gmap_of_get g i : WF E g -> gmap_of g !! i = graph_get g i.
  Proof. intros Hwf. by apply (gmap_of_abs E). Qed.
  Lemma amap_get (a : arena D) i : arena_ok E a -> amap a !! i = arena_get a i.
  Proof. intros Ha. by apply (amap_abs E). Qed.
  Lemma ok_map_gmap g : WF E g -> ok_map E (gmap_of g).
  Proof. intros Hwf i n Hi. rewrite gmap_of_get in Hi by done. by eapply wf_nodes. Qed.
  Lemma ok_map_inc T g t : trans_ok E T g t -> ok_map E (amap (t_inc t)).
  Proof. intros Ht i n Hi. rewrite amap_get in Hi by apply Ht. by eapply to_nodes. Qed.

  Lemma bframe_agree g1 g' F :
    bframe F g1 g' -> (forall i k, F i k -> declared E k) ->
    forall i, option_Forall2 (agree_nonbidi E) (graph_get g1 i) (graph_get g' i).
  Proof.
    intros Hf HF i. destruct (graph_get g1 i) as [n|] eqn:Hi.
    - destruct (bfr_some _ _ _ Hf i n Hi) as (n'&->&Hv&Hd&Hl). constructor. split; [done|]. split; [done|].
      intros f Hnd. apply Hl. intros HFF. by apply HF in HFF.
    - rewrite (bfr_none _ _ _ Hf i Hi). constructor.
  Qed.

  Lemma committed_holds T g t g1 r m1 g' : committed E T g t g1 r m1 g' -> holds_nonbidi E g' m1.
  Proof.
    intros [? Hst ? Hf ??] i. rewrite (st_abs _ _ _ _ _ _ _ _ Hst). eapply bframe_agree; [done|].
    intros j k (x&l&_&Hk). by exists l.
  Qed.

  Lemma own_not_old T g t i n : trans_ok E T g t -> graph_get g i = Some n -> arena_get (t_inc t) i = None.
  Proof.
    intros Ht Hi. destruct (arena_get (t_inc t) i) eqn:Hn; [|done].
    assert (is_Some (arena_dispatch (t_inc t) i)) as Hd.
    { unfold arena_get in Hn. destruct (arena_dispatch (t_inc t) i); [eauto|done]. }
    apply (to_disj _ _ _ _ Ht) in Hd. unfold graph_get, arena_get in Hi. by rewrite Hd in Hi.
  Qed.
  Lemma sp_mutates_ok T fs m m' :
    ok_map E m -> (forall i f, (i, f) ∈ fs -> mut_ok E T f) -> sp_mutates fs m = Some m' -> ok_map E m'.
  Proof.
    revert m. induction fs as [|[i f] fs IH]; intros m Hok Hfs; cbn; [by intros [= <-]|].
    destruct (m !! i) as [n|] eqn:Hi; [|done]. destruct (f n) as [n' []|] eqn:Hf; [|done]. intros Hs.
    eapply (IH (<[i := n']> m)); [|intros; eapply Hfs; by right|exact Hs].
    intros j nj Hj. destruct (decide (j = i)) as [->|Hne].
    - rewrite lookup_insert in Hj. injection Hj as <-. eapply (Hfs i f); [left|by eapply Hok|done].
    - rewrite lookup_insert_ne in Hj by done. by eapply Hok.
  Qed.
  Lemma sp_updates_ok T fs m m' :
    ok_map E m -> (forall i f, (i, f) ∈ fs -> upd_ok E T f) -> sp_updates fs m = Some m' -> ok_map E m'.
  Proof.
    revert m. induction fs as [|[i f] fs IH]; intros m Hok Hfs; cbn; [by intros [= <-]|].
    destruct (m !! i) as [n|] eqn:Hi; [|done]. destruct (f n) as [n'|] eqn:Hf; [|done]. intros Hs.
    eapply (IH (<[i := n']> m)); [|intros; eapply Hfs; by right|exact Hs].
    intros j nj Hj. destruct (decide (j = i)) as [->|Hne].
    - rewrite lookup_insert in Hj. injection Hj as <-. eapply (Hfs i f); [left|by eapply Hok|done].
    - rewrite lookup_insert_ne in Hj by done. by eapply Hok.
  Qed.

  Lemma sp_commit_ok T g t m1 m2 m3 m4 :
    WF E g -> trans_ok E T g t ->
    sp_redirect (t_redir t) (gmap_of g) m1 -> sp_mutates (t_mut t) (amap (t_inc t) ∪ m1) = Some m2 ->
    sp_updates (t_upd t) m2 = Some m3 -> sp_redirect (t_redir_all t) m3 m4 ->
    ok_map E m1 /\ ok_map E m2 /\ ok_map E m3 /\ ok_map E m4.
  Proof.
    intros Hwf Ht H1 H2 H3 H4.
    assert (ok_map E m1) as Hok1 by (eapply sp_redirect_ok; [|exact H1]; by apply ok_map_gmap).
    assert (ok_map E m2) as Hok2.
    { eapply (sp_mutates_ok T); [|apply (to_mut _ _ _ _ Ht)|exact H2].
      apply union_ok; [by eapply ok_map_inc|done]. }
    assert (ok_map E m3) as Hok3 by (eapply (sp_updates_ok T); [|apply (to_upd _ _ _ _ Ht)|exact H3]; done).
    split; [done|]. split; [done|]. split; [done|]. by eapply sp_redirect_ok.
  Qed.

  Lemma sp_del_nz T g t m' :
    WF E g -> trans_ok E T g t -> sp_commit (trans_txn t) (gmap_of g) m' -> forall x, x ∈ t_dec t -> x <> 0%N.
  Proof.
    intros Hwf Ht (m1&m2&m3&m4&H1&H2&H3&H4&H5) x Hx ->.
    destruct (sp_removes_in _ _ _ H5 0%N Hx) as [n Hn].
    assert (is_Some (m4 !! 0%N)) as HS by eauto.
    apply (sp_redirect_dom _ _ _ H4), (sp_updates_dom _ _ _ H3), (sp_mutates_dom _ _ _ H2) in HS.
    cbn in HS. destruct HS as [n0 HS]. apply lookup_union_Some_raw in HS as [HS|[_ HS]].
    - rewrite amap_get in HS by apply Ht. by apply (to_nodes _ _ _ _ Ht) in HS as [_ ?].
    - assert (is_Some (m1 !! 0%N)) as HS' by eauto. apply (sp_redirect_dom _ _ _ H1) in HS'.
      rewrite gmap_of_get in HS' by done. rewrite (wf_zero _ _ Hwf) in HS'. by destruct HS'.
  Qed.

  Section one.
    Context (T : Prop) (g : graph D) (t : trans D).
    Hypothesis (Hwf : WF E g) (Hty : T -> gtyped g) (Ht : trans_ok E T g t).

    Lemma commit_done g' :
      commit E t g = Done g' tt ->
      ~ guard_fails E g t /\ exists g1 r m1, committed E T g t g1 r m1 g' /\ do_commit E t g = Done g' r /\
        forall x y l ny, (x, y, l) ∈ lc_adds r -> graph_get g' y = Some ny -> e_chk E (nvar ny) l = true.
    Proof using Hwf Hty Ht. intros Hc. pose proof (commit_spec E T g t Hwf Hty Ht) as H. by rewrite Hc in H. Qed.

    (** C03 *)
    Lemma commit_refines g' :
      commit E t g = Done g' tt ->
      exists m', sp_commit (trans_txn t) (gmap_of g) m' /\ holds_nonbidi E g' m'.
    Proof using Hwf Hty Ht.
      intros Hc. destruct (commit_done g' Hc) as (_&g1&r&m1&Hcm&_). exists m1.
      split; [apply Hcm|by eapply committed_holds].
    Qed.
    Lemma holds_exact g' m' :
      (forall l, e_opp E l = []) -> holds_nonbidi E g' m' -> forall i, graph_get g' i = m' !! i.
    Proof.
      intros Ho Hh i. destruct (Hh i) as [n n' (Hv&Hd&Hl)|]; [|done]. f_equal.
      destruct n, n'; cbn in *. subst. f_equal. apply list_eq. intros f. apply Hl.
      intros (l&Hk). rewrite Ho in Hk. by apply elem_of_nil in Hk.
    Qed.

    (** C04 *)
    Lemma commit_new_kept g' i n :
      commit E t g = Done g' tt ->
      own_node t i n -> unnamed t i -> avoids n ((t_redir_all t).*1 ++ t_dec t) ->
      exists n', graph_get g' i = Some n' /\ agree_nonbidi E n n'.
    Proof using Hwf Hty Ht.
      intros Hc Hi Hnn Hav. destruct (commit_refines g' Hc) as (m'&Hsp&Hh).
      assert (m' !! i = Some n) as Hm.
      { eapply sp_commit_new_untouched; [..|exact Hsp| | | |]; cbn.
        - apply Ht.
        - by eapply sp_del_nz.
        - rewrite amap_get by apply Ht. exact Hi.
        - by apply (to_nodes _ _ _ _ Ht) in Hi as [? _].
        - exact Hnn.
        - intros y Hy. apply Hav in Hy. apply not_elem_of_app in Hy. done. }
      specialize (Hh i). rewrite Hm in Hh. inversion Hh as [? n' Ha Heq|]; subst. by exists n'.
    Qed.
    Lemma commit_old_kept g' i n :
      commit E t g = Done g' tt ->
      graph_get g i = Some n -> unnamed t i -> avoids n ((t_redir t).*1 ++ (t_redir_all t).*1 ++ t_dec t) ->
      exists n', graph_get g' i = Some n' /\ agree_nonbidi E n n'.
    Proof using Hwf Hty Ht.
      intros Hc Hi Hnn Hav. destruct (commit_refines g' Hc) as (m'&Hsp&Hh).
      assert (m' !! i = Some n) as Hm.
      { eapply sp_commit_old_untouched; [..|exact Hsp| | | | |]; cbn.
        all: try apply Ht.
        - by eapply sp_del_nz.
        - rewrite amap_get by apply Ht. by eapply own_not_old.
        - by rewrite gmap_of_get.
        - by eapply wf_nodes.
        - exact Hnn.
        - intros y Hy. apply Hav in Hy. rewrite !not_elem_of_app in Hy. done. }
      specialize (Hh i). rewrite Hm in Hh. inversion Hh as [? n' Ha Heq|]; subst. by exists n'.
    Qed.

    (** C05 *)
    Lemma commit_removed g' x :
      commit E t g = Done g' tt -> x ∈ t_dec t ->
      graph_get g' x = None /\ forall i n, graph_get g' i = Some n -> ~ mentions n x.
    Proof using Hwf Hty Ht.
      intros Hc Hx. destruct (commit_done g' Hc) as (_&g1&r&m1&Hcm&_).
      pose proof (cm_spec _ _ _ _ _ _ _ _ Hcm) as Hsp. pose proof (cm_st _ _ _ _ _ _ _ _ Hcm) as Hst.
      assert (x <> 0%N) as Hx0 by by eapply sp_del_nz.
      assert (graph_get g1 x = None) as H1x.
      { rewrite <- (st_abs _ _ _ _ _ _ _ _ Hst). destruct (m1 !! x) eqn:Hm; [|done].
        destruct (proj1 (sp_commit_dom _ _ _ Hsp x)) as [_ Hn]; [by rewrite Hm|]. by destruct Hn. }
      split.
      { specialize (committed_holds _ _ _ _ _ _ _ Hcm x). rewrite (st_abs _ _ _ _ _ _ _ _ Hst), H1x.
        by inversion 1. }
      intros i n Hi (f&lv&Hf&Hin).
      assert (glink g' i x (Link (nvar n) f)) as Hgl.
      { exists n. split; [done|]. split; [done|]. split; [done|]. by exists lv. }
      apply (cm_links _ _ _ _ _ _ _ _ Hcm) in Hgl as [[Hgl _]|(l&_&[? Hs]&_)]; [|congruence].
      apply (ST_mlink _ _ _ _ _ _ _ _ _ _ _ Hst) in Hgl as (n1&Hn1&Hl).
      destruct Hsp as (?&m2&m3&m4&H1&H2&H3&H4&H5). rewrite (sp_removes_closed _ _ _ H5) in Hn1.
      case_decide; [done|]. destruct (m4 !! i) as [n4|] eqn:Hm4; [|done]. injection Hn1 as <-.
      apply (has_link_redirects0 E) in Hl as [_ Hn]; [done| |].
      - intros y Hy. eapply (sp_del_nz T g t m1); try done. by exists x0, m2, m3, m4.
      - assert (ok_map E m4) as Hok; [|by eapply Hok].
        by eapply (sp_commit_ok T g t).
    Qed.

    (** C06, C08, C11: what happens to the links of a node no closure was queued on *)
    Lemma commit_late_path m0 m2 m3 m4 m' i n :
      ok_map E m0 -> (forall x, x ∈ t_dec t -> x <> 0%N) ->
      sp_mutates (t_mut t) m0 = Some m2 -> sp_updates (t_upd t) m2 = Some m3 ->
      sp_redirect (t_redir_all t) m3 m4 -> sp_removes (t_dec t) m4 = Some m' ->
      m0 !! i = Some n -> unnamed t i ->
      exists n2 n3, node_rel (lv_redirected (t_redir_all t)) n n2 /\
        node_rel (lv_cleared (t_dec t)) n2 n3 /\ m' !! i = Some n3.
    Proof using Ht.
      intros Hok Hz H2 H3 (res&Hres&->) H5 Hi (Hm&Hu&Hd).
      assert (m3 !! i = Some n) as H3i.
      { rewrite (sp_updates_other _ _ _ _ H3 Hu). by rewrite (sp_mutates_other _ _ _ _ H2 Hm). }
      pose proof (Hok i n Hi) as Hokn.
      pose proof (node_redirects_spec E _ _ n (to_redir_all _ _ _ _ Ht) Hres Hokn) as Hn2.
      pose proof (node_redirects_ok E res n Hokn) as Hok2.
      pose proof (node_clear_spec E (t_dec t) _ Hz Hok2) as Hn3. cbv zeta in Hn3.
      eexists _, _. split; [exact Hn2|]. split; [exact Hn3|].
      rewrite (sp_removes_closed _ _ _ H5), decide_False by done. by rewrite lookup_fmap, H3i.
    Qed.
    Lemma commit_old_path g' i n :
      commit E t g = Done g' tt ->
      graph_get g i = Some n -> unnamed t i ->
      exists n1 n2 n3 n', node_rel (lv_redirected (t_redir t)) n n1 /\
        node_rel (lv_redirected (t_redir_all t)) n1 n2 /\
        node_rel (lv_cleared (t_dec t)) n2 n3 /\ graph_get g' i = Some n' /\ agree_nonbidi E n3 n'.
    Proof using Hwf Hty Ht.
      intros Hc Hi Hun. destruct (commit_refines g' Hc) as (m'&Hsp&Hh).
      pose proof (sp_del_nz T g t m' Hwf Ht Hsp) as Hz.
      destruct Hsp as (m1&m2&m3&m4&H1&H2&H3&H4&H5). cbn in *.
      pose proof (sp_commit_ok T g t _ _ _ _ Hwf Ht H1 H2 H3 H4) as (Hok1&_).
      destruct H1 as (res&Hres&->). pose proof (wf_nodes _ _ Hwf i n Hi) as Hokn.
      pose proof (node_redirects_spec E _ _ n (to_redir _ _ _ _ Ht) Hres Hokn) as Hn1.
      edestruct (commit_late_path (amap (t_inc t) ∪ (node_redirects res <$> gmap_of g)) m2 m3 m4 m' i (node_redirects res n))
        as (n2&n3&Hr2&Hr3&Hm'); try done.
      - apply union_ok; [by eapply ok_map_inc|done].
      - rewrite lookup_union_r; [by rewrite lookup_fmap, gmap_of_get, Hi|].
        rewrite amap_get by apply Ht. by eapply own_not_old.
      - specialize (Hh i). rewrite Hm' in Hh. inversion Hh as [? n' Ha Heq|]; subst.
        exists (node_redirects res n), n2, n3, n'. done.
    Qed.
    Lemma commit_new_path g' i n :
      commit E t g = Done g' tt ->
      own_node t i n -> unnamed t i ->
      exists n2 n3 n', node_rel (lv_redirected (t_redir_all t)) n n2 /\
        node_rel (lv_cleared (t_dec t)) n2 n3 /\ graph_get g' i = Some n' /\ agree_nonbidi E n3 n'.
    Proof using Hwf Hty Ht.
      intros Hc Hi Hun. destruct (commit_refines g' Hc) as (m'&Hsp&Hh).
      pose proof (sp_del_nz T g t m' Hwf Ht Hsp) as Hz.
      destruct Hsp as (m1&m2&m3&m4&H1&H2&H3&H4&H5). cbn in *.
      pose proof (sp_commit_ok T g t _ _ _ _ Hwf Ht H1 H2 H3 H4) as (Hok1&_).
      edestruct (commit_late_path (amap (t_inc t) ∪ m1) m2 m3 m4 m' i n)
        as (n2&n3&Hr2&Hr3&Hm'); try done.
      - apply union_ok; [by eapply ok_map_inc|done].
      - apply lookup_union_Some_l. by rewrite amap_get by apply Ht.
      - specialize (Hh i). rewrite Hm' in Hh. inversion Hh as [? n' Ha Heq|]; subst.
        exists n2, n3, n'. done.
    Qed.

    (** C06: the remove step, for every transaction *)
    Lemma commit_remove_step g' :
      commit E t g = Done g' tt ->
      exists m4, sp_commit (trans_txn (with_dec t [])) (gmap_of g) m4 /\
        (forall x, x ∈ t_dec t -> is_Some (m4 !! x)) /\
        forall i, if decide (i ∈ t_dec t) then graph_get g' i = None
          else option_Forall2 (fun n n' => exists n3, node_rel (lv_cleared (t_dec t)) n n3 /\ agree_nonbidi E n3 n')
                 (m4 !! i) (graph_get g' i).
    Proof using Hwf Hty Ht.
      intros Hc. destruct (commit_refines g' Hc) as (m'&Hsp&Hh).
      pose proof (sp_del_nz T g t m' Hwf Ht Hsp) as Hz.
      destruct Hsp as (m1&m2&m3&m4&H1&H2&H3&H4&H5).
      pose proof (sp_commit_ok T g t _ _ _ _ Hwf Ht H1 H2 H3 H4) as (Hok1&_&_&Hok4).
      exists m4. split; [by exists m1, m2, m3, m4|]. split; [by eapply sp_removes_in|].
      intros i. specialize (Hh i). rewrite (sp_removes_closed _ _ _ H5) in Hh.
      cbn [trans_txn x_del] in Hh. case_decide; [by inversion Hh|].
      destruct (m4 !! i) as [n|] eqn:Hi; cbn in Hh; inversion Hh as [? n' Ha Heq|]; subst; constructor.
      eexists. split; [|exact Ha]. apply (node_clear_spec E (t_dec t) n Hz). by eapply Hok4.
    Qed.

    (** C09 *)
    Lemma commit_redir_all_none g' i n f lv o :
      commit E t g = Done g' tt -> o ∈ (t_redir_all t).*1 ->
      graph_get g' i = Some n -> ~ declared E (Link (nvar n) f) ->
      nlinks n !! f = Some lv -> o ∉ lv_elems lv.
    Proof using Hwf Hty Ht.
      intros Hc Ho Hi Hnd Hf Hin. destruct (commit_refines g' Hc) as (m'&Hsp&Hh).
      pose proof (sp_del_nz T g t m' Hwf Ht Hsp) as Hz.
      destruct Hsp as (m1&m2&m3&m4&H1&H2&H3&H4&H5).
      pose proof (sp_commit_ok T g t _ _ _ _ Hwf Ht H1 H2 H3 H4) as (Hok1&_&Hok3&Hok4).
      destruct H4 as (res&Hres&->). pose proof (to_redir_all _ _ _ _ Ht o Ho) as Ho0.
      specialize (Hh i). rewrite Hi in Hh. inversion Hh as [n' ? (Hv&Hd&Hl) Heq|]; subst. symmetry in Heq.
      rewrite (sp_removes_closed _ _ _ H5) in Heq. case_decide; [done|].
      rewrite lookup_fmap in Heq. destruct (m3 !! i) as [n3|] eqn:Hi3; [|done]. cbn in Heq. injection Heq as <-.
      set (nr := node_redirects res n3) in *.
      rewrite Hv in Hnd. rewrite Hl in Hf by done.
      assert (has_link (node_redirects ((fun x => (x, 0%N)) <$> t_dec t) nr) (Link (nvar nr) f) o) as HL.
      { split; [done|]. split; [by rewrite node_redirects_nvar|]. by exists lv. }
      apply (has_link_redirects0 E) in HL as [HL _]; [|done|by apply node_redirects_ok, (Hok3 i)].
      apply (node_redirects_none E) in HL; [|eapply resolved_ok; [apply (to_redir_all _ _ _ _ Ht)|done]|by apply (Hok3 i)].
      destruct HL. by rewrite (resolved_keys _ _ Hres).
    Qed.
  End one.

  (** the redirect step itself (also with repeated sources) *)
  Lemma redirect_step_none g r reps g' r' i n o :
    WF E g -> (forall o, o ∈ reps.*1 -> o <> 0%N) -> LC E r (glink g) (glink g) ->
    redirect_links_vec reps (g, r) = Done (g', r') tt ->
    o ∈ reps.*1 -> graph_get g' i = Some n -> ~ links_to n o.
  Proof.
    intros Hwf Hz HLC Hd Ho Hi [l Hl].
    pose proof (redirect_links_vec_wp E reps g r (glink g) Hz Hwf HLC) as Hwp.
    unfold wp in Hwp. rewrite Hd in Hwp. destruct Hwp as (res&Hres&_&Hrd).
    rewrite (rds_get _ _ _ _ _ _ Hrd) in Hi. destruct (graph_get g i) as [n0|] eqn:Hg; [|done].
    injection Hi as <-. apply (node_redirects_none E) in Hl; [|by eapply resolved_ok|by eapply wf_nodes].
    destruct Hl. by rewrite (resolved_keys _ _ Hres).
  Qed.
End facts.
