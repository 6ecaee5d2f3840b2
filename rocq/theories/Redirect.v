(** * Redirecting links and removing nodes *)
From Verif Require Export GraphPhases.

Section redirect.
  Context {D : Type} (E : env).
  Implicit Types (g : graph D) (n : node D) (x y : idx) (s : source).

  Definition Pset (P : list (idx * source)) (i : idx) : source -> bool :=
    fun s => bool_decide ((i, s) ∈ P).

  (** [node_modify] on a node that is partially redirected *)
  Lemma node_modify_wp g g0 r K0 y s old new P n :
    arena_ok E (g_nodes g) ->
    graph_get g0 y = Some n -> node_ok E n -> src_val n s old ->
    graph_get g y = Some (node_partial (Pset P y) old new n) ->
    (forall s', (y, s') ∈ P -> src_val n s' old) ->
    (y, s) ∉ P -> old <> 0%N -> old <> new ->
    LC E r K0 (glink g) ->
    wp (node_modify y s old new) (g, r)
      (fun fl '(g', r') => r' = r /\ g_ctx g' = g_ctx g /\ g_back g' = g_back g /\
         arena_ok E (g_nodes g') /\
         (forall j, arena_dispatch (g_nodes g') j = arena_dispatch (g_nodes g) j) /\
         (forall i, graph_get g' i = if decide (i = y)
            then Some (node_partial (Pset (P ++ [(y, s)]) y) old new n) else graph_get g i) /\
         LC E (let r1 := if fl.2 then lcr_add y new (src_link s) r else r in
               if fl.1 then lcr_rem y old (src_link s) r1 else r1) K0 (glink g') /\
         (new = 0%N -> LC E (lcr_rem y old (src_link s) r) K0 (glink g')))
      (fun _ _ => False).
  Proof.
    intros Hok Hg0 Hnok Hs Hg HP HsP Ho Hne HLC.
    destruct (modify_link_partial E (Pset P y) old new n s Hnok) as (rm&ad&Hm&Hfl); try done.
    { by apply bool_decide_eq_false. }
    unfold wp, node_modify. rewrite Hg, Hm.
    rewrite (node_partial_ext _ (Pset (P ++ [(y, s)]) y)).
    2:{ intros s' _. unfold Pset. apply Bool.eq_iff_eq_true.
        rewrite orb_true_iff, !bool_decide_eq_true, elem_of_app, elem_of_list_singleton. naive_solver. }
    assert (forall i, graph_get (with_nodes g (arena_set (g_nodes g) y (node_partial (Pset (P ++ [(y, s)]) y) old new n))) i =
      if decide (i = y) then Some (node_partial (Pset (P ++ [(y, s)]) y) old new n) else graph_get g i) as Hget.
    { intros i. unfold graph_get. cbn. by eapply (arena_set_get (g_nodes g) y). }
    split; [done|]. split; [done|]. split; [done|]. split; [by apply arena_set_ok|].
    split; [intros j; apply arena_set_dispatch|]. split; [exact Hget|].
    set (g' := with_nodes _ _) in *.
    (* links before and after *)
    assert (forall s', Pset P y s' = true -> src_val n s' old) as HP1.
    { intros s' Hs'. apply bool_decide_eq_true in Hs'. by apply HP. }
    assert (forall s', Pset (P ++ [(y, s)]) y s' = true -> src_val n s' old) as HP2.
    { intros s' Hs'. apply bool_decide_eq_true in Hs'. apply elem_of_app in Hs' as [?|Hs']; [auto|].
      apply elem_of_list_singleton in Hs'. by injection Hs' as ->. }
    assert (forall z l, nonvec E l -> glink g y z l <->
      has_link (node_partial (Pset P y) old new n) l z) as Hgl.
    { intros z l _. unfold glink. rewrite Hg. naive_solver. }
    assert (forall x z l, glink g' x z l <->
      if decide (x = y) then has_link (node_partial (Pset (P ++ [(y, s)]) y) old new n) l z
      else glink g x z l) as Hgl'.
    { intros x z l. unfold glink. rewrite Hget. case_decide; naive_solver. }
    destruct (s_pos s) as [p|] eqn:Hp.
    - (* a Vec source: nothing changes for the other links *)
      assert (~ nonvec E (src_link s)) as Hv.
      { rewrite (src_nonvec E n s old) by done. by rewrite Hp. }
      assert (forall x z l, z <> 0%N -> nonvec E l -> glink g x z l <-> glink g' x z l) as Hsame.
      { intros x z l Hz Hl. rewrite Hgl'. case_decide as Hx; [subst x|done].
        rewrite Hgl by done. rewrite !(has_link_partial E) by done.
        assert (Pset (P ++ [(y, s)]) y (Src (l_var l) (l_fld l) None) =
                Pset P y (Src (l_var l) (l_fld l) None)) as ->; [|done].
        unfold Pset. apply bool_decide_ext. rewrite elem_of_app, elem_of_list_singleton.
        split; [|auto]. intros [?|[= Hq]]; [done|]. subst s. by cbn in Hp. }
      assert (forall r0 x, LC E r0 K0 (glink g) -> LC E (lcr_add y x (src_link s) r0) K0 (glink g)) as Hadd.
      { intros r0 x HLC0. eapply LC_ext; [apply LC_add; [done|done]|].
        intros x' y' l' _ Hl. split; [|auto]. intros [?|[= -> -> ->]]; [done|]. by destruct Hv. }
      assert (forall r0 x, LC E r0 K0 (glink g) -> LC E (lcr_rem y x (src_link s) r0) K0 (glink g)) as Hrem.
      { intros r0 x HLC0. eapply LC_ext; [apply LC_rem; [done|done]|].
        intros x' y' l' _ Hl. split; [naive_solver|]. intros ?. split; [done|].
        intros [= -> -> ->]. by destruct Hv. }
      split; [|intros _]; (eapply LC_ext; [|exact Hsame]); cbn; [|by auto].
      destruct ad, rm; auto.
    - assert (nonvec E (src_link s)) as Hv by by rewrite (src_nonvec E n s old).
      destruct (Hfl eq_refl) as [-> Had]. clear Hfl.
      assert (Src (l_var (src_link s)) (l_fld (src_link s)) None = s) as Hss.
      { destruct s; cbn in *. by subst. }
      assert (Pset P y s = false) as HPs by by apply bool_decide_eq_false.
      assert (Pset (P ++ [(y, s)]) y s = true) as HPs'.
      { apply bool_decide_eq_true. rewrite elem_of_app, elem_of_list_singleton. auto. }
      assert (forall z, glink g y z (src_link s) <-> has_link n (src_link s) z) as Hbefore.
      { intros z. rewrite Hgl, (has_link_partial E) by done. by rewrite Hss, HPs. }
      assert (forall z, glink g' y z (src_link s) <->
        (has_link n (src_link s) z /\ z <> old) \/ (z = new /\ new <> 0%N)) as Hafter.
      { intros z. rewrite Hgl', decide_True, (has_link_partial E) by done. by rewrite Hss, HPs'. }
      assert (forall x z l, nonvec E l -> (x <> y \/ l <> src_link s) -> glink g x z l <-> glink g' x z l) as Hother.
      { intros x z l Hl Hxl. rewrite Hgl'. case_decide as Hx; [subst x|done].
        rewrite Hgl by done. rewrite !(has_link_partial E) by done.
        assert (Pset (P ++ [(y, s)]) y (Src (l_var l) (l_fld l) None) =
                Pset P y (Src (l_var l) (l_fld l) None)) as ->; [|done].
        unfold Pset. apply bool_decide_ext. rewrite elem_of_app, elem_of_list_singleton.
        split; [|auto]. intros [?|Hq]; [done|]. injection Hq as Hq.
        destruct Hxl as [?|Hne']; [done|]. destruct Hne'. rewrite <- Hq. by destruct l. }
      assert (has_link n (src_link s) old) as Hlold by by apply src_val_has_link.
      assert (new = 0%N -> LC E (lcr_rem y old (src_link s) r) K0 (glink g')) as Hzero.
      { intros Hn0. eapply LC_ext.
        - apply LC_rem; [exact HLC|]. intros _ _. by apply Hbefore.
        - intros x z l Hz Hl. cbn. destruct (decide (x = y /\ l = src_link s)) as [[-> ->]|Hxl].
          + rewrite Hbefore, Hafter. split; [|naive_solver]. intros [? Hn]. left. split; [done|].
            intros ->. done.
          + rewrite <- (Hother x z l Hl).
            * split; [naive_solver|]. intros ?. split; [done|]. intros [= -> -> ->]. naive_solver.
            * destruct (decide (x = y)); [right|left]; naive_solver. }
      split; [|exact Hzero]. cbn. destruct ad.
      + destruct Had as [Had _]. destruct Had as [Hn0 Hnl]; [done|].
        eapply LC_ext.
        * apply LC_rem; [apply LC_add; [exact HLC|]|].
          -- intros _ _. by rewrite Hbefore.
          -- intros _ _. left. by apply Hbefore.
        * intros x z l Hz Hl. cbn. destruct (decide (x = y /\ l = src_link s)) as [[-> ->]|Hxl].
          -- rewrite Hbefore, Hafter. split.
             ++ intros [[Hh|[= ->]] Hn]; [|by right]. left. split; [done|]. intros ->. done.
             ++ intros [[Hh Hzo]|[-> _]]; (split; [by auto|]); intros [= ?]; done.
          -- rewrite <- (Hother x z l Hl).
             ++ split; [naive_solver|]. intros ?. split; [auto|]. intros [= -> -> ->]. naive_solver.
             ++ destruct (decide (x = y)); [right|left]; naive_solver.
      + eapply LC_ext.
        * apply LC_rem; [exact HLC|]. intros _ _. by apply Hbefore.
        * intros x z l Hz Hl. cbn. destruct (decide (x = y /\ l = src_link s)) as [[-> ->]|Hxl].
          -- rewrite Hbefore, Hafter. split.
             ++ intros [Hh Hn]. left. split; [done|]. intros ->. done.
             ++ intros [[Hh Hzo]|[-> Hn0]].
                ** split; [done|]. by intros [= ?].
                ** destruct (has_link_dec n (src_link s) new) as [?|Hn].
                   --- split; [done|]. by intros [= ?].
                   --- destruct Had as [_ Had]. by discriminate Had.
          -- rewrite <- (Hother x z l Hl).
             ++ split; [naive_solver|]. intros ?. split; [done|]. intros [= -> -> ->]. naive_solver.
             ++ destruct (decide (x = y)); [right|left]; naive_solver.
  Qed.

  Record redirected g g' r' K0 old new : Prop := {
    rd_wf : WF E g';
    rd_ctx : g_ctx g' = g_ctx g;
    rd_disp : forall j, arena_dispatch (g_nodes g') j = arena_dispatch (g_nodes g) j;
    rd_get : forall i, graph_get g' i = node_redirect old new <$> graph_get g i;
    rd_lc : LC E r' K0 (glink g');
    rd_has : forall y, hasback g' y <-> hasback g y \/ y = new }.

  Lemma redirect_links_wp g r K0 old new :
    WF E g -> LC E r K0 (glink g) -> old <> 0%N -> old <> new ->
    wp (redirect_links old new) (g, r)
      (fun _ '(g', r') => hasback g old /\ redirected g g' r' K0 old new)
      (fun p st => p = PUnwrap /\ ~ hasback g old /\ st = (g, r)).
  Proof.
    intros Hwf HLC Ho Hne. unfold redirect_links. apply wp_bind.
    unfold wp at 1. destruct (omap_get old (g_back g)) as [b|] eqn:Hb.
    2:{ split; [done|]. split; [|done]. unfold hasback. rewrite Hb. by intros [? ?]. }
    assert (hasback g old) as Hold by by exists b.
    assert (NoDup b) as Hndb by by eapply (wf_nd _ _ Hwf).
    assert (forall y s, (y, s) ∈ b -> exists n, graph_get g y = Some n /\ src_val n s old) as Hb3.
    { intros y s Hin. eapply (wf_b3 _ _ Hwf); [done|]. by exists b. }
    assert (forall y n s, graph_get g y = Some n -> src_val n s old -> (y, s) ∈ b) as Hb2.
    { intros y n s Hg Hs. destruct (wf_b2 _ _ Hwf _ _ _ _ Hg Hs) as (b'&Hb'&Hin). congruence. }
    set (g1 := with_back g (omap_insert old [] (omap_del old (g_back g)))).
    destruct (wf_nd _ _ Hwf) as [Hnd Hndl].
    assert (BR g g1 (fun y e => y <> old /\ inback g y e) (hasback g)) as HBR1.
    { split; try done.
      - split; cbn; [by apply omap_insert_NoDup, omap_del_NoDup|].
        intros y b'. rewrite omap_get_insert, omap_get_del by done.
        case_decide; [intros [= <-]; constructor|apply Hndl].
      - intros y e. unfold inback. cbn. rewrite omap_get_insert, omap_get_del by done.
        case_decide; [|naive_solver]. subst. split; [|naive_solver].
        intros (b'&[= <-]&Hin). inversion Hin.
      - intros y. unfold hasback. cbn. rewrite omap_get_insert, omap_get_del by done.
        case_decide; [|done]. subst. rewrite Hb. split; eauto. }
    apply wp_bind. eapply wp_mono; [apply back_entry_wp, HBR1|..]; cbn beta; [|intros ?? HH; exact HH].
    intros _ [g2 r2] [-> HBR2].
    pose proof (BR_trans _ _ _ _ _ _ _ HBR1 HBR2) as HBR.
    eapply wp_mono; [apply (wp_mfor _ _ (fun P '(g', r') =>
      g_ctx g' = g_ctx g /\
      (forall j, arena_dispatch (g_nodes g') j = arena_dispatch (g_nodes g) j) /\
      arena_ok E (g_nodes g') /\ back_nd g' /\
      (forall i, graph_get g' i = node_partial (Pset P i) old new <$> graph_get g i) /\
      (forall y e, inback g' y e <-> (y <> old /\ inback g y e) \/ (y = new /\ e ∈ P)) /\
      (forall y, hasback g' y <-> hasback g y \/ y = new) /\
      LC E r' K0 (glink g')) (fun _ _ => False))|..]; cbn beta.
    - split; [apply HBR|]. split; [intros j; by rewrite (br_nodes _ _ _ _ HBR)|].
      split; [rewrite (br_nodes _ _ _ _ HBR); apply Hwf|]. split; [apply HBR|].
      assert (forall i, graph_get g2 i = graph_get g i) as Hsame.
      { intros i. unfold graph_get. by rewrite (br_nodes _ _ _ _ HBR). }
      split.
      { intros i. rewrite Hsame. destruct (graph_get g i); cbn; [|done]. f_equal.
        symmetry. apply node_partial_none. intros s _. apply bool_decide_eq_false. inversion 1. }
      split.
      { intros y e. rewrite (br_in _ _ _ _ HBR2), (br_in _ _ _ _ HBR1). split; [auto|].
        intros [?|[_ Hin]]; [done|inversion Hin]. }
      split.
      { intros y. rewrite (br_has _ _ _ _ HBR2), (br_has _ _ _ _ HBR1). naive_solver. }
      eapply LC_ext; [exact HLC|]. intros x y l _ _. unfold glink. by rewrite Hsame.
    - intros P [y s] post [g3 r3] Heq (Hctx&Hdisp&Haok&Hnd3&Hget&Hin&Hhas&HLC3).
      assert ((y, s) ∈ b) as Hys by (rewrite Heq, elem_of_app, elem_of_cons; auto).
      destruct (Hb3 y s Hys) as (n&Hgy&Hs).
      assert ((y, s) ∉ P) as HnP.
      { rewrite Heq in Hndb. apply NoDup_app in Hndb as (_&Hd&_). intros HP. apply (Hd _ HP). left. }
      apply wp_bind. eapply wp_mono; [by apply back_insert_wp|..]; cbn beta.
      2:{ intros _ _ [_ Hn]. apply Hn, Hhas. by right. }
      intros _ [g4 r4] (->&_&HBR4). apply wp_bind.
      eapply wp_mono; [eapply (node_modify_wp g4 g r3 K0 y s old new P n)|..]; cbn beta; try done.
      + by rewrite (br_nodes _ _ _ _ HBR4).
      + by apply (wf_nodes _ _ Hwf y).
      + unfold graph_get. rewrite (br_nodes _ _ _ _ HBR4). change (graph_get g3 y = Some (node_partial (Pset P y) old new n)).
        by rewrite Hget, Hgy.
      + intros s' Hs'. assert ((y, s') ∈ b) as Hin' by (rewrite Heq, elem_of_app; auto).
        apply Hb3 in Hin' as (n'&?&?). congruence.
      + eapply LC_ext; [exact HLC3|]. intros x z l _ _. unfold glink, graph_get.
        by rewrite (br_nodes _ _ _ _ HBR4).
      + intros [rm ad] [g5 r5] (->&Hctx5&Hback5&Haok5&Hdisp5&Hget5&HLC5&_). cbn in HLC5.
        assert (forall r6, LC E r6 K0 (glink g5) ->
          g_ctx g5 = g_ctx g /\
          (forall j, arena_dispatch (g_nodes g5) j = arena_dispatch (g_nodes g) j) /\
          arena_ok E (g_nodes g5) /\ back_nd g5 /\
          (forall i, graph_get g5 i = node_partial (Pset (P ++ [(y, s)]) i) old new <$> graph_get g i) /\
          (forall y0 e, inback g5 y0 e <-> (y0 <> old /\ inback g y0 e) \/ (y0 = new /\ e ∈ P ++ [(y, s)])) /\
          (forall y0, hasback g5 y0 <-> hasback g y0 \/ y0 = new) /\ LC E r6 K0 (glink g5)) as Hfin.
        { intros r6 HLC6. split; [rewrite Hctx5, (br_ctx _ _ _ _ HBR4); done|].
          split; [intros j; rewrite Hdisp5, (br_nodes _ _ _ _ HBR4); apply Hdisp|].
          split; [done|].
          split; [unfold back_nd; rewrite Hback5; apply HBR4|].
          split.
          { intros i. rewrite Hget5. case_decide as Hi.
            - subst i. by rewrite Hgy.
            - unfold graph_get at 1. rewrite (br_nodes _ _ _ _ HBR4).
              change (graph_get g3 i = node_partial (Pset (P ++ [(y, s)]) i) old new <$> graph_get g i).
              rewrite Hget. destruct (graph_get g i); cbn; [|done]. f_equal.
              apply node_partial_ext. intros s' _. apply bool_decide_ext.
              rewrite elem_of_app, elem_of_list_singleton. naive_solver. }
          split.
          { intros y0 e. assert (inback g5 y0 e <-> inback g4 y0 e) as -> by (unfold inback; by rewrite Hback5).
            rewrite (br_in _ _ _ _ HBR4), Hin, elem_of_app, elem_of_list_singleton. naive_solver. }
          split; [|done].
          intros y0. assert (hasback g5 y0 <-> hasback g4 y0) as -> by (unfold hasback; by rewrite Hback5).
          by rewrite (br_has _ _ _ _ HBR4), Hhas. }
        destruct ad; destruct rm; by apply Hfin.
    - intros _ [g' r'] (Hctx&Hdisp&Haok&Hnd'&Hget&Hin&Hhas&HLC').
      split; [done|].
      assert (forall i, graph_get g' i = node_redirect old new <$> graph_get g i) as Hget'.
      { intros i. rewrite Hget. destruct (graph_get g i) as [n|] eqn:Hi; cbn; [|done]. f_equal.
        apply node_partial_redirect; [done|]. intros s. unfold Pset. rewrite bool_decide_eq_true. split.
        - intros Hs. apply Hb3 in Hs as (n'&?&?). congruence.
        - by apply Hb2. }
      split; try done. split; try done.
      + intros x n. rewrite Hget'. destruct (graph_get g x) as [n0|] eqn:Hx; cbn; [|done].
        intros [= <-]. apply node_redirect_ok. by apply (wf_nodes _ _ Hwf x).
      + rewrite Hget', (wf_zero _ _ Hwf). done.
      + intros x n. rewrite Hget'. destruct (graph_get g x) as [n0|] eqn:Hx; cbn; [|done].
        intros _. apply Hhas. left. by apply (wf_b1 _ _ Hwf x n0).
      + intros x n s y. rewrite Hget'. destruct (graph_get g x) as [n0|] eqn:Hx; cbn; [|done].
        intros [= <-]. rewrite (src_val_redirect E) by (done || by apply (wf_nodes _ _ Hwf x)).
        rewrite Hin. intros [[Hs Hy]|(->&_&Hs)].
        * left. split; [done|]. by eapply (wf_b2 _ _ Hwf).
        * right. split; [done|]. by eapply Hb2.
      + intros y x s Hy. rewrite Hin. intros [[Hyo Hi]|[-> Hi]].
        * apply (wf_b3 _ _ Hwf) in Hi as (n&Hx&Hs); [|done]. exists (node_redirect old new n).
          rewrite Hget', Hx. split; [done|].
          apply (src_val_redirect E); [by apply (wf_nodes _ _ Hwf x)|done|done|auto].
        * apply Hb3 in Hi as (n&Hx&Hs). exists (node_redirect old new n).
          rewrite Hget', Hx. split; [done|].
          apply (src_val_redirect E); [by apply (wf_nodes _ _ Hwf x)|done|done|auto].
    - intros ? ? [].
  Qed.

  Record removed g g' r' K0 x : Prop := {
    rm_wf : WF E g';
    rm_ctx : g_ctx g' = g_ctx g;
    rm_disp : forall j, arena_dispatch (g_nodes g') j =
      if decide (j = x) then None else arena_dispatch (g_nodes g) j;
    rm_get : forall i, graph_get g' i =
      if decide (i = x) then None else node_redirect x 0%N <$> graph_get g i;
    rm_lc : LC E r' K0 (glink g');
    rm_has : forall y, hasback g' y <-> y <> x /\ hasback g y }.

  Lemma rec_rems_wp x L g r (R : panic -> graph D * lcr -> Prop) :
    wp (mfor L (fun '(y, s) => rec_rem x y (src_link s))) (g, r)
      (fun _ '(g', r') => g' = g /\ r' = rems_fold x L r) R.
  Proof.
    revert r. induction L as [|[y s] L IH]; intros r; cbn [mfor]; [done|].
    apply wp_bind. by apply IH.
  Qed.

  Lemma remove_node_wp g r K0 x :
    WF E g -> LC E r K0 (glink g) ->
    wp (remove_node E x) (g, r)
      (fun _ '(g', r') => is_Some (graph_get g x) /\ removed g g' r' K0 x)
      (fun p '(g', r') => graph_get g x = None /\ g' = with_nodes g (arena_remove (g_nodes g) x).1 /\ r' = r).
  Proof.
    intros Hwf HLC. unfold remove_node. apply wp_bind. unfold wp at 1.
    destruct (arena_remove (g_nodes g) x) as [a' o] eqn:Hrm.
    pose proof (arena_remove_result (g_nodes g) x) as Hres.
    rewrite Hrm in Hres. cbn in Hres. subst o. change (arena_get (g_nodes g) x) with (graph_get g x).
    destruct (graph_get g x) as [n|] eqn:Hgx; [|done].
    assert (x <> 0%N) as Hx0.
    { intros ->. by rewrite (wf_zero _ _ Hwf) in Hgx. }
    assert (node_ok E n) as Hnok by by apply (wf_nodes _ _ Hwf x).
    replace a' with (arena_remove (g_nodes g) x).1 by by rewrite Hrm.
    set (g1 := with_nodes g (arena_remove (g_nodes g) x).1).
    assert (forall i, graph_get g1 i = if decide (i = x) then None else graph_get g i) as Hget1.
    { intros i. unfold graph_get. cbn. by apply (arena_remove_get E), Hwf. }
    assert (forall j, arena_dispatch (g_nodes g1) j = if decide (j = x) then None else arena_dispatch (g_nodes g) j) as Hdisp1.
    { intros j. cbn. by apply (arena_remove_dispatch E), Hwf. }
    assert (arena_ok E (g_nodes g1)) as Haok1 by by apply arena_remove_ok, Hwf.
    apply wp_bind. eapply wp_mono; [apply (rec_rems_wp x (iter_sources E n))|..]; cbn beta; [|intros ?? HH; exact HH].
    intros _ [? ?] [-> ->]. apply wp_bind.
    assert (LC E (rems_fold x (iter_sources E n) r) K0 (glink g1)) as HLC1.
    { eapply LC_ext; [apply LC_rems_fold; [done|exact HLC|]|].
      - intros y l Hl. exists n. done.
      - intros x' y' l' Hy Hl. unfold glink. rewrite Hget1. case_decide as Hx'.
        + subst x'. rewrite Hgx. clear. naive_solver.
        + clear -Hx'. naive_solver. }
    eapply wp_mono; [apply remove_back_links_wp, Hwf|..]; cbn beta.
    2:{ intros p [? ?] (y&s&Hs&Hn). destruct Hn. apply (inback_hasback g y (x, s)).
        by eapply (wf_b2 _ _ Hwf). }
    intros _ [g2 r2] (->&HBR2). apply wp_bind. unfold wp at 1.
    assert (hasback g2 x) as [b Hb].
    { apply (br_has _ _ _ _ HBR2). by apply (wf_b1 _ _ Hwf x n). }
    rewrite Hb.
    assert (forall i s, (i, s) ∈ b <-> i <> x /\ exists ni, graph_get g i = Some ni /\ src_val ni s x) as Hbb.
    { intros i s. transitivity (inback g2 x (i, s)).
      { unfold inback. rewrite Hb. clear. naive_solver. }
      rewrite (br_in _ _ _ _ HBR2). split.
      - intros [Hi Hn]. apply (wf_b3 _ _ Hwf) in Hi as (ni&Hgi&Hs); [|done]. split.
        + intros ->. destruct Hn. exists s. split; [done|]. congruence.
        + by exists ni.
      - intros [Hi (ni&Hgi&Hs)]. split; [by eapply (wf_b2 _ _ Hwf)|].
        intros (s'&[= ? _]&_). done. }
    pose proof (br_nd _ _ _ _ HBR2) as [Hnd2 Hndl2].
    assert (NoDup b) as Hndb by by eapply Hndl2.
    set (g3 := with_back g2 (omap_del x (g_back g2))).
    assert (forall y e, inback g3 y e <-> y <> x /\ inback g y e /\ ~ exists s, e = (x, s) /\ src_val n s y) as Hin3.
    { intros y e. unfold inback at 1. cbn. rewrite omap_get_del by done.
      case_decide; [clear -H; naive_solver|]. split.
      - intros HH. split; [done|]. by apply (br_in _ _ _ _ HBR2).
      - intros [_ HH]. by apply (br_in _ _ _ _ HBR2) in HH. }
    assert (forall y, hasback g3 y <-> y <> x /\ hasback g y) as Hhas3.
    { intros y. unfold hasback at 1. cbn. rewrite omap_get_del by done.
      case_decide.
      - split; [intros [? ?]; done|]. clear -H; naive_solver.
      - split.
        + intros HH. split; [done|]. by apply (br_has _ _ _ _ HBR2).
        + intros [_ HH]. by apply (br_has _ _ _ _ HBR2) in HH. }
    assert (back_nd g3) as Hnd3.
    { split; cbn; [by apply omap_del_NoDup|]. intros y b'. rewrite omap_get_del by done.
      case_decide; [done|]. apply Hndl2. }
    assert (g_nodes g3 = g_nodes g1) as Hnodes3 by apply HBR2.
    eapply wp_mono; [apply (wp_mfor _ _ (fun P '(g', r') =>
      g_ctx g' = g_ctx g /\ g_back g' = g_back g3 /\
      (forall j, arena_dispatch (g_nodes g') j = arena_dispatch (g_nodes g1) j) /\
      arena_ok E (g_nodes g') /\
      (forall i, graph_get g' i = if decide (i = x) then None else node_partial (Pset P i) x 0%N <$> graph_get g i) /\
      LC E r' K0 (glink g')) (fun _ _ => False))|..]; cbn beta.
    - split; [apply HBR2|]. split; [done|]. split; [intros j; by rewrite Hnodes3|].
      split; [by rewrite Hnodes3|].
      assert (forall i, graph_get g3 i = graph_get g1 i) as Hsame.
      { intros i. unfold graph_get. by rewrite Hnodes3. }
      split.
      { intros i. rewrite Hsame, Hget1. case_decide; [done|]. destruct (graph_get g i); cbn; [|done]. f_equal.
        symmetry. apply node_partial_none. intros s _. apply bool_decide_eq_false. inversion 1. }
      eapply LC_ext; [exact HLC1|]. intros x' y' l _ _. unfold glink. by rewrite Hsame.
    - intros P [y s] post [g4 r4] Heq (Hctx&Hback&Hdisp&Haok&Hget&HLC4).
      assert ((y, s) ∈ b) as Hys by (rewrite Heq, elem_of_app, elem_of_cons; auto).
      destruct (proj1 (Hbb y s) Hys) as (Hyx&ny&Hgy&Hs).
      assert ((y, s) ∉ P) as HnP.
      { rewrite Heq in Hndb. apply NoDup_app in Hndb as (_&Hd&_). intros HP. apply (Hd _ HP). left. }
      apply wp_bind.
      eapply wp_mono; [eapply (node_modify_wp g4 g r4 K0 y s x 0%N P ny)|..]; cbn beta; try done.
      + by apply (wf_nodes _ _ Hwf y).
      + rewrite Hget, decide_False by done. by rewrite Hgy.
      + intros s' Hs'. assert ((y, s') ∈ b) as Hin' by (rewrite Heq, elem_of_app; auto).
        apply Hbb in Hin' as (_&n'&?&?). congruence.
      + intros _ [g5 r5] (->&Hctx5&Hback5&Haok5&Hdisp5&Hget5&_&HLC5).
        specialize (HLC5 eq_refl). eapply wp_mono; [apply rec_rem_wp|..]; cbn beta; [|intros ?? HH; exact HH].
        intros _ [? ?] [-> ->]. split; [congruence|]. split; [congruence|].
        split; [intros j; by rewrite Hdisp5|]. split; [done|]. split; [|done].
        intros i. rewrite Hget5. destruct (decide (i = y)) as [->|Hi].
        * rewrite decide_False by done. by rewrite Hgy.
        * rewrite Hget. destruct (decide (i = x)); [done|].
          destruct (graph_get g i); cbn; [|done]. f_equal.
          apply node_partial_ext. intros s' _. apply bool_decide_ext.
          rewrite elem_of_app, elem_of_list_singleton. clear -Hi. naive_solver.
    - intros _ [g' r'] (Hctx&Hback&Hdisp&Haok&Hget&HLC').
      split; [done|].
      assert (forall i, graph_get g' i = if decide (i = x) then None else node_redirect x 0%N <$> graph_get g i) as Hget'.
      { intros i. rewrite Hget. case_decide as Hi; [done|].
        destruct (graph_get g i) as [ni|] eqn:Hgi; cbn; [|done]. f_equal.
        apply node_partial_redirect; [done|]. intros s. unfold Pset. rewrite bool_decide_eq_true.
        rewrite Hbb. rewrite Hgi. clear -Hi. naive_solver. }
      assert (forall y e, inback g' y e <-> inback g3 y e) as Hin'.
      { intros. unfold inback. by rewrite Hback. }
      assert (forall y, hasback g' y <-> hasback g3 y) as Hhas'.
      { intros. unfold hasback. by rewrite Hback. }
      split; try done.
      2:{ intros j. by rewrite Hdisp, Hdisp1. }
      2:{ intros y. by rewrite Hhas', Hhas3. }
      split; try done.
      + intros i ni. rewrite Hget'. case_decide; [done|].
        destruct (graph_get g i) as [n0|] eqn:Hi; cbn; [|done].
        intros [= <-]. apply node_redirect_ok. by apply (wf_nodes _ _ Hwf i).
      + rewrite Hget'. case_decide; [done|]. by rewrite (wf_zero _ _ Hwf).
      + unfold back_nd. by rewrite Hback.
      + intros i ni. rewrite Hget'. case_decide; [done|].
        destruct (graph_get g i) as [n0|] eqn:Hi; cbn; [|done].
        intros _. rewrite Hhas', Hhas3. split; [done|]. by apply (wf_b1 _ _ Hwf i n0).
      + intros i ni s y. rewrite Hget'. case_decide as Hix; [done|].
        destruct (graph_get g i) as [n0|] eqn:Hi; cbn; [|done].
        intros [= <-]. rewrite (src_val_redirect E) by (done || by apply (wf_nodes _ _ Hwf i)).
        rewrite Hin', Hin3. intros [[Hs Hy]|(_&Hn&_)]; [|done].
        split; [done|]. split; [by eapply (wf_b2 _ _ Hwf)|]. by intros (?&[= ? _]&_).
      + intros y i s Hy. rewrite Hin', Hin3. intros (Hyx&Hi&Hn).
        apply (wf_b3 _ _ Hwf) in Hi as (ni&Hgi&Hs); [|done].
        assert (i <> x) as Hix.
        { intros ->. apply Hn. exists s. split; [done|]. congruence. }
        exists (node_redirect x 0%N ni). rewrite Hget', decide_False, Hgi by done. split; [done|].
        apply (src_val_redirect E); [by apply (wf_nodes _ _ Hwf i)|done|done|auto].
    - intros ? ? [].
  Qed.
End redirect.
