(** * What a commit leaves when the closure of a queued mutate or update fails *)
From Verif Require Import Caught.

Section fault.
  Context {D : Type} (E : env).
  Implicit Types (g : graph D) (n : node D) (x y : idx) (s : source) (m : gmap N (node D)) (a : arena D).

  (** the reverse-link index is exact for every node but [x]; for [x] it lists [own] *)
  Record holed g x (own : list (idx * source)) : Prop := {
    ho_arena : arena_ok E (g_nodes g);
    ho_in : forall y z s, y <> 0%N -> inback g y (z, s) <->
      if decide (z = x) then (y, s) ∈ own else exists n, graph_get g z = Some n /\ src_val n s y }.

  Lemma link_loop_stop x L g r :
    back_nd g ->
    wp (mfor L (fun '(y, s) => run! back_insert y (x, s); rec_add x y (src_link s))) (g, r)
      (fun _ _ => True)
      (fun p '(g', _) => p = PUnwrap /\ exists k y s, L !! k = Some (y, s) /\ ~ hasback g y /\
         BR g g' (fun y e => inback g y e \/ exists s, e = (x, s) /\ (y, s) ∈ take k L) (hasback g)).
  Proof.
    revert g r. induction L as [|[y s] L IH]; intros g r Hnd; cbn [mfor]; [by apply wp_ret|].
    apply wp_bind, wp_bind.
    assert (wp (back_insert y (x, s)) (g, r) (fun _ _ => True) (fun _ st => st = (g, r))) as Hsame.
    { unfold wp, back_insert. by destruct (omap_get y (g_back g)). }
    eapply wp_mono; [apply wp_and; [by apply back_insert_wp|exact Hsame]|..]; cbn beta.
    2:{ intros p [g' r'] [[-> Hn] [= -> ->]]. split; [done|]. exists 0, y, s. split; [done|]. split; [done|].
        eapply BR_ext; [by apply BR_refl| |done]. intros y' e. cbn. split; [auto|]. intros [?|(?&_&Hin)]; [done|]. by apply elem_of_nil in Hin. }
    intros _ [g1 r1] [(->&Hy&HBR) _]. eapply wp_mono; [apply rec_add_wp|..]; cbn beta.
    2:{ intros p ? HH. exact HH. }
    intros _ [g2 r2] [-> ->]. eapply wp_mono; [apply IH, HBR|..]; cbn beta; [done|].
    intros p [g3 r3] (->&k&y'&s'&Hk&Hn&HBR'). split; [done|]. exists (S k), y', s'. split; [done|].
    split; [by rewrite <- (br_has _ _ _ _ HBR)|]. eapply BR_ext; [by eapply BR_trans|..]; cbn.
    - intros y0 e. rewrite (br_in _ _ _ _ HBR). setoid_rewrite elem_of_cons. naive_solver.
    - apply HBR.
  Qed.

  Lemma stop_holed x g g' n o own :
    WF E g -> graph_get g x = Some n -> arena_ok E (g_nodes g') ->
    (forall i, graph_get g' i = if decide (i = x) then o else graph_get g i) ->
    (forall y e, inback g' y e <-> (inback g y e /\ ~ exists s, e = (x, s) /\ src_val n s y) \/ exists s, e = (x, s) /\ (y, s) ∈ own) ->
    holed g' x own.
  Proof.
    intros Hwf Hg Hok Hget Hin. split; [done|]. intros y z s Hy. rewrite Hin. case_decide as Hz.
    - subst z. split; [|by eauto]. intros [[Hb Hn]|(?&[= ->]&?)]; [|done]. destruct Hn.
      destruct (wf_b3 _ _ Hwf y x s Hy Hb) as (n0&Hg0&Hs). exists s. split; [done|]. congruence.
    - rewrite Hget, decide_False by done. split.
      + intros [[Hb _]|(?&[= ? ?]&_)]; [|done]. by apply (wf_b3 _ _ Hwf).
      + intros (n0&Hg0&Hs). left. split; [by eapply wf_b2|]. by intros (?&[= ? ?]&_).
  Qed.

  Lemma link_sources_stop x g g1 r n n' :
    WF E g -> graph_get g x = Some n -> arena_ok E (g_nodes g1) -> back_nd g1 ->
    (forall i, graph_get g1 i = if decide (i = x) then Some n' else graph_get g i) ->
    (forall y e, inback g1 y e <-> inback g y e /\ ~ exists s, e = (x, s) /\ src_val n s y) ->
    (forall y, hasback g1 y <-> hasback g y) ->
    wp (link_sources E x) (g1, r) (fun _ _ => True)
      (fun p '(g', _) => p = PUnwrap /\ exists k y s, iter_sources E n' !! k = Some (y, s) /\ ~ hasback g y /\
         (forall i, graph_get g' i = if decide (i = x) then Some n' else graph_get g i) /\
         holed g' x (take k (iter_sources E n'))).
  Proof.
    intros Hwf Hg Hok Hnd Hget Hin Hhas. unfold link_sources. apply wp_bind. unfold wp at 1, node_unwrap.
    rewrite Hget, decide_True by done.
    eapply wp_mono; [by apply link_loop_stop|..]; cbn beta; [done|].
    intros p [g' r'] (->&k&y&s&Hk&Hn&HBR). split; [done|]. exists k, y, s. split; [done|]. split; [by rewrite <- Hhas|].
    assert (forall i, graph_get g' i = if decide (i = x) then Some n' else graph_get g i) as Hget'.
    { intros i. unfold graph_get in *. by rewrite (br_nodes _ _ _ _ HBR). }
    split; [done|]. apply (stop_holed x g g' n (Some n')); try done.
    - by rewrite (br_nodes _ _ _ _ HBR).
    - intros y' e. by rewrite (br_in _ _ _ _ HBR), Hin.
  Qed.

  Lemma modify_node_stop x f g r :
    WF E g ->
    wp (modify_node E x f) (g, r) (fun _ _ => True)
      (fun p '(g', _) => graph_get g x = None \/ exists n n' k, graph_get g x = Some n /\
         (forall i, graph_get g' i = if decide (i = x) then Some n' else graph_get g i) /\
         holed g' x (take k (iter_sources E n')) /\
         (f n = Panicked p n' /\ k = 0 \/
          f n = Done n' tt /\ p = PUnwrap /\ exists y s, iter_sources E n' !! k = Some (y, s) /\ ~ hasback g y)).
  Proof.
    intros Hwf. unfold modify_node. apply wp_bind.
    eapply wp_mono; [by apply unlink_sources_wp|..]; cbn beta; [|intros ? [? ?] [? _]; by left].
    intros _ [g1 r1] (n&Hg&->&HBR). apply wp_bind.
    unfold wp at 1. unfold graph_get at 1. rewrite (br_nodes _ _ _ _ HBR).
    change (arena_get (g_nodes g) x) with (graph_get g x). rewrite Hg.
    assert (forall n' i, graph_get (with_nodes g1 (arena_set (g_nodes g) x n')) i = if decide (i = x) then Some n' else graph_get g i) as Hget.
    { intros n' i. unfold graph_get. cbn. by apply (arena_set_get _ _ n). }
    destruct (f n) as [n' []|p n'] eqn:Hfn.
    - eapply wp_mono; [eapply (link_sources_stop x g _ _ n n'); try done|..]; cbn beta.
      + cbn. apply arena_set_ok, Hwf.
      + apply HBR.
      + apply HBR.
      + apply HBR.
      + done.
      + intros p [g' r'] (->&k&y&s&Hk&Hn&Hget'&Hh). right. exists n, n', k. split; [done|]. split; [done|]. split; [done|].
        right. split; [done|]. split; [done|]. by exists y, s.
    - right. exists n, n', 0. split; [done|]. split; [apply Hget|]. split; [|by left].
      apply (stop_holed x g _ n (Some n')); [done|done|cbn; apply arena_set_ok, Hwf|apply Hget|].
      intros y e. change (inback g1 y e <-> inback g y e /\ ~ (exists s, e = (x, s) /\ src_val n s y) \/ exists s, e = (x, s) /\ (y, s) ∈ []).
      rewrite (br_in _ _ _ _ HBR). split; [by left|]. intros [?|(?&_&Hin)]; [done|]. by apply elem_of_nil in Hin.
  Qed.

  Lemma update_with_err a i f n d p :
    arena_ok E a -> arena_dispatch a i = Some d -> arena_get a i = Some n -> f n = Err p ->
    arena_update_with i f a = Panicked p (set_cont a d (omap_del i (cont a d))).
  Proof.
    intros Hok Hd Hg Hf. unfold arena_get in Hg. rewrite Hd in Hg.
    unfold arena_update_with, bindM, getM, unwrapM, putM, liftM. rewrite Hd. cbn. rewrite Hg. cbn. by rewrite Hf.
  Qed.

  Lemma update_node_stop x f g r :
    WF E g ->
    wp (update_node E x f) (g, r) (fun _ _ => True)
      (fun p '(g', _) => graph_get g x = None \/ exists n, graph_get g x = Some n /\
         (f n = Err p /\ (forall i, graph_get g' i = if decide (i = x) then None else graph_get g i) /\ holed g' x [] \/
          exists n' k, f n = Ok n' /\ p = PUnwrap /\
            (forall i, graph_get g' i = if decide (i = x) then Some n' else graph_get g i) /\
            holed g' x (take k (iter_sources E n')) /\ exists y s, iter_sources E n' !! k = Some (y, s) /\ ~ hasback g y)).
  Proof.
    intros Hwf. unfold update_node. apply wp_bind.
    eapply wp_mono; [by apply unlink_sources_wp|..]; cbn beta; [|intros ? [? ?] [? _]; by left].
    intros _ [g1 r1] (n&Hg&->&HBR). apply wp_bind.
    unfold wp at 1. rewrite (br_nodes _ _ _ _ HBR).
    destruct (f n) as [n'|p] eqn:Hfn.
    - pose proof (arena_update_wp E (g_nodes g) x f
        (fun _ a' => arena_ok E a' /\ (forall j, arena_get a' j = if decide (j = x) then Some n' else arena_get (g_nodes g) j))
        (fun p _ => False) (wf_arena _ _ Hwf)) as Hup.
      unfold wp in Hup. destruct (arena_update_with x f (g_nodes g)) as [a' []|p a'] eqn:Hau.
      + destruct Hup as (Haok&Hget).
        { intros n0 n1 a0 Hn0 Hf0 Ha0 Hd0 Hg0. unfold graph_get in Hg. rewrite Hg in Hn0. injection Hn0 as <-. 
          rewrite Hfn in Hf0. injection Hf0 as <-. done. }
        { intros p a0 [Hn|(n0&Hn0&He)]; unfold graph_get in Hg; congruence. }
        eapply wp_mono; [eapply (link_sources_stop x g _ _ n n'); try done|..]; cbn beta.
        * apply HBR.
        * apply HBR.
        * apply HBR.
        * done.
        * intros p [g' r'] (->&k&y&s&Hk&Hn&Hget'&Hh). right. exists n. split; [done|]. right. exists n', k.
          split; [done|]. split; [done|]. split; [done|]. split; [done|]. by exists y, s.
      + exfalso. apply Hup.
        { intros n0 n1 a0 Hn0 Hf0 Ha0 Hd0 Hg0. unfold graph_get in Hg. rewrite Hg in Hn0. injection Hn0 as <-. 
          rewrite Hfn in Hf0. injection Hf0 as <-. done. }
        { intros p0 a0 [Hn|(n0&Hn0&He)]; unfold graph_get in Hg; congruence. }
    - destruct (arena_get_dispatch _ _ _ Hg) as [d Hd].
      rewrite (update_with_err _ x f n d p (wf_arena _ _ Hwf) Hd Hg Hfn).
      destruct (drop_ok E (g_nodes g) x d (wf_arena _ _ Hwf) Hd) as [Haok Hget].
      right. exists n. split; [done|]. left. split; [done|]. split; [exact Hget|].
      apply (stop_holed x g _ n None); [done|done|done|exact Hget|].
      intros y e. change (inback g1 y e <-> inback g y e /\ ~ (exists s, e = (x, s) /\ src_val n s y) \/ exists s, e = (x, s) /\ (y, s) ∈ []).
      rewrite (br_in _ _ _ _ HBR). split; [by left|]. intros [?|(?&_&Hin)]; [done|]. by apply elem_of_nil in Hin.
  Qed.

  (** ** The phases *)
  Definition mut_left (fs : list (idx * mut_fn D)) (p : panic) m g' : Prop :=
    exists pre x f post mi n n' k, fs = pre ++ (x, f) :: post /\ sp_mutates pre m = Some mi /\ mi !! x = Some n /\
      gabs g' (<[x := n']> mi) /\ holed g' x (take k (iter_sources E n')) /\
      (f n = Panicked p n' /\ k = 0 \/
       f n = Done n' tt /\ p = PUnwrap /\ exists y s, iter_sources E n' !! k = Some (y, s) /\ mi !! y = None).
  Definition upd_left (fs : list (idx * upd_fn D)) (p : panic) m g' : Prop :=
    exists pre x f post mi n, fs = pre ++ (x, f) :: post /\ sp_updates pre m = Some mi /\ mi !! x = Some n /\
      (f n = Err p /\ gabs g' (delete x mi) /\ holed g' x [] \/
       exists n' k, f n = Ok n' /\ p = PUnwrap /\ gabs g' (<[x := n']> mi) /\ holed g' x (take k (iter_sources E n')) /\
         exists y s, iter_sources E n' !! k = Some (y, s) /\ mi !! y = None).

  Lemma nohas_none K0 c DD T m g r y : ST E K0 c DD T m g r -> ~ hasback g y -> m !! y = None.
  Proof.
    intros Hst Hn. rewrite (st_abs _ _ _ _ _ _ _ _ Hst). apply eq_None_not_Some. intros [ny Hy]. apply Hn.
    by eapply (wf_b1 _ _ (st_wf _ _ _ _ _ _ _ _ Hst)).
  Qed.

  Lemma mutates_stop K0 c (DD : idx -> Prop) (T : Prop) m g r fs :
    (forall i f, (i, f) ∈ fs -> mut_ok E T f) ->
    ST E K0 c DD T m g r ->
    wp (mfor fs (fun '(i, f) => modify_node E i f)) (g, r)
      (fun _ _ => True)
      (fun p '(g', r') => left_ok E K0 c DD T (kept fs.*1 [] m) g' r' \/ mut_left fs p m g').
  Proof.
    revert m g r. induction fs as [|[i f] fs IH]; intros m g r Hfs Hst; cbn [mfor]; [by apply wp_ret|].
    apply wp_bind. eapply wp_mono; [apply wp_and; [apply (modify_node_wp E i f g r K0); try apply Hst|apply modify_node_stop, Hst]|..]; cbn beta.
    - intros n n' Hg Hf. eapply (Hfs i f); [left|by apply (wf_nodes _ _ (st_wf _ _ _ _ _ _ _ _ Hst) i)|done].
    - intros _ [g1 r1] [(n&n'&Hg&Hf&Hnc&_) _].
      assert (ST E K0 c DD T (<[i := n']> m) g1 r1) as Hst1.
      { eapply changed_ST; [done|done|done|].
        eapply (Hfs i f); [left|by apply (wf_nodes _ _ (st_wf _ _ _ _ _ _ _ _ Hst) i)|done]. }
      assert (m !! i = Some n) as Hm by by rewrite (st_abs _ _ _ _ _ _ _ _ Hst).
      eapply wp_mono; [apply (IH (<[i := n']> m)); [|done]|..]; cbn beta; [|done|].
      + intros j f' Hin. apply (Hfs j). by right.
      + intros p [g' r'] [Hlf|(pre&x&f'&post&mi&nj&n1&k&->&Hpre&Hrest)]; [left|right].
        { eapply left_ok_mono; [done|]. intros m' Hm'. eapply kept_trans; [by apply (kept_insert _ _ m i n n'); [|left]|].
          eapply kept_mono; [|done|done]. intros k Hk. by right. }
        exists ((i, f) :: pre), x, f', post, mi, nj, n1, k. split; [done|]. split; [|done]. cbn. by rewrite Hm, Hf.
    - intros p [g' r'] [HH Hs].
      destruct HH as [[Hn [= -> ->]]|(n&Hg&_)]; [left; exists m; split; [done|apply kept_refl]|].
      destruct Hs as [Hn|(n0&n'&k&Hg0&Hget&Hh&Hf)]; [congruence|]. right. rewrite Hg in Hg0. injection Hg0 as <-.
      assert (m !! i = Some n) as Hm by by rewrite (st_abs _ _ _ _ _ _ _ _ Hst).
      exists [], i, f, fs, m, n, n', k. split; [done|]. split; [done|]. split; [done|]. split.
      { intros j. rewrite Hget. case_decide as Hj; [subst; by rewrite lookup_insert|]. rewrite lookup_insert_ne by done.
        apply (st_abs _ _ _ _ _ _ _ _ Hst). }
      split; [done|]. destruct Hf as [?|(?&?&y&s&?&?)]; [by left|right]. split; [done|]. split; [done|]. exists y, s.
      split; [done|]. by eapply nohas_none.
  Qed.
  Lemma updates_stop K0 c (DD : idx -> Prop) (T : Prop) m g r fs :
    (forall i f, (i, f) ∈ fs -> upd_ok E T f) ->
    ST E K0 c DD T m g r ->
    wp (mfor fs (fun '(i, f) => update_node E i f)) (g, r)
      (fun _ _ => True)
      (fun p '(g', r') => left_ok E K0 c DD T (kept fs.*1 [] m) g' r' \/ upd_left fs p m g').
  Proof.
    revert m g r. induction fs as [|[i f] fs IH]; intros m g r Hfs Hst; cbn [mfor]; [by apply wp_ret|].
    apply wp_bind. eapply wp_mono; [apply wp_and; [apply (update_node_wp E i f g r K0); try apply Hst|apply update_node_stop, Hst]|..]; cbn beta.
    - intros n n' Hg Hf. eapply (Hfs i f); [left|by apply (wf_nodes _ _ (st_wf _ _ _ _ _ _ _ _ Hst) i)|done].
    - intros _ [g1 r1] [(n&n'&Hg&Hf&Hnc&_) _].
      assert (ST E K0 c DD T (<[i := n']> m) g1 r1) as Hst1.
      { eapply changed_ST; [done|done|done|].
        eapply (Hfs i f); [left|by apply (wf_nodes _ _ (st_wf _ _ _ _ _ _ _ _ Hst) i)|done]. }
      assert (m !! i = Some n) as Hm by by rewrite (st_abs _ _ _ _ _ _ _ _ Hst).
      eapply wp_mono; [apply (IH (<[i := n']> m)); [|done]|..]; cbn beta; [|done|].
      + intros j f' Hin. apply (Hfs j). by right.
      + intros p [g' r'] [Hlf|(pre&x&f'&post&mi&nj&->&Hpre&Hrest)]; [left|right].
        { eapply left_ok_mono; [done|]. intros m' Hm'. eapply kept_trans; [by apply (kept_insert _ _ m i n n'); [|left]|].
          eapply kept_mono; [|done|done]. intros k Hk. by right. }
        exists ((i, f) :: pre), x, f', post, mi, nj. split; [done|]. split; [|done]. cbn. by rewrite Hm, Hf.
    - intros p [g' r'] [HH Hs].
      destruct HH as [[Hn [= -> ->]]|(n&Hg&_)]; [left; exists m; split; [done|apply kept_refl]|].
      destruct Hs as [Hn|(n0&Hg0&Hf)]; [congruence|]. right. rewrite Hg in Hg0. injection Hg0 as <-.
      assert (m !! i = Some n) as Hm by by rewrite (st_abs _ _ _ _ _ _ _ _ Hst).
      exists [], i, f, fs, m, n. split; [done|]. split; [done|]. split; [done|].
      destruct Hf as [(Hf&Hget&Hh)|(n'&k&Hf&->&Hget&Hh&y&s&Hk&Hn)].
      + left. split; [done|]. split; [|done]. intros j. rewrite Hget. case_decide as Hj; [subst; by rewrite lookup_delete|].
        rewrite lookup_delete_ne by done. apply (st_abs _ _ _ _ _ _ _ _ Hst).
      + right. exists n', k. split; [done|]. split; [done|]. split.
        { intros j. rewrite Hget. case_decide as Hj; [subst; by rewrite lookup_insert|]. rewrite lookup_insert_ne by done.
          apply (st_abs _ _ _ _ _ _ _ _ Hst). }
        split; [done|]. exists y, s. split; [done|]. by eapply nohas_none.
  Qed.

  Definition commit_left (t : trans D) (p : panic) m g' : Prop :=
    exists m1, sp_redirect (t_redir t) m m1 /\
      (mut_left (t_mut t) p (amap (t_inc t) ∪ m1) g' \/
       exists m2, sp_mutates (t_mut t) (amap (t_inc t) ∪ m1) = Some m2 /\ upd_left (t_upd t) p m2 g').

  Lemma commit_body_stop (T : Prop) g t m :
    WF E g -> gabs g m -> (T -> gtyped g) -> trans_ok E T g t ->
    wp (commit_body E t) (g, lcr_new)
      (fun _ _ => True)
      (fun p '(g', r') => left_ok E (glink g) (g_ctx g) (disp_bound g t) T (commit_kept t m) g' r' \/ commit_left t p m g').
  Proof.
    intros Hwf Habs Hty Hok.
    assert (forall i, is_Some (m !! i) -> amap (t_inc t) !! i = None) as Hdj by by eapply trans_ok_new.
    set (X := (t_mut t).*1 ++ (t_upd t).*1).
    assert (forall m m', kept [] [] m m' -> kept X (t_dec t) m m') as Hk0.
    { intros. eapply kept_mono; [| |done]; intros ? ?%elem_of_nil; done. }
    assert (ST E (glink g) (g_ctx g) (disp_bound g t) T m g lcr_new) as Hst by
      (split; try done; [apply LC_new|intros i Hi; rewrite (Habs i); destruct (graph_get g i) eqn:Hgi; [eauto|right; by left]]).
    unfold commit_body. apply wp_bind.
    eapply wp_mono; [apply wp_and; [apply redirect_phase; [apply Hok|exact Hst]|apply redirect_links_vec_wp; [apply Hok|done|apply LC_new]]|..]; cbn beta.
    2:{ intros p [g' r'] [(Hn&_&Hlf) _]. left. eapply left_ok_mono; [done|].
        intros m' Hm'. by apply kept_commit, Hk0. }
    intros _ [g1 r1] [(m1&Hm1&Hst1) (res1&_&_&Hrd1)]. apply wp_bind.
    eapply wp_mono; [apply (merge_phase E (glink g) (g_ctx g) (disp_bound g t) T m1); [apply Hok| |apply Hok|apply Hok|intros i Hi Hi'; by right|exact Hst1]|..]; cbn beta.
    { intros i Hi. rewrite (rds_disp _ _ _ _ _ _ Hrd1). by apply Hok. }
    2:{ intros ?? HH. exact HH. }
    intros _ [g2 r2] Hst2.
    assert (kept X (t_dec t) m m1) as Hk1 by by eapply Hk0, sp_redirect_kept.
    apply wp_bind.
    eapply wp_mono; [apply wp_and; [apply mutates_phase; [apply Hok|exact Hst2]|eapply mutates_stop; [apply Hok|exact Hst2]]|..]; cbn beta.
    2:{ intros p [g' r'] [_ Hlf].
        destruct Hlf as [Hlf|Hft]; [left|right; exists m1; split; [done|by left]].
        eapply left_ok_mono; [done|]. intros m' Hm'. apply (kept_commit_merged t m m1); [done|done|].
        eapply kept_mono; [| |done]; [by intros k Hk; apply elem_of_app; left|by intros ? ?%elem_of_nil]. }
    intros _ [g3 r3] [(m2&Hm2&Hst3) _].
    assert (kept X (t_dec t) (amap (t_inc t) ∪ m1) m2) as Hk2.
    { eapply kept_mono; [| |by eapply sp_mutates_kept]; [by intros k Hk; apply elem_of_app; left|by intros ? ?%elem_of_nil]. }
    apply wp_bind.
    eapply wp_mono; [apply wp_and; [apply updates_phase; [apply Hok|exact Hst3]|eapply updates_stop; [apply Hok|exact Hst3]]|..]; cbn beta.
    2:{ intros p [g' r'] [_ Hlf].
        destruct Hlf as [Hlf|Hft]; [left|right; exists m1; split; [done|]; right; by exists m2].
        eapply left_ok_mono; [done|]. intros m' Hm'. apply (kept_commit_merged t m m1); [done|done|].
        eapply kept_trans; [done|].
        eapply kept_mono; [| |done]; [by intros k Hk; apply elem_of_app; right|by intros ? ?%elem_of_nil]. }
    intros _ [g4 r4] [(m3&Hm3&Hst4) _].
    assert (kept X (t_dec t) (amap (t_inc t) ∪ m1) m3) as Hk3.
    { eapply kept_trans; [done|].
      eapply kept_mono; [| |by eapply sp_updates_kept]; [by intros k Hk; apply elem_of_app; right|by intros ? ?%elem_of_nil]. }
    apply wp_bind.
    eapply wp_mono; [apply redirect_phase; [apply Hok|exact Hst4]|..]; cbn beta.
    2:{ intros p [g' r'] (Hn&_&Hlf). left. eapply left_ok_mono; [done|]. intros m' Hm'. apply (kept_commit_merged t m m1); [done|done|].
        eapply kept_trans; [done|by apply Hk0]. }
    intros _ [g5 r5] (m4&Hm4&Hst5).
    eapply wp_mono; [apply removes_phase; exact Hst5|..]; cbn beta; [done|].
    intros p [g' r'] [Hn Hlf]. left. eapply left_ok_mono; [done|]. intros m' Hm'. apply (kept_commit_merged t m m1); [done|done|].
    eapply kept_trans; [done|]. eapply kept_trans; [by eapply Hk0, sp_redirect_kept|].
    eapply kept_mono; [| |done]; [by intros ? ?%elem_of_nil|done].
  Qed.

  Lemma do_commit_stop (T : Prop) g t :
    WF E g -> (T -> gtyped g) -> trans_ok E T g t ->
    match do_commit E t g with
    | Done g' _ => left_facts E T t g g'
    | Panicked p g' => left_facts E T t g g' \/ commit_left t p (gmap_of g) g'
    end.
  Proof.
    intros Hwf Hty Hok. apply (guard_cases E g t); intros Hg.
    { destruct (do_commit_guard E g t Hg) as (p&->&Hp). left. by apply left_facts_refl. }
    assert (forall m', sp_commit (trans_txn t) (gmap_of g) m' -> commit_kept t (gmap_of g) m') as Hdom.
    { intros m' Hsp. apply (sp_commit_kept t); [|done]. eapply (trans_ok_new E T g); [by apply (gmap_of_abs E)|done]. }
    rewrite (do_commit_unfold E g t Hg).
    set (prog := (run! commit_body E t; _)).
    assert (wp prog (g, lcr_new)
      (fun _ '(g', _) => left_facts E T t g g')
      (fun p '(g', _) => left_facts E T t g g' \/ commit_left t p (gmap_of g) g')) as Hwp.
    { apply wp_bind. eapply wp_mono;
        [apply wp_and; [apply (commit_body_wp E T g t (gmap_of g)); try done; by apply (gmap_of_abs E)
                       |apply (commit_body_stop T g t (gmap_of g)); try done; by apply (gmap_of_abs E)]|..]; cbn beta.
      2:{ intros p [g' r'] [_ [(m'&Hst&Hd)|Hft]]; [left|by right].
          apply (left_facts_intro E T t g m' g' r' (fun _ _ => False)); [done|done|done|done|apply Hst|apply bframe_refl]. }
      intros _ [g1 r1] [(m1&Hsp&Hst) _]. apply wp_bind, wp_get, wp_bind.
      eapply wp_mono; [apply apply_bidirectional_links_wp; apply Hst|..]; cbn beta.
      - intros _ [g2 r2] (->&Hwf2&Hfr&_). apply wp_ret. eapply (left_facts_intro E T t g m1 g1 r1); try done. by apply Hdom.
      - intros p [g2 r2] (Hb&Hwf2&Hfr). left. eapply (left_facts_intro E T t g m1 g1 r1); try done. by apply Hdom. }
    unfold wp in Hwp. by destruct (prog (g, lcr_new)) as [[g' r'] r|p [g' r']].
  Qed.
  Lemma commit_stop (T : Prop) t g p g' :
    WF E g -> (T -> gtyped g) -> trans_ok E T g t -> commit E t g = Panicked p g' ->
    left_facts E T t g g' \/ commit_left t p (gmap_of g) g'.
  Proof.
    intros Hwf Hty Hok Hc. pose proof (do_commit_stop T g t Hwf Hty Hok) as Hs. unfold commit, bindM in Hc.
    destruct (do_commit E t g) as [g1 r|q g1]; [|by injection Hc as -> ->].
    pose proof (check_link_type_spec E r g1) as Hchk. rewrite Hc in Hchk. destruct Hchk as [-> _]. by left.
  Qed.
End fault.
