(** * What a panicking commit has done *)
From Verif Require Import Fault Exact.

(** ** Vocabulary: the nodes [m'] a commit leaves that stops at a call it cannot execute *)
Section vocabulary.
  Context {D : Type}.
  Implicit Types (m : gmap N (node D)).

  (** The redirect list [reps] has a loop, and nothing of it is done; or the calls before one
      for the index [o] without node are done. *)
  Definition redirect_stops (reps : list (idx * idx)) (p : panic) m m' : Prop :=
    (p = PLoop /\ redir_bad reps /\ m' = m) \/
    (p = PUnwrap /\ exists pre o n post P res, reps = pre ++ (o, n) :: post /\ m !! o = None /\ redir_ptrs reps P /\
       Forall2 (fun on oz => oz.1 = on.1 /\ leads P on.2 oz.2) pre res /\ m' = node_redirects res <$> m).
  Definition mutate_stops (fs : list (idx * mut_fn D)) (p : panic) m m' : Prop :=
    exists pre x f post, fs = pre ++ (x, f) :: post /\ sp_mutates pre m = Some m' /\ m' !! x = None /\ p = PUnwrap.
  Definition update_stops (fs : list (idx * upd_fn D)) (p : panic) m m' : Prop :=
    exists pre x f post, fs = pre ++ (x, f) :: post /\ sp_updates pre m = Some m' /\ m' !! x = None /\ p = PUnwrap.
  Definition remove_stops (xs : list idx) (p : panic) m m' : Prop :=
    exists pre x post, xs = pre ++ x :: post /\ sp_removes pre m = Some m' /\ m' !! x = None /\ p = PRemoveMissing.

  Definition commit_stops (t : txn D) (p : panic) m m' : Prop :=
    redirect_stops (x_redir t) p m m' \/
    exists m1, sp_redirect (x_redir t) m m1 /\
      (mutate_stops (x_mut t) p (x_new t ∪ m1) m' \/
       exists m2, sp_mutates (x_mut t) (x_new t ∪ m1) = Some m2 /\
         (update_stops (x_upd t) p m2 m' \/
          exists m3, sp_updates (x_upd t) m2 = Some m3 /\
            (redirect_stops (x_redir_all t) p m3 m' \/
             exists m4, sp_redirect (x_redir_all t) m3 m4 /\ remove_stops (x_del t) p m4 m'))).
End vocabulary.

Section stops.
  Context {D : Type} (E : env).
  Implicit Types (g : graph D) (x y : idx) (s : source) (m : gmap N (node D)).

  (** ** Redirects *)
  Lemma redirect_loop_stop reps post fa g r K0 P :
    redir_ptrs reps P -> UF fa ->
    (forall x, x ∈ fa.*1 <-> x ∈ reps.*1 \/ x ∈ reps.*2) ->
    (forall k x z, reaches fa k x z -> leads P x z) ->
    (forall o n, (o, n) ∈ post -> (o, n) ∈ reps /\ o <> 0%N) ->
    WF E g -> LC E r K0 (glink g) ->
    wp (redirect_loop (D:=D) post fa) (g, r) (fun _ _ => True)
      (fun p '(g', r') => p = PUnwrap /\ exists pre o w rest res, post = pre ++ (o, w) :: rest /\ ~ hasback g o /\
         Forall2 (fun on oz => oz.1 = on.1 /\ leads P on.2 oz.2) pre res /\ redirecteds E g g' r' K0 res).
  Proof.
    intros HP. revert fa g r. induction post as [|[old new] post IH]; intros fa g r Huf Hkeys Hfin Hpost Hwf HLC;
      cbn [redirect_loop]; [by apply wp_ret|].
    destruct (Hpost old new) as [Hin Ho]; [left|].
    assert (new ∈ fa.*1) as Hnew.
    { apply Hkeys. right. apply elem_of_list_fmap. by exists (old, new). }
    assert (old ∈ reps.*1) as Hold.
    { apply elem_of_list_fmap. by exists (old, new). }
    destruct Huf as [Hnd Hreach]. destruct (Hreach new Hnew) as (k&z&Hz).
    pose proof (reaches_bound _ _ _ _ Hz) as Hk.
    pose proof (Hfin _ _ _ Hz) as Hlz. destruct (leads_final _ _ _ _ HP Hlz) as [Hrz Hzn].
    apply wp_bind. destruct (omap_key_get fa new Hnew) as [y0 Hy0]. rewrite Hy0. apply wp_ret.
    apply wp_bind. rewrite (fa_chase_spec _ _ _ _ _ _ Hz Hy0) by lia. apply wp_ret.
    apply wp_bind. eapply wp_mono; [apply (redirect_links_wp E g r K0 old z); try done|..]; cbn beta.
    { intros ->. done. }
    2:{ intros p [g' r'] (->&Hn&[= -> ->]). split; [done|]. exists [], old, new, post, []. split; [done|]. split; [done|].
        split; [constructor|]. split; try done; [intros i; by destruct (graph_get g i)|].
        intros y. rewrite elem_of_nil. naive_solver. }
    intros _ [g1 r1] [Hhold Hrd]. apply wp_bind.
    destruct (fa_compress_spec fa k new z (S (length fa))) as (fa'&Hc&Huf'&Hlen&Hkeys'&Hr'); [by split|done|lia|].
    rewrite Hc. apply wp_ret.
    eapply wp_mono; [apply (IH fa' g1 r1)|..]; cbn beta; try done.
    - intros x. by rewrite Hkeys'.
    - intros j x w Hw. destruct (Hreach x) as (j0&w0&Hw0).
      { apply Hkeys'. by eapply reaches_key. }
      destruct (Hr' _ _ _ Hw0) as [j1 Hw1]. destruct (reaches_det _ _ _ _ _ _ Hw Hw1) as [_ ->]. by eapply Hfin.
    - intros o n Hon. apply Hpost. by right.
    - apply Hrd.
    - apply Hrd.
    - intros p [g' r'] (->&pre&o&n&rest&res&->&Hn&Hres&Hrds). split; [done|].
      exists ((old, new) :: pre), o, n, rest, ((old, z) :: res). split; [done|]. split.
      { intros Hh. apply Hn. apply (rd_has _ _ _ _ _ _ _ Hrd). by left. }
      split; [by constructor|]. by eapply redirecteds_cons.
  Qed.

  Lemma redirect_stop K0 c (DD : idx -> Prop) (T : Prop) m g r reps :
    (forall o, o ∈ reps.*1 -> o <> 0%N) ->
    ST E K0 c DD T m g r ->
    wp (redirect_links_vec (D:=D) reps) (g, r) (fun _ _ => True)
      (fun p '(g', r') => exists m', ST E K0 c DD T m' g' r' /\ redirect_stops reps p m m').
  Proof.
    intros Hz Hst. unfold redirect_links_vec. apply wp_bind.
    pose proof (fa_build_spec reps) as Hb.
    destruct (fa_build reps (fa_init reps)) as [fa|p]; cbn [liftM].
    2:{ apply wp_panic. exists m. split; [done|]. left. naive_solver. }
    destruct (fa_ptrs _ _ _ Hb) as (P&HP&_).
    apply wp_ret. eapply wp_mono; [apply (redirect_loop_stop reps reps fa g r K0 P)|..]; cbn beta; try done.
    - apply Hb.
    - apply Hb.
    - intros k x z. by apply (FA_leads _ _ _ _ _ _ _ Hb HP).
    - intros o n Hon. split; [done|]. apply Hz, elem_of_list_fmap. by exists (o, n).
    - apply Hst.
    - apply Hst.
    - intros p [g' r'] (->&pre&o&n&rest&res&Heq&Hn&Hres&Hrds). exists (node_redirects res <$> m).
      split; [by eapply redirecteds_ST|]. right. split; [done|]. exists pre, o, n, rest, P, res. split; [done|].
      split; [by eapply nohas_none|done].
  Qed.

  (** ** Mutates, updates, removes *)
  Lemma modify_node_none x f g r : graph_get g x = None -> modify_node E x f (g, r) = Panicked PUnwrap (g, r).
  Proof. intros Hn. unfold modify_node, unlink_sources, bindM, node_unwrap. by rewrite Hn. Qed.
  Lemma update_node_none x f g r : graph_get g x = None -> update_node E x f (g, r) = Panicked PUnwrap (g, r).
  Proof. intros Hn. unfold update_node, unlink_sources, bindM, node_unwrap. by rewrite Hn. Qed.
  Lemma remove_node_none x g r : graph_get g x = None -> exists st, remove_node E x (g, r) = Panicked PRemoveMissing st.
  Proof.
    intros Hn. unfold remove_node, bindM. pose proof (arena_remove_result (g_nodes g) x) as Hr.
    destruct (arena_remove (g_nodes g) x) as [a' o]. cbn in Hr. subst o. unfold graph_get in Hn. rewrite Hn. eauto.
  Qed.

  Lemma mutates_stop_at K0 c (DD : idx -> Prop) (T : Prop) m g r fs :
    (forall i f, (i, f) ∈ fs -> mut_ok E T f) ->
    ST E K0 c DD T m g r ->
    wp (mfor fs (fun '(i, f) => modify_node E i f)) (g, r) (fun _ _ => True)
      (fun p '(g', r') => (exists m', ST E K0 c DD T m' g' r' /\ mutate_stops fs p m m') \/ mut_left E fs p m g').
  Proof.
    revert m g r. induction fs as [|[i f] fs IH]; intros m g r Hfs Hst; cbn [mfor]; [by apply wp_ret|].
    apply wp_bind. destruct (m !! i) as [n|] eqn:Hm.
    2:{ unfold wp. rewrite modify_node_none by by rewrite <- (st_abs _ _ _ _ _ _ _ _ Hst). left. exists m. split; [done|].
        by exists [], i, f, fs. }
    assert (graph_get g i = Some n) as Hg by by rewrite <- (st_abs _ _ _ _ _ _ _ _ Hst).
    eapply wp_mono; [apply wp_and; [apply (modify_node_wp E i f g r K0); try apply Hst|apply modify_node_stop, Hst]|..]; cbn beta.
    - intros n0 n' Hg0 Hf. eapply (Hfs i f); [left|by apply (wf_nodes _ _ (st_wf _ _ _ _ _ _ _ _ Hst) i)|done].
    - intros _ [g1 r1] [(n0&n'&Hg0&Hf&Hnc&_) _]. rewrite Hg in Hg0. injection Hg0 as <-.
      assert (ST E K0 c DD T (<[i := n']> m) g1 r1) as Hst1.
      { eapply changed_ST; [done|done|done|].
        eapply (Hfs i f); [left|by apply (wf_nodes _ _ (st_wf _ _ _ _ _ _ _ _ Hst) i)|done]. }
      eapply wp_mono; [apply (IH (<[i := n']> m)); [|done]|..]; cbn beta; [|done|].
      + intros j f' Hin. apply (Hfs j). by right.
      + intros p [g' r'] [(m'&Hst'&pre&x&f'&post&->&Hpre&Hx)|(pre&x&f'&post&mi&nj&n1&k&->&Hpre&Hrest)]; [left|right].
        { exists m'. split; [done|]. exists ((i, f) :: pre), x, f', post. split; [done|]. split; [|done]. cbn. by rewrite Hm, Hf. }
        exists ((i, f) :: pre), x, f', post, mi, nj, n1, k. split; [done|]. split; [|done]. cbn. by rewrite Hm, Hf.
    - intros p [g' r'] [_ Hs]. right.
      destruct Hs as [Hn|(n0&n'&k&Hg0&Hget&Hh&Hf)]; [congruence|]. rewrite Hg in Hg0. injection Hg0 as <-.
      exists [], i, f, fs, m, n, n', k. split; [done|]. split; [done|]. split; [done|]. split.
      { intros j. rewrite Hget. case_decide as Hj; [subst; by rewrite lookup_insert|]. rewrite lookup_insert_ne by done.
        apply (st_abs _ _ _ _ _ _ _ _ Hst). }
      split; [done|]. destruct Hf as [?|(?&?&y&s&?&?)]; [by left|right]. split; [done|]. split; [done|]. exists y, s.
      split; [done|]. by eapply nohas_none.
  Qed.
  Lemma updates_stop_at K0 c (DD : idx -> Prop) (T : Prop) m g r fs :
    (forall i f, (i, f) ∈ fs -> upd_ok E T f) ->
    ST E K0 c DD T m g r ->
    wp (mfor fs (fun '(i, f) => update_node E i f)) (g, r) (fun _ _ => True)
      (fun p '(g', r') => (exists m', ST E K0 c DD T m' g' r' /\ update_stops fs p m m') \/ upd_left E fs p m g').
  Proof.
    revert m g r. induction fs as [|[i f] fs IH]; intros m g r Hfs Hst; cbn [mfor]; [by apply wp_ret|].
    apply wp_bind. destruct (m !! i) as [n|] eqn:Hm.
    2:{ unfold wp. rewrite update_node_none by by rewrite <- (st_abs _ _ _ _ _ _ _ _ Hst). left. exists m. split; [done|].
        by exists [], i, f, fs. }
    assert (graph_get g i = Some n) as Hg by by rewrite <- (st_abs _ _ _ _ _ _ _ _ Hst).
    eapply wp_mono; [apply wp_and; [apply (update_node_wp E i f g r K0); try apply Hst|apply update_node_stop, Hst]|..]; cbn beta.
    - intros n0 n' Hg0 Hf. eapply (Hfs i f); [left|by apply (wf_nodes _ _ (st_wf _ _ _ _ _ _ _ _ Hst) i)|done].
    - intros _ [g1 r1] [(n0&n'&Hg0&Hf&Hnc&_) _]. rewrite Hg in Hg0. injection Hg0 as <-.
      assert (ST E K0 c DD T (<[i := n']> m) g1 r1) as Hst1.
      { eapply changed_ST; [done|done|done|].
        eapply (Hfs i f); [left|by apply (wf_nodes _ _ (st_wf _ _ _ _ _ _ _ _ Hst) i)|done]. }
      eapply wp_mono; [apply (IH (<[i := n']> m)); [|done]|..]; cbn beta; [|done|].
      + intros j f' Hin. apply (Hfs j). by right.
      + intros p [g' r'] [(m'&Hst'&pre&x&f'&post&->&Hpre&Hx)|(pre&x&f'&post&mi&nj&->&Hpre&Hrest)]; [left|right].
        { exists m'. split; [done|]. exists ((i, f) :: pre), x, f', post. split; [done|]. split; [|done]. cbn. by rewrite Hm, Hf. }
        exists ((i, f) :: pre), x, f', post, mi, nj. split; [done|]. split; [|done]. cbn. by rewrite Hm, Hf.
    - intros p [g' r'] [_ Hs]. right.
      destruct Hs as [Hn|(n0&Hg0&Hf)]; [congruence|]. rewrite Hg in Hg0. injection Hg0 as <-.
      exists [], i, f, fs, m, n. split; [done|]. split; [done|]. split; [done|].
      destruct Hf as [(Hf&Hget&Hh)|(n'&k&Hf&->&Hget&Hh&y&s&Hk&Hn)].
      + left. split; [done|]. split; [|done]. intros j. rewrite Hget. case_decide as Hj; [subst; by rewrite lookup_delete|].
        rewrite lookup_delete_ne by done. apply (st_abs _ _ _ _ _ _ _ _ Hst).
      + right. exists n', k. split; [done|]. split; [done|]. split.
        { intros j. rewrite Hget. case_decide as Hj; [subst; by rewrite lookup_insert|]. rewrite lookup_insert_ne by done.
          apply (st_abs _ _ _ _ _ _ _ _ Hst). }
        split; [done|]. exists y, s. split; [done|]. by eapply nohas_none.
  Qed.

  Lemma remove_missing_ST K0 c (DD : idx -> Prop) (T : Prop) m g r x :
    ST E K0 c DD T m g r -> graph_get g x = None -> ST E K0 c DD T m (with_nodes g (arena_remove (g_nodes g) x).1) r.
  Proof.
    intros Hst Hn. assert (forall i, graph_get (with_nodes g (arena_remove (g_nodes g) x).1) i = graph_get g i) as Hget.
    { intros i. unfold graph_get. cbn. rewrite (arena_remove_get E) by apply Hst. case_decide; [by subst|done]. }
    destruct Hst as [Hwf Habs HLC Hctx Hdisp Hty]. split.
    - by apply WF_same_nodes.
    - intros i. by rewrite Hget.
    - eapply LC_ext; [exact HLC|]. intros a b l _ _. unfold glink. by rewrite Hget.
    - done.
    - intros i. cbn. rewrite (arena_remove_dispatch E) by apply Hwf. case_decide; [by intros [? ?]|apply Hdisp].
    - intros HT i n d Hi. change (graph_get (with_nodes g (arena_remove (g_nodes g) x).1) i = Some n) in Hi.
      rewrite Hget in Hi. revert Hi. cbn. rewrite (arena_remove_dispatch E) by apply Hwf. case_decide; [done|]. by apply Hty.
  Qed.

  Lemma removes_stop_at K0 c (DD : idx -> Prop) (T : Prop) m g r xs :
    ST E K0 c DD T m g r ->
    wp (mfor xs (remove_node E)) (g, r) (fun _ _ => True)
      (fun p '(g', r') => exists m', ST E K0 c DD T m' g' r' /\ remove_stops xs p m m').
  Proof.
    revert m g r. induction xs as [|x xs IH]; intros m g r Hst; cbn [mfor]; [by apply wp_ret|].
    apply wp_bind. pose proof (removes_phase E K0 c DD T m g r [x] Hst) as Hone. cbn [mfor] in Hone.
    pose proof (remove_node_wp E g r K0 x (st_wf _ _ _ _ _ _ _ _ Hst) (st_lc _ _ _ _ _ _ _ _ Hst)) as Hrm.
    unfold wp, bindM, retM in Hone. unfold wp in Hrm. unfold wp at 1. pose proof (remove_node_none x g r) as Hnone.
    destruct (remove_node E x (g, r)) as [[g1 r1] []|p [g1 r1]].
    - destruct Hone as (m1&Hm1&Hst1). cbn in Hm1. destruct (m !! x) as [n|] eqn:Hx; [|done]. injection Hm1 as <-.
      eapply wp_mono; [apply (IH _ _ _ Hst1)|..]; cbn beta; [done|].
      intros p [g' r'] (m'&Hst'&pre&y&post&->&Hpre&Hy). exists m'. split; [done|]. exists (x :: pre), y, post.
      split; [done|]. split; [|done]. cbn. by rewrite Hx.
    - destruct Hrm as (Hn&->&->). destruct (Hnone Hn) as [st [= -> _]].
      exists m. split; [by apply remove_missing_ST|]. exists [], x, xs. split; [done|]. split; [done|].
      split; [|done]. by rewrite (st_abs _ _ _ _ _ _ _ _ Hst).
  Qed.

  (** ** The body of a commit *)
  Lemma commit_body_stops (T : Prop) g t m :
    WF E g -> gabs g m -> (T -> gtyped g) -> trans_ok E T g t ->
    wp (commit_body E t) (g, lcr_new)
      (fun _ _ => True)
      (fun p '(g', r') => (exists m', ST E (glink g) (g_ctx g) (disp_bound g t) T m' g' r' /\ commit_stops (trans_txn t) p m m') \/
         commit_left E t p m g').
  Proof.
    intros Hwf Habs Hty Hok.
    assert (ST E (glink g) (g_ctx g) (disp_bound g t) T m g lcr_new) as Hst by
      (split; try done; [apply LC_new|intros i Hi; rewrite (Habs i); destruct (graph_get g i) eqn:Hgi; [eauto|right; by left]]).
    unfold commit_body. apply wp_bind.
    eapply wp_mono; [apply wp_and; [apply redirect_phase; [apply Hok|exact Hst]|apply wp_and;
      [apply redirect_links_vec_wp; [apply Hok|done|apply LC_new]|apply redirect_stop; [apply Hok|exact Hst]]]|..]; cbn beta.
    2:{ intros p [g' r'] (_&_&m'&Hst'&Hm'). left. exists m'. split; [done|]. by left. }
    intros _ [g1 r1] [(m1&Hm1&Hst1) [(res1&_&_&Hrd1) _]]. apply wp_bind.
    eapply wp_mono; [apply (merge_phase E (glink g) (g_ctx g) (disp_bound g t) T m1); [apply Hok| |apply Hok|apply Hok|intros i Hi Hi'; by right|exact Hst1]|..]; cbn beta.
    { intros i Hi. rewrite (rds_disp _ _ _ _ _ _ Hrd1). by apply Hok. }
    2:{ intros ?? HH. exact HH. }
    intros _ [g2 r2] Hst2. apply wp_bind.
    eapply wp_mono; [apply wp_and; [apply mutates_phase; [apply Hok|exact Hst2]|eapply mutates_stop_at; [apply Hok|exact Hst2]]|..]; cbn beta.
    2:{ intros p [g' r'] [_ [(m'&Hst'&Hm')|Hl]]; [left|right; exists m1; split; [done|by left]].
        exists m'. split; [done|]. right. exists m1. split; [done|]. by left. }
    intros _ [g3 r3] [(m2&Hm2&Hst3) _]. apply wp_bind.
    eapply wp_mono; [apply wp_and; [apply updates_phase; [apply Hok|exact Hst3]|eapply updates_stop_at; [apply Hok|exact Hst3]]|..]; cbn beta.
    2:{ intros p [g' r'] [_ [(m'&Hst'&Hm')|Hl]]; [left|right; exists m1; split; [done|]; right; by exists m2].
        exists m'. split; [done|]. right. exists m1. split; [done|]. right. exists m2. split; [done|]. by left. }
    intros _ [g4 r4] [(m3&Hm3&Hst4) _]. apply wp_bind.
    eapply wp_mono; [apply wp_and; [apply redirect_phase; [apply Hok|exact Hst4]|apply redirect_stop; [apply Hok|exact Hst4]]|..]; cbn beta.
    2:{ intros p [g' r'] (_&m'&Hst'&Hm'). left. exists m'. split; [done|]. right. exists m1. split; [done|].
        right. exists m2. split; [done|]. right. exists m3. split; [done|]. by left. }
    intros _ [g5 r5] [(m4&Hm4&Hst5) _].
    eapply wp_mono; [apply removes_stop_at; exact Hst5|..]; cbn beta; [done|].
    intros p [g' r'] (m'&Hst'&Hm'). left. exists m'. split; [done|]. right. exists m1. split; [done|].
    right. exists m2. split; [done|]. right. exists m3. split; [done|]. right. by exists m4.
  Qed.

  (** ** The maintenance *)
  Lemma bidi_remove1_stop g r x y l :
    WF E g ->
    wp (bidi_remove1 E (x, y, l)) (g, r) (fun _ _ => True)
      (fun p '(g', r') => exists gone : list link, (forall k, k ∈ gone -> k ∈ e_opp E l) /\
         forall a b k, glink g' a b k <-> glink g a b k /\ ~ (a = y /\ b = x /\ k ∈ gone)).
  Proof.
    intros Hwf. unfold bidi_remove1. unfold wp at 1.
    destruct (negb (arena_contains (g_nodes g) x) || negb (arena_contains (g_nodes g) y)) eqn:Hc; [done|].
    apply orb_false_iff in Hc as [Hcx Hcy]. apply negb_false_iff, arena_contains_get in Hcx as [nx Hgx], Hcy as [ny Hgy].
    change (graph_get g x = Some nx) in Hgx. change (graph_get g y = Some ny) in Hgy.
    match goal with |- match ?m (g, r) with _ => _ end =>
      change (wp m (g, r) (fun _ _ => True)
      (fun p '(g', r') => exists gone : list link, (forall k, k ∈ gone -> k ∈ e_opp E l) /\
         forall a b k, glink g' a b k <-> glink g a b k /\ ~ (a = y /\ b = x /\ k ∈ gone))) end.
    apply wp_bind. unfold wp at 1, node_unwrap. rewrite Hgx.
    apply wp_bind. unfold wp at 1. rewrite Hgy.
    eapply wp_mono; [apply (wp_mfor _ _ (fun P '(g', r') =>
      r' = r /\ WF E g' /\ bframe (fun i k => i = y /\ k ∈ e_opp E l) g g' /\
      (forall k, k ∈ P -> k ∈ e_opp E l) /\
      forall a b k, glink g' a b k <-> glink g a b k /\ ~ (a = y /\ b = x /\ k ∈ P))
      (fun _ '(g', r') => exists gone : list link, (forall k, k ∈ gone -> k ∈ e_opp E l) /\
         forall a b k, glink g' a b k <-> glink g a b k /\ ~ (a = y /\ b = x /\ k ∈ gone)))|..]; cbn beta.
    - split; [done|]. split; [done|]. split; [apply bframe_refl|]. split; [by intros k ?%elem_of_nil|]. intros a b k.
      rewrite elem_of_nil. naive_solver.
    - intros P lk post [g1 r1] Heq (->&Hwf1&Hfr1&HP&HK1).
      assert (lk ∈ match_bd ny (e_opp E l)) as Hin by (rewrite Heq, elem_of_app, elem_of_cons; auto).
      apply elem_match_bd in Hin as [Hopp Hlv].
      destruct (bfr_some _ _ _ Hfr1 y ny Hgy) as (ny1&Hgy1&Hvy1&_).
      eapply wp_mono; [apply (bidi_rm_wp E g1 r y x lk ny1); try done|..]; cbn beta.
      + apply (bframe_present _ _ _ _ Hfr1). eauto.
      + congruence.
      + intros _ [g2 r2] (->&Hwf2&Hfr2&HK2). split; [done|]. split; [done|]. split; [|split].
        * eapply bframe_trans; [done|]. eapply bframe_mono; [|done]. cbn. intros i k [-> ->]. done.
        * intros k [?| ->%elem_of_list_singleton]%elem_of_app; [by apply HP|done].
        * intros a b k. rewrite HK2, HK1, elem_of_app, elem_of_list_singleton. clear. naive_solver.
      + intros p [g2 r2] [Hbad [= -> ->]]. by exists P.
    - done.
    - intros p ? HH. exact HH.
  Qed.

  Lemma bidi_removes_stop L g r :
    WF E g ->
    wp (mfor L (bidi_remove1 E)) (g, r) (fun _ _ => True)
      (fun p '(g', r') => exists gone : idx -> idx -> link -> Prop,
         (forall a b k, gone a b k -> exists l, (b, a, l) ∈ L /\ k ∈ e_opp E l) /\
         forall a b k, glink g' a b k <-> glink g a b k /\ ~ gone a b k).
  Proof.
    intros Hwf. eapply wp_mono; [apply (wp_mfor L _ (fun P '(g', r') => r' = r /\ WF E g' /\
         bframe (fun i k => exists x l, (x, i, l) ∈ L /\ k ∈ e_opp E l) g g' /\
         forall a b k, glink g' a b k <->
           glink g a b k /\ ~ (exists l, (b, a, l) ∈ P /\ k ∈ e_opp E l /\ is_Some (graph_get g b)))
      (fun _ '(g', r') => exists gone : idx -> idx -> link -> Prop,
         (forall a b k, gone a b k -> exists l, (b, a, l) ∈ L /\ k ∈ e_opp E l) /\
         forall a b k, glink g' a b k <-> glink g a b k /\ ~ gone a b k))|..]; cbn beta.
    - split; [done|]. split; [done|]. split; [apply bframe_refl|]. intros a b k.
      setoid_rewrite elem_of_nil. naive_solver.
    - intros P [[x y] l] post [g1 r1] Heq (->&Hwf1&Hfr1&HK1).
      assert ((x, y, l) ∈ L) as Hin by (rewrite Heq, elem_of_app, elem_of_cons; auto).
      eapply wp_mono; [apply wp_and; [by apply bidi_remove1_wp|by apply bidi_remove1_stop]|..]; cbn beta.
      + intros _ [g2 r2] [(->&Hwf2&Hfr2&HK2) _]. split; [done|]. split; [done|]. split.
        * eapply bframe_trans; [done|]. eapply bframe_mono; [|done]. cbn. intros i k [-> Hk]. eauto.
        * intros a b k. rewrite HK2, HK1, (bframe_present _ _ _ x Hfr1).
          setoid_rewrite elem_of_app. setoid_rewrite elem_of_list_singleton. split.
          -- intros [[HK Hn1] Hn2]. split; [done|].
             intros (l'&[?|[= -> -> ->]]&Hk&Hp); [apply Hn1; eauto|by apply Hn2].
          -- intros [HK Hn]. split; [split; [done|]|].
             ++ intros (l'&?&?&?). apply Hn. eauto.
             ++ intros (->&->&?&?). apply Hn. eauto.
      + intros p [g2 r2] [_ (gone&Hg&HK2)].
        exists (fun a b k => (exists l, (b, a, l) ∈ P /\ k ∈ e_opp E l /\ is_Some (graph_get g b)) \/ (a = y /\ b = x /\ k ∈ gone)).
        split.
        * intros a b k [(l'&?&?&_)|(->&->&?)]; [|by eauto]. exists l'. split; [|done]. rewrite Heq. apply elem_of_app. by left.
        * intros a b k. rewrite HK2, HK1. tauto.
    - done.
    - intros p ? HH. exact HH.
  Qed.

  Lemma bidi_adds_stop L g r :
    WF E g ->
    wp (mfor L (bidi_add1 E)) (g, r) (fun _ _ => True)
      (fun p '(g', r') => exists P : list (idx * idx * link), (forall e, e ∈ P -> e ∈ L) /\
         forall a b k, glink g' a b k <-> glink g a b k \/
            (exists l, (b, a, l) ∈ P /\ is_Some (graph_get g b) /\ sole_opp E g a l k)).
  Proof.
    intros Hwf. eapply wp_mono; [apply (wp_mfor L _ (fun P '(g', r') => r' = r /\ WF E g' /\
         bframe (fun i k => exists x l, (x, i, l) ∈ L /\ k ∈ e_opp E l) g g' /\
         (forall a b k, glink g' a b k <-> glink g a b k \/
            (exists l, (b, a, l) ∈ P /\ is_Some (graph_get g b) /\ sole_opp E g a l k)))
      (fun p '(g', r') => exists P : list (idx * idx * link), (forall e, e ∈ P -> e ∈ L) /\
         forall a b k, glink g' a b k <-> glink g a b k \/
            (exists l, (b, a, l) ∈ P /\ is_Some (graph_get g b) /\ sole_opp E g a l k)))|..]; cbn beta.
    - split; [done|]. split; [done|]. split; [apply bframe_refl|].
      intros a b k. setoid_rewrite elem_of_nil. naive_solver.
    - intros P [[x y] l] post [g1 r1] Heq (->&Hwf1&Hfr1&HK1).
      assert ((x, y, l) ∈ L) as Hin by (rewrite Heq, elem_of_app, elem_of_cons; auto).
      eapply wp_mono; [by apply bidi_add1_wp|..]; cbn beta.
      + intros _ [g2 r2] (->&Hwf2&Hfr2&HK2&Hdone2). split; [done|]. split; [done|]. split.
        * eapply bframe_trans; [done|]. eapply bframe_mono; [|done]. cbn. intros i k [-> Hk]. eauto.
        * intros a b k. rewrite HK2, HK1, (bframe_present _ _ _ x Hfr1).
          change (exists ny, graph_get g1 y = Some ny /\ match_bd ny (e_opp E l) = [k]) with (sole_opp E g1 y l k).
          rewrite (sole_opp_frame _ _ _ _ _ _ _ Hfr1).
          setoid_rewrite elem_of_app. setoid_rewrite elem_of_list_singleton. split.
          -- intros [[?|(l'&?&?&?)]|(->&->&?&?)]; [by left|right; eauto..].
          -- intros [?|(l'&[?|[= -> -> ->]]&?&?)]; [by auto|left; right; eauto|by right].
      + intros p [g2 r2] [_ [= -> ->]]. exists P. split; [|done]. intros e He. rewrite Heq. apply elem_of_app. by left.
    - done.
    - intros p ? HH. exact HH.
  Qed.

  (** [g'] has the links of [g] without some opposites of links in [rems], and with some
      opposites of links in [adds] *)
  Definition half_mirrored (rems adds : list (idx * idx * link)) g g' : Prop :=
    exists (gone : idx -> idx -> link -> Prop) (made : list (idx * idx * link)),
      (forall a b k, gone a b k -> exists l, (b, a, l) ∈ rems /\ k ∈ e_opp E l) /\
      (forall e, e ∈ made -> e ∈ adds) /\
      (forall a b k, glink g' a b k <-> (glink g a b k /\ ~ gone a b k) \/
         (exists l, (b, a, l) ∈ made /\ is_Some (graph_get g b) /\ sole_opp E g a l k)) /\
      ((forall l k, k ∈ e_opp E l -> ~ badkind E k) ->
       forall a b k l, (b, a, l) ∈ rems -> k ∈ e_opp E l -> is_Some (graph_get g b) -> gone a b k).

  Lemma apply_bidirectional_stop rr g r :
    WF E g ->
    wp (apply_bidirectional_links E rr) (g, r) (fun _ _ => True)
      (fun p '(g', r') => half_mirrored (lc_rems rr) (lc_adds rr) g g').
  Proof.
    intros Hwf. unfold apply_bidirectional_links. apply wp_bind.
    eapply wp_mono; [apply wp_and; [by apply bidi_removes_wp|by apply bidi_removes_stop]|..]; cbn beta.
    2:{ intros p [g' r'] [((x&y&l&k&_&Hk&Hb)&_) (gone&Hg&HK)]. exists gone, []. split; [done|].
        split; [by intros e ?%elem_of_nil|]. split.
        - intros a b k'. rewrite HK. setoid_rewrite elem_of_nil. naive_solver.
        - intros Hnb. by destruct (Hnb l k Hk). }
    intros _ [g1 r1] [(->&Hwf1&Hfr1&HK1) _].
    eapply wp_mono; [by apply bidi_adds_stop|..]; cbn beta; [done|].
    intros p [g' r'] (P&HP&HK). exists (fun a b k => exists l, (b, a, l) ∈ lc_rems rr /\ k ∈ e_opp E l /\ is_Some (graph_get g b)), P.
    split; [by intros a b k (l&?&?&_); eauto|]. split; [done|]. split; [|by eauto].
    intros a b k. rewrite HK, HK1. setoid_rewrite (bframe_present _ _ _ b Hfr1).
    assert (forall l, sole_opp E g1 a l k <-> sole_opp E g a l k) as Hso by (intros l; by eapply sole_opp_frame).
    setoid_rewrite Hso. done.
  Qed.

  (** ** The whole commit *)
  Inductive panic_left (T : Prop) g t (p : panic) g' : Prop :=
  | pl_guard : guard_fails E g t -> g' = g -> panic_left T g t p g'
  | pl_stops m' : WF E g' -> gabs g' m' -> commit_stops (trans_txn t) p (gmap_of g) m' -> panic_left T g t p g'
  | pl_closure : commit_left E t p (gmap_of g) g' -> panic_left T g t p g'
  | pl_bidi g1 r m1 : sp_commit (trans_txn t) (gmap_of g) m1 -> ST E (glink g) (g_ctx g) (disp_bound g t) T m1 g1 r ->
      WF E g' -> bframe (bidi_touched E (lc_rems r) (lc_adds r)) g1 g' ->
      bidi_panics E (lc_rems r) (lc_adds r) g1 p -> half_mirrored (lc_rems r) (lc_adds r) g1 g' -> panic_left T g t p g'
  | pl_type g1 r m1 : p = PLinkType -> committed E T g t g1 r m1 g' -> panic_left T g t p g'.

  Lemma commit_panic_left (T : Prop) t g p g' :
    WF E g -> (T -> gtyped g) -> trans_ok E T g t -> commit E t g = Panicked p g' -> panic_left T g t p g'.
  Proof.
    intros Hwf Hty Hok Hc. unfold commit, bindM in Hc.
    assert (match do_commit E t g with
      | Done g' r => exists g1 m1, committed E T g t g1 r m1 g'
      | Panicked p g' => panic_left T g t p g'
      end) as Hs.
    { apply (guard_cases E g t); intros Hg.
      { destruct (do_commit_guard E g t Hg) as (q&->&_). by apply pl_guard. }
      rewrite (do_commit_unfold E g t Hg). set (prog := (run! commit_body E t; _)).
      assert (wp prog (g, lcr_new) (fun r '(g', _) => exists g1 m1, committed E T g t g1 r m1 g')
        (fun p '(g', _) => panic_left T g t p g')) as Hwp.
      { apply wp_bind. eapply wp_mono;
          [apply wp_and; [apply (commit_body_wp E T g t (gmap_of g)); try done; by apply (gmap_of_abs E)
                         |apply (commit_body_stops T g t (gmap_of g)); try done; by apply (gmap_of_abs E)]|..]; cbn beta.
        2:{ intros q [g1 r1] [_ [(m'&Hst&Hm')|Hft]]; [|by apply pl_closure].
            eapply pl_stops; [apply Hst|apply Hst|done]. }
        intros _ [g1 r1] [(m1&Hsp&Hst) _]. apply wp_bind, wp_get, wp_bind.
        eapply wp_mono; [apply wp_and; [apply apply_bidirectional_links_wp; apply Hst|apply apply_bidirectional_stop; apply Hst]|..]; cbn beta.
        - intros _ [g2 r2] [(->&Hwf2&Hfr&HK&Hdone) _]. apply wp_ret. exists g1, m1. by split.
        - intros q [g2 r2] [(Hb&Hwf2&Hfr) Hhm]. by eapply pl_bidi. }
      unfold wp in Hwp. by destruct (prog (g, lcr_new)) as [[g1 r1] r|q [g1 r1]]. }
    destruct (do_commit E t g) as [g1 r|q g1]; [|by injection Hc as -> ->].
    pose proof (check_link_type_spec E r g1) as Hchk. rewrite Hc in Hchk. destruct Hchk as (->&->&_).
    destruct Hs as (g2&m1&Hcm). by eapply pl_type.
  Qed.
End stops.

Section final.
  Context {D : Type} (E : env) (T : Prop) (g : graph D) (t : trans D) (s : tspec D).
  Context (Hh : history E T g t s).

  (** C70 *)
  Lemma final_panic_left m p g' : nodes_are g m -> commit E t g = Panicked p g' ->
    (e_dbg E = true /\ ts_res s <> ∅ /\ g' = g) \/
    (exists m', commit_stops (ts_txn s) p m m' /\ nodes_are g' m' /\ WF E g') \/
    commit_left E t p (gmap_of g) g' \/
    exists m', sp_commit (ts_txn s) m m' /\ holds_nonbidi E g' m' /\ WF E g' /\
      ((forall l k, k ∈ e_opp E l -> nonvec E l) ->
       (p = PLinkType /\ forall a b k, in_graph g' a b k <-> mirrored E g m' a b k) \/
       exists gone made : idx -> idx -> link -> Prop,
         (forall a b k, gone a b k -> exists l, dropped g m' b a l /\ k ∈ e_opp E l) /\
         (forall x y l, made x y l -> added g m' x y l) /\
         (forall a b k, in_graph g' a b k <-> (in_nodes m' a b k /\ ~ gone a b k) \/
            exists l na, made b a l /\ m' !! a = Some na /\ opposites_on E l (nvar na) = [k]) /\
         (bidi_fields E -> forall a b k l, dropped g m' b a l -> k ∈ e_opp E l -> is_Some (m' !! b) -> gone a b k)).
  Proof using Hh.
    intros Hm Hc. destruct (history_ok E T g t s Hh) as (Hwf&Hty&Ht&_).
    assert (m = gmap_of g) as ->. { apply map_eq. intros i. by rewrite Hm, (history_nodes E T g t s Hh). }
    rewrite <- (history_txn E T g t s Hh).
    destruct (commit_panic_left E T t g p g' Hwf Hty Ht Hc) as [Hg ->|m' Hwf' Ha Hs|Hl|g1 r m1 Hsp Hst Hwf' Hf Hb Hhm|g1 r m1 -> Hcm].
    - left. apply (final_guard E T g t s Hh) in Hg as [??]. done.
    - right. left. by exists m'.
    - right. right. by left.
    - right. right. right. exists m1. split; [done|]. split.
      { intros i. rewrite (st_abs _ _ _ _ _ _ _ _ Hst). eapply bframe_agree; [done|]. intros j k (x&l&_&Hk). by exists l. }
      split; [done|]. intros Hnv. right. destruct Hhm as (gone&made&Hgo&Hma&HK&Hall).
      exists gone, (fun x y l => (x, y, l) ∈ made /\ added g m1 x y l). split; [|split; [|split]].
      + intros a b k Hk. destruct (Hgo a b k Hk) as (l&Hl&Hkl). exists l. split; [|done].
        apply (st_rems E _ _ _ _ _ _ _ Hst); [by eapply Hnv|done].
      + by intros x y l [_ ?].
      + intros a b k. change (in_graph g' a b k) with (glink g' a b k). rewrite HK, (st_in _ _ _ _ _ _ _ _ Hst). unfold sole_opp.
        setoid_rewrite (st_get _ _ _ _ _ _ _ _ Hst). split.
        * intros [?|(l&Hl&Hb'&na&Hna&Hm')]; [by left|]. right. rewrite opposites_match in Hm'. exists l, na.
          split; [|done]. split; [done|]. apply (st_adds E _ _ _ _ _ _ _ Hst); [by eapply nonvec_opp|by apply Hma].
        * intros [?|(l&na&[Hl [Hin _]]&Hna&Hm')]; [by left|]. right. exists l. split; [done|].
          rewrite <- opposites_match in Hm'. split; [|by exists na]. destruct Hin as (nb&Hnb&_). eauto.
      + intros Hbf a b k l Hd Hk Hp. apply (Hall) with l; [|by apply (st_rems E _ _ _ _ _ _ _ Hst); [by eapply Hnv|]|done|].
        * intros l' k' Hk'. destruct (Hbf l' k' Hk') as [_ Hkd]. unfold badkind. naive_solver congruence.
        * by rewrite (st_get _ _ _ _ _ _ _ _ Hst).
    - right. right. right. exists m1. split; [apply Hcm|]. split; [by eapply committed_holds|]. split; [apply Hcm|].
      intros Hnv. left. split; [done|]. intros a b k.
      rewrite <- (bidi_links_mirrored _ _ _ _ _ _ _ _ (cm_st _ _ _ _ _ _ _ _ Hcm) a b k Hnv).
      apply (cm_links _ _ _ _ _ _ _ _ Hcm).
  Qed.
End final.
