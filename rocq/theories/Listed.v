(** * Exactly when a commit succeeds

    The reverse index has an entry for every node, and for indices without node that an
    inserted node mentioned or a redirection led to.  Queued closures may mention these
    indices, and redirections may start at them; everything else panics. *)
From stdpp Require Export gmap.
From Verif Require Export Exact.

Section listed.
  Context {D : Type}.
  Implicit Types (n : node D) (m : gmap N (node D)) (B : idx -> Prop).

  (** [y] stands in a link field of [n]; the empty index only counts in a set *)
  Definition refers n (y : idx) : Prop :=
    exists f lv, nlinks n !! f = Some lv /\ y ∈ lv_elems lv /\ (y <> 0%N \/ exists k l, lv = LSet k l).
  (** [y] has an entry in the reverse index, typed_graph.rs:27 *)
  Definition listed (g : graph D) (y : idx) : Prop := is_Some (omap_get y (g_back g)).

  (** ** The entries after each part of a commit *)
  Definition l_redir (reps : list (idx * idx)) B y : Prop := B y \/ exists res, redir_resolved reps res /\ y ∈ res.*2.
  Definition l_new m B y : Prop := B y \/ is_Some (m !! y) \/ exists x n, m !! x = Some n /\ refers n y.
  Definition l_queue (t : txn D) B : idx -> Prop := l_new (x_new t) (l_redir (x_redir t) B).
  Definition l_commit (t : txn D) B y : Prop := l_redir (x_redir_all t) (l_queue t B) y /\ y ∉ x_del t.

  (** ** When no part panics *)
  Definition redir_listed (reps : list (idx * idx)) B : Prop :=
    (exists P, redir_ptrs reps P) /\ forall o, o ∈ reps.*1 -> B o.
  Fixpoint mutates_listed (fs : list (idx * (node D -> out (node D) unit))) B m : Prop :=
    match fs with
    | [] => True
    | (i, f) :: fs' => exists n n', m !! i = Some n /\ f n = Done n' tt /\
        (forall y, refers n' y -> B y) /\ mutates_listed fs' B (<[i := n']> m)
    end.
  Fixpoint updates_listed (fs : list (idx * (node D -> res (node D)))) B m : Prop :=
    match fs with
    | [] => True
    | (i, f) :: fs' => exists n n', m !! i = Some n /\ f n = Ok n' /\
        (forall y, refers n' y -> B y) /\ updates_listed fs' B (<[i := n']> m)
    end.
  Definition commit_listed (t : txn D) m B : Prop :=
    redir_listed (x_redir t) B /\
    forall m1, sp_redirect (x_redir t) m m1 ->
      mutates_listed (x_mut t) (l_queue t B) (x_new t ∪ m1) /\
      forall m2, sp_mutates (x_mut t) (x_new t ∪ m1) = Some m2 ->
        updates_listed (x_upd t) (l_queue t B) m2 /\
        redir_listed (x_redir_all t) (l_queue t B) /\
        forall m3 m4, sp_updates (x_upd t) m2 = Some m3 -> sp_redirect (x_redir_all t) m3 m4 -> is_Some (sp_removes (x_del t) m4).

  Lemma refers_src n y : refers n y <-> exists s, src_val n s y.
  Proof.
    split.
    - intros (f&lv&Hf&Hin&Hnz). destruct lv as [i|k l|l]; cbn in Hin.
      + apply elem_of_list_singleton in Hin as ->. exists (Src (nvar n) f None). split; [done|]. cbn. rewrite Hf. split; [done|].
        destruct Hnz as [?|(?&?&?)]; done.
      + exists (Src (nvar n) f None). split; [done|]. cbn. by rewrite Hf.
      + apply elem_of_list_lookup in Hin as [p Hp]. exists (Src (nvar n) f (Some p)). split; [done|]. cbn. rewrite Hf. split; [done|].
        destruct Hnz as [?|(?&?&?)]; done.
    - intros (s&Hv&Hs). exists (s_fld s). destruct (nlinks n !! s_fld s) as [lv|]; [|done]. exists lv. split; [done|].
      destruct lv as [i|k l|l], (s_pos s) as [p|]; try done; cbn.
      + destruct Hs as [-> ?]. split; [by left|by left].
      + split; [done|]. right. eauto.
      + destruct Hs as [Hp ?]. split; [by eapply elem_of_list_lookup_2|by left].
  Qed.
  Lemma mutates_listed_some fs B m : mutates_listed fs B m -> is_Some (sp_mutates fs m).
  Proof. revert m. induction fs as [|[i f] fs IH]; intros m; cbn; [by eexists|]. intros (n&n'&->&->&_&H). by apply IH. Qed.
  Lemma updates_listed_some fs B m : updates_listed fs B m -> is_Some (sp_updates fs m).
  Proof. revert m. induction fs as [|[i f] fs IH]; intros m; cbn; [by eexists|]. intros (n&n'&->&->&_&H). by apply IH. Qed.
  Lemma mutates_listed_ext fs B B' m : (forall y, B y -> B' y) -> mutates_listed fs B m -> mutates_listed fs B' m.
  Proof. intros HB. revert m. induction fs as [|[i f] fs IH]; intros m; cbn; [done|]. intros (n&n'&H1&H2&H3&H4). exists n, n'. eauto 8. Qed.
  Lemma updates_listed_ext fs B B' m : (forall y, B y -> B' y) -> updates_listed fs B m -> updates_listed fs B' m.
  Proof. intros HB. revert m. induction fs as [|[i f] fs IH]; intros m; cbn; [done|]. intros (n&n'&H1&H2&H3&H4). exists n, n'. eauto 8. Qed.
End listed.

Section phases.
  Context {D : Type} (E : env).
  Implicit Types (g : graph D) (n : node D) (m : gmap N (node D)) (B : idx -> Prop).

  Lemma redirect_listed K0 c (DD : idx -> Prop) (T : Prop) m g r reps B :
    (forall o, o ∈ reps.*1 -> o <> 0%N) -> ST E K0 c DD T m g r -> (forall y, listed g y <-> B y) ->
    wp (redirect_links_vec (D:=D) reps) (g, r)
      (fun _ '(g', r') => redir_listed reps B /\ (forall y, listed g' y <-> l_redir reps B y) /\
         exists m', sp_redirect reps m m' /\ ST E K0 c DD T m' g' r' /\ forall j, arena_dispatch (g_nodes g') j = arena_dispatch (g_nodes g) j)
      (fun p '(g', r') => ~ redir_listed reps B).
  Proof.
    intros Hz Hst HB. eapply wp_mono; [apply redirect_links_vec_wp; [done|apply Hst|apply Hst]|..]; cbn beta.
    - intros _ [g' r'] (res&Hres&Hh&Hrd). split; [|split].
      + split; [destruct Hres as (P&HP&_); by exists P|]. intros o Ho. by apply HB, Hh.
      + intros y. change (hasback g' y <-> l_redir reps B y). rewrite (rds_has _ _ _ _ _ _ Hrd). unfold l_redir. rewrite <- HB. apply or_iff_compat_l. split; [by exists res|].
        intros (res'&Hres'&Hy). by rewrite (redir_resolved_det _ _ _ Hres Hres').
      + exists (node_redirects res <$> m). split; [by exists res|]. split; [by eapply redirecteds_ST|apply Hrd].
    - intros p [g' r'] [(->&Hl&Hnp&->&->)|(->&(o&Ho&Hn)&_)].
      + by intros [? _].
      + intros [_ H]. apply Hn. apply HB, H, Ho.
  Qed.
  Lemma merge_listed K0 c (DD : idx -> Prop) (T : Prop) m g r (a : arena D) B (R : panic -> graph D * lcr -> Prop) :
    arena_ok E a -> arena_disj (g_nodes g) a ->
    (forall x n, arena_get a x = Some n -> node_ok E n /\ x <> 0%N) ->
    (T -> atyped a) -> (forall i, is_Some (arena_dispatch a i) -> arena_get a i = None -> DD i) ->
    ST E K0 c DD T m g r -> (forall y, listed g y <-> B y) ->
    wp (merge_nodes E a) (g, r)
      (fun _ '(g', r') => ST E K0 c DD T (amap a ∪ m) g' r' /\ forall y, listed g' y <-> l_new (amap a) B y) R.
  Proof.
    intros Hok Hdis Hn Hty HDD Hst HB.
    pose proof (merge_phase E K0 c DD T m g r a (fun _ _ => False) Hok Hdis Hn Hty HDD Hst) as H1.
    pose proof (merge_nodes_wp E a g r K0 (fun _ _ => False)) as H2.
    unfold wp in *. destruct (merge_nodes E a (g, r)) as [[g' r'] []|p s]; [|done]. split; [done|].
    destruct H2 as (_&_&_&_&_&Hhas); [apply Hst|done|done|done|apply Hst|]. intros y. change (hasback g' y <-> l_new (amap a) B y).
    rewrite Hhas. unfold l_new. rewrite <- HB, (amap_abs E a Hok y). apply or_iff_compat_l, or_iff_compat_l.
    split.
    - intros (x&n&s&Hx&Hy). exists x, n. rewrite (amap_abs E a Hok x). split; [done|]. apply refers_src. eauto.
    - intros (x&n&Hx&Hy). rewrite (amap_abs E a Hok x) in Hx. apply refers_src in Hy as [s Hy]. by exists x, n, s.
  Qed.
  Lemma mutates_wp K0 c (DD : idx -> Prop) (T : Prop) m g r fs B :
    (forall i f, (i, f) ∈ fs -> mut_ok E T f) -> ST E K0 c DD T m g r -> (forall y, listed g y <-> B y) ->
    wp (mfor fs (fun '(i, f) => modify_node E i f)) (g, r)
      (fun _ '(g', r') => mutates_listed fs B m /\ (forall y, listed g' y <-> B y) /\ exists m', sp_mutates fs m = Some m' /\ ST E K0 c DD T m' g' r')
      (fun p '(g', r') => ~ mutates_listed fs B m).
  Proof.
    revert m g r. induction fs as [|[i f] fs IH]; intros m g r Hfs Hst HB; cbn [mfor].
    - apply wp_ret. split; [done|]. split; [done|]. by exists m.
    - apply wp_bind. eapply wp_mono; [apply (modify_node_wp E i f g r K0); try apply Hst|..]; cbn beta.
      + intros n n' Hg Hf. eapply (Hfs i f); [left|by apply (wf_nodes _ _ (st_wf _ _ _ _ _ _ _ _ Hst) i)|done].
      + intros _ [g1 r1] (n&n'&Hg&Hf&Hnc&Hlk).
        assert (m !! i = Some n) as Hm by by rewrite (st_abs _ _ _ _ _ _ _ _ Hst).
        assert (forall y, listed g1 y <-> B y) as HB1. { intros y. rewrite <- HB. apply (nc_has _ _ _ _ _ _ _ Hnc). }
        eapply wp_mono; [apply (IH (<[i := n']> m)); [| |exact HB1]|..]; cbn beta.
        * intros j f' Hin. apply (Hfs j). by right.
        * eapply changed_ST; [done|done|done|].
          eapply (Hfs i f); [left|by apply (wf_nodes _ _ (st_wf _ _ _ _ _ _ _ _ Hst) i)|done].
        * intros _ [g' r'] (Hml&HB'&m'&Hm'&Hst'). split; [|split; [done|]].
          -- cbn. exists n, n'. split; [done|]. split; [done|]. split; [|done]. intros y [s Hs]%refers_src. apply HB. by eapply Hlk.
          -- exists m'. cbn. by rewrite Hm, Hf.
        * intros p [g' r'] Hn (n0&n0'&Hn0&Hf0&_&Hrest). apply Hn. assert (n0 = n) as -> by congruence. assert (n0' = n') as -> by congruence. done.
      + intros p [g' r'] HH (n0&n0'&Hn0&Hf0&Hm0&_). rewrite (st_abs _ _ _ _ _ _ _ _ Hst) in Hn0.
        destruct HH as [[Hn _]|(n&Hg&[(n'&Hf)|(n'&y&s&Hf&->&Hsv&Hb)])]; [congruence..|].
        apply Hb. change (listed g y). apply HB, Hm0, refers_src. exists s. congruence.
  Qed.
  Lemma updates_wp K0 c (DD : idx -> Prop) (T : Prop) m g r fs B :
    (forall i f, (i, f) ∈ fs -> upd_ok E T f) -> ST E K0 c DD T m g r -> (forall y, listed g y <-> B y) ->
    wp (mfor fs (fun '(i, f) => update_node E i f)) (g, r)
      (fun _ '(g', r') => updates_listed fs B m /\ (forall y, listed g' y <-> B y) /\ exists m', sp_updates fs m = Some m' /\ ST E K0 c DD T m' g' r')
      (fun p '(g', r') => ~ updates_listed fs B m).
  Proof.
    revert m g r. induction fs as [|[i f] fs IH]; intros m g r Hfs Hst HB; cbn [mfor].
    - apply wp_ret. split; [done|]. split; [done|]. by exists m.
    - apply wp_bind. eapply wp_mono; [apply (update_node_wp E i f g r K0); try apply Hst|..]; cbn beta.
      + intros n n' Hg Hf. eapply (Hfs i f); [left|by apply (wf_nodes _ _ (st_wf _ _ _ _ _ _ _ _ Hst) i)|done].
      + intros _ [g1 r1] (n&n'&Hg&Hf&Hnc&Hlk).
        assert (m !! i = Some n) as Hm by by rewrite (st_abs _ _ _ _ _ _ _ _ Hst).
        assert (forall y, listed g1 y <-> B y) as HB1. { intros y. rewrite <- HB. apply (nc_has _ _ _ _ _ _ _ Hnc). }
        eapply wp_mono; [apply (IH (<[i := n']> m)); [| |exact HB1]|..]; cbn beta.
        * intros j f' Hin. apply (Hfs j). by right.
        * eapply changed_ST; [done|done|done|].
          eapply (Hfs i f); [left|by apply (wf_nodes _ _ (st_wf _ _ _ _ _ _ _ _ Hst) i)|done].
        * intros _ [g' r'] (Hml&HB'&m'&Hm'&Hst'). split; [|split; [done|]].
          -- cbn. exists n, n'. split; [done|]. split; [done|]. split; [|done]. intros y [s Hs]%refers_src. apply HB. by eapply Hlk.
          -- exists m'. cbn. by rewrite Hm, Hf.
        * intros p [g' r'] Hn (n0&n0'&Hn0&Hf0&_&Hrest). apply Hn. assert (n0 = n) as -> by congruence. assert (n0' = n') as -> by congruence. done.
      + intros p [g' r'] HH (n0&n0'&Hn0&Hf0&Hm0&_). rewrite (st_abs _ _ _ _ _ _ _ _ Hst) in Hn0.
        destruct HH as [[Hn _]|(n&Hg&[Hf|(n'&y&s&Hf&->&Hsv&Hb)])]; [congruence..|].
        apply Hb. change (listed g y). apply HB, Hm0, refers_src. exists s. congruence.
  Qed.

  Lemma removes_listed K0 g r xs : WF E g -> LC E r K0 (glink g) ->
    wp (mfor xs (remove_node E)) (g, r) (fun _ '(g', r') => forall y, listed g' y <-> listed g y /\ y ∉ xs) (fun _ _ => True).
  Proof.
    revert g r. induction xs as [|x xs IH]; intros g r Hwf HLC; cbn [mfor].
    - apply wp_ret. intros y. rewrite elem_of_nil. tauto.
    - apply wp_bind. eapply wp_mono; [apply (remove_node_wp E g r K0 x Hwf HLC)|..]; cbn beta; [|by intros ? [? ?]].
      intros _ [g1 r1] [_ Hrm]. eapply wp_mono; [apply (IH g1 r1); apply Hrm|..]; cbn beta; [|done].
      intros _ [g' r'] H y. rewrite H, not_elem_of_cons. change (listed g1 y) with (hasback g1 y). rewrite (rm_has _ _ _ _ _ _ Hrm).
      change (hasback g y) with (listed g y). tauto.
  Qed.

  Lemma commit_body_listed (T : Prop) g t m :
    WF E g -> gabs g m -> (T -> gtyped g) -> trans_ok E T g t ->
    wp (commit_body E t) (g, lcr_new)
      (fun _ '(g', r') => commit_listed (trans_txn t) m (listed g) /\ WF E g' /\ forall y, listed g' y <-> l_commit (trans_txn t) (listed g) y)
      (fun p '(g', r') => ~ commit_listed (trans_txn t) m (listed g)).
  Proof.
    intros Hwf Habs Hty Hok.
    assert (ST E (glink g) (g_ctx g) (disp_bound g t) T m g lcr_new) as Hst by 
      (split; try done; [apply LC_new|intros i Hi; rewrite (Habs i); destruct (graph_get g i) eqn:Hgi; [eauto|right; by left]]).
    unfold commit_body. apply wp_bind.
    eapply wp_mono; [apply (redirect_listed (glink g) (g_ctx g) (disp_bound g t) T m g lcr_new _ (listed g)); [apply Hok|exact Hst|done]|..]; cbn beta.
    2:{ intros p [g' r'] Hn [H _]. by apply Hn. }
    intros _ [g1 r1] (Hr1&HB1&m1&Hm1&Hst1&Hd1). apply wp_bind.
    eapply wp_mono; [apply (merge_listed (glink g) (g_ctx g) (disp_bound g t) T m1 g1 r1 (t_inc t) (l_redir (t_redir t) (listed g)) (fun _ _ => False)); [apply Hok| |apply Hok|apply Hok|intros i Hi Hi'; by right|exact Hst1|exact HB1]|..]; cbn beta; [|..|done].
    { intros i Hi. rewrite Hd1. by apply Hok. }
    intros _ [g2 r2] [Hst2 HB2]. change (forall y, listed g2 y <-> l_queue (trans_txn t) (listed g) y) in HB2.
    apply wp_bind.
    eapply wp_mono; [apply (mutates_wp (glink g) (g_ctx g) (disp_bound g t) T (amap (t_inc t) ∪ m1) g2 r2 (t_mut t) (l_queue (trans_txn t) (listed g)) (to_mut _ _ _ _ Hok) Hst2 HB2)|..]; cbn beta.
    2:{ intros p [g' r'] Hn [_ H]. apply Hn. by apply (H m1). }
    intros _ [g3 r3] (Hml&HB3&m2&Hm2&Hst3). apply wp_bind.
    eapply wp_mono; [apply (updates_wp (glink g) (g_ctx g) (disp_bound g t) T m2 g3 r3 (t_upd t) (l_queue (trans_txn t) (listed g)) (to_upd _ _ _ _ Hok) Hst3 HB3)|..]; cbn beta.
    2:{ intros p [g' r'] Hn [_ H]. destruct (H m1 Hm1) as [_ H2]. apply Hn. by apply (H2 m2). }
    intros _ [g4 r4] (Hul&HB4&m3&Hm3&Hst4). apply wp_bind.
    eapply wp_mono; [apply (redirect_listed (glink g) (g_ctx g) (disp_bound g t) T m3 g4 r4 _ (l_queue (trans_txn t) (listed g))); [apply Hok|exact Hst4|exact HB4]|..]; cbn beta.
    2:{ intros p [g' r'] Hn [_ H]. destruct (H m1 Hm1) as [_ H2]. apply Hn. by apply (H2 m2). }
    intros _ [g5 r5] (Hr2&HB5&m4&Hm4&Hst5&_).
    eapply wp_mono; [apply wp_and; [apply removes_phase; exact Hst5|apply (removes_listed (glink g)); apply Hst5]|..]; cbn beta.
    2:{ intros p [g' r'] [[Hn _] _] [_ H]. destruct (H m1 Hm1) as [_ H2]. destruct (H2 m2 Hm2) as (_&_&H3).
        destruct (H3 m3 m4 Hm3 Hm4) as [? H4]. cbn in H4. congruence. }
    intros _ [g6 r6] [(m5&Hm5&Hst6) HB6]. split; [|split; [apply Hst6|]].
    - split; [done|]. intros m1' Hm1'. assert (m1' = m1) as -> by by eapply sp_redirect_det. split; [done|].
      intros m2' Hm2'. cbn in Hm2'. assert (m2' = m2) as -> by congruence. split; [done|]. split; [done|].
      intros m3' m4' Hm3' Hm4'. cbn in Hm3'. assert (m3' = m3) as -> by congruence. assert (m4' = m4) as -> by by eapply sp_redirect_det.
      by exists m5.
    - intros y. rewrite HB6, HB5. done.
  Qed.
End phases.

Section bidi.
  Context {D : Type} (E : env) (g0 : graph D) (Hg0 : forall x, is_Some (graph_get g0 x) -> listed g0 x).
  Implicit Types (g : graph D) (n : node D).

  Definition same_listed (st : graph D * lcr) : Prop :=
    (forall x, is_Some (graph_get st.1 x) <-> is_Some (graph_get g0 x)) /\ forall y, listed st.1 y <-> listed g0 y.
  Lemma same_set_node g r y n0 n : same_listed (g, r) -> graph_get g y = Some n0 -> same_listed (with_nodes g (arena_set (g_nodes g) y n), r).
  Proof.
    intros [H1 H2] Hy. split; [|exact H2]. intros x. rewrite <- H1. cbn. unfold graph_get. cbn.
    rewrite (arena_set_get _ _ n0) by done. case_decide; [subst|done]. change (arena_get (g_nodes g) y) with (graph_get g y). rewrite Hy.
    by split; eexists.
  Qed.
  Lemma same_back_insert g r y b b' : same_listed (g, r) -> listed g y -> same_listed (with_back g (omap_insert y b' (g_back g)), b).
  Proof.
    intros [H1 H2] Hy. split; [exact H1|]. intros z. rewrite <- H2. unfold listed in *. cbn. rewrite omap_get_insert. case_decide; [subst|done].
    split; [done|by eexists].
  Qed.
  Lemma bidi_listed r0 g r : same_listed (g, r) ->
    wp (apply_bidirectional_links E r0) (g, r) (fun _ st => same_listed st) (fun _ _ => True).
  Proof using Hg0.
    intros Hg. unfold apply_bidirectional_links. apply wp_bind.
    eapply wp_mono; [apply (wp_mfor_simple _ _ same_listed (fun _ _ => True)); [done|]| |done].
    - intros [[x y] l] [g1 r1] _ H1. unfold bidi_remove1, wp at 1. destruct (_ || _); [done|]. 
      change (wp (do! _ <- node_unwrap x; do! ny <- node_unwrap y;
       mfor (match_bd ny (e_opp E l)) (fun lk =>
         do! ny' <- node_unwrap y;
         do! (ny'', b) <- liftM (remove_link ny' lk x);
         run! (fun '(g', r') => Done (with_nodes g' (arena_set (g_nodes g') y ny''), r') tt);
         if b : bool then do! s <- liftM (to_source E lk); remove_back_link y x s
         else retM tt)) (g1, r1) (fun _ st => same_listed st) (fun _ _ => True)).
      apply wp_bind. unfold wp at 1, node_unwrap at 1. destruct (graph_get g1 x) as [nx|]; [|done].
      apply wp_bind. unfold wp at 1, node_unwrap at 1. destruct (graph_get g1 y) as [ny|]; [|done].
      apply (wp_mfor_simple _ _ same_listed (fun _ _ => True)); [done|]. intros lk [g2 r2] _ H2.
      apply wp_bind. unfold wp at 1, node_unwrap. destruct (graph_get g2 y) as [n|] eqn:Hy; [|done].
      apply wp_bind, wp_lift; [|done]. intros [n' b] _. apply wp_bind. unfold wp at 1.
      pose proof (same_set_node g2 r2 y n n' H2 Hy) as H3. destruct b; [|done].
      apply wp_bind, wp_lift; [|done]. intros s _. unfold remove_back_link, back_remove, wp.
      destruct (omap_get x _) as [b|] eqn:Hb; [|done]. by eapply same_back_insert; [exact H3|eexists].
    - intros _ [g1 r1] H1. apply (wp_mfor_simple _ _ same_listed (fun _ _ => True)); [done|]. clear g r g1 r1 Hg H1.
      intros [[x y] l] [g1 r1] _ H1. unfold bidi_add1, wp at 1. destruct (_ || _); [done|].
      change (wp (do! _ <- node_unwrap x; do! ny <- node_unwrap y;
       let bds := match_bd ny (e_opp E l) in
       match bds with
       | [] => retM tt
       | lk :: _ =>
         if existsb (fun lk' => contains_link ny lk' x) bds then retM tt
         else if length bds =? 1 then
           do! (ny'', b) <- liftM (add_link ny lk x);
           run! (fun '(g', r') => Done (with_nodes g' (arena_set (g_nodes g') y ny''), r') tt);
           if b : bool then do! s <- liftM (to_source E lk); add_back_link y x s
           else retM tt
         else panicM PMultiChoice
       end) (g1, r1) (fun _ st => same_listed st) (fun _ _ => True)).
      apply wp_bind. unfold wp at 1, node_unwrap at 1. destruct (graph_get g1 x) as [nx|] eqn:Hx; [|done].
      apply wp_bind. unfold wp at 1, node_unwrap at 1. destruct (graph_get g1 y) as [n|] eqn:Hy; [|done].
      cbn zeta. destruct (match_bd n (e_opp E l)) as [|lk bds]; [done|]. destruct (existsb _ _); [done|]. destruct (_ =? _); [|done].
      apply wp_bind, wp_lift; [|done]. intros [n' b] _. apply wp_bind. unfold wp at 1.
      pose proof (same_set_node g1 r1 y n n' H1 Hy) as H3. destruct b; [|done].
      apply wp_bind, wp_lift; [|done]. intros s _. unfold add_back_link, back_entry_insert. apply wp_bind. unfold wp at 1, back_entry.
      set (g3 := with_nodes g1 _) in *.
      assert (listed g3 x) as Hlx. { apply H3, Hg0, H1. by exists nx. }
      assert (omap_entry x [] (g_back g3) = g_back g3) as Heq.
      { unfold omap_entry. destruct Hlx as [b ->]. done. }
      rewrite Heq. unfold back_insert, wp. cbn [g_back with_back]. destruct (omap_get x (g_back g3)) as [b|] eqn:Hb; [|done].
      apply (same_back_insert g3 r1 x r1 _ H3). by exists b.
  Qed.
End bidi.

Section final.
  Context {D : Type} (E : env) (T : Prop) (g : graph D) (t : trans D) (s : tspec D) (Hh : history E T g t s).
  Implicit Types (m : gmap N (node D)).

  Lemma wf_listed (g1 : graph D) : WF E g1 -> forall x, is_Some (graph_get g1 x) -> listed g1 x.
  Proof. intros Hwf x [n Hn]. by eapply (wf_b1 _ _ Hwf). Qed.

  (** a commit up to the check of the link types *)
  Lemma do_commit_listed :
    match do_commit E t g with
    | Done g' r => commit_listed (ts_txn s) (gmap_of g) (listed g) /\ forall y, listed g' y <-> l_commit (ts_txn s) (listed g) y
    | Panicked p g' => guard_fails E g t \/ ~ commit_listed (ts_txn s) (gmap_of g) (listed g) \/
        exists g1 r m1, sp_commit (ts_txn s) (gmap_of g) m1 /\ ST E (glink g) (g_ctx g) (disp_bound g t) T m1 g1 r /\
          bidi_panics E (lc_rems r) (lc_adds r) g1 p
    end.
  Proof using Hh.
    destruct (history_ok E T g t s Hh) as (Hwf&Hty&Ht&_). rewrite <- (history_txn E T g t s Hh).
    apply (guard_cases E g t); intros Hng.
    { destruct (do_commit_guard E g t Hng) as (p&->&_). by left. }
    rewrite (do_commit_unfold E g t Hng).
    assert (wp (run! commit_body E t; do! (_, r) <- getM; run! apply_bidirectional_links E r; retM r) (g, lcr_new)
      (fun _ '(g', _) => commit_listed (trans_txn t) (gmap_of g) (listed g) /\ forall y, listed g' y <-> l_commit (trans_txn t) (listed g) y)
      (fun p '(g', _) => ~ commit_listed (trans_txn t) (gmap_of g) (listed g) \/
        exists g1 r m1, sp_commit (trans_txn t) (gmap_of g) m1 /\ ST E (glink g) (g_ctx g) (disp_bound g t) T m1 g1 r /\
          bidi_panics E (lc_rems r) (lc_adds r) g1 p)) as Hwp.
    { apply wp_bind. eapply wp_mono; [apply wp_and; [apply (commit_body_listed E T g t (gmap_of g)); try done; by apply (gmap_of_abs E)|
        apply (commit_body_wp E T g t (gmap_of g)); try done; by apply (gmap_of_abs E)]|..]; cbn beta; [|intros p [? ?] [? _]; by left].
      intros _ [g1 r1] [(Hcl&Hwf1&HB) (m1&Hsp&Hst)]. apply wp_bind, wp_get, wp_bind.
      eapply wp_mono; [apply wp_and; [apply (bidi_listed E g1 (wf_listed g1 Hwf1) r1 g1 r1); by split|apply apply_bidirectional_links_wp; apply Hst]|..]; cbn beta.
      - intros _ [g2 r2] [[_ H2] _]. apply wp_ret. split; [done|]. intros y. rewrite <- HB. apply H2.
      - intros p [g2 r2] [_ (Hb&_)]. right. by exists g1, r1, m1. }
    unfold wp in Hwp. match type of Hwp with match ?o with _ => _ end => destruct o as [[g2 r2] r3|p [g2 r2]] end; [done|by right].
  Qed.
  Lemma final_listed g' : commit E t g = Done g' tt ->
    commit_listed (ts_txn s) (gmap_of g) (listed g) /\ forall y, listed g' y <-> l_commit (ts_txn s) (listed g) y.
  Proof using Hh.
    pose proof do_commit_listed as Hd. unfold commit, bindM. destruct (do_commit E t g) as [g1 r|p g1] eqn:Hc; [|done]. intros Hck.
    pose proof (check_link_type_spec E r g1) as Hs. rewrite Hck in Hs. by destruct Hs as [-> _].
  Qed.

  Lemma final_commit_iff m : bidi_fields E -> (forall v l, e_chk E v l = false -> nonvec E l) ->
    (forall l v, length (opposites_on E l v) <= 1) -> nodes_are g m ->
    (exists g', commit E t g = Done g' tt) <->
    (e_dbg E = false \/ ts_res s = ∅) /\ commit_listed (ts_txn s) m (listed g) /\
    forall m', sp_commit (ts_txn s) m m' -> no_conflict E g m' /\ added_typed E g m'.
  Proof using Hh.
    intros Hbf Hck Hone Hm. destruct (history_ok E T g t s Hh) as (Hwf&Hty&Ht&_).
    assert (m = gmap_of g) as ->. { apply map_eq. intros i. by rewrite Hm, (history_nodes E T g t s Hh). }
    assert (forall l k, k ∈ e_opp E l -> nonvec E l) as Hnv by (intros l k Hk; by eapply Hbf).
    split.
    - intros (g'&Hc). split.
      { destruct (commit_done E T g t Hwf Hty Ht g' Hc) as (Hng&_). destruct (e_dbg E) eqn:Hd; [right|by left].
        destruct (decide (ts_res s = ∅)) as [|Hne]; [done|]. destruct Hng. by apply (final_guard E T g t s Hh). }
      split; [by apply (final_listed g')|].
      destruct (commit_done E T g t Hwf Hty Ht g' Hc) as (_&g1&r&m1&Hcm&_&Hchk).
      pose proof (cm_spec _ _ _ _ _ _ _ _ Hcm) as Hsp1. rewrite (history_txn E T g t s Hh) in Hsp1.
      intros m' Hsp. assert (m1 = m') as -> by exact (sp_commit_det (ts_txn s) _ _ _ Hsp1 Hsp).
      by eapply done_clean.
    - intros (Hres&Hcl&Hok). pose proof do_commit_listed as Hd.
      pose proof (do_commit_spec E T g t Hwf Hty Ht) as Hs. unfold commit, bindM.
      destruct (do_commit E t g) as [g2 r2|p2 g2].
      + destruct Hs as (_&g1&m1&Hcm). pose proof (check_link_type_spec E r2 g2) as Hk.
        destruct (check_link_type E r2 g2) as [g3 []|p3 g3]; [by exists g3|exfalso].
        destruct Hk as (->&_&x&y&l&ny&Hin&Hy&Hf). pose proof (cm_spec _ _ _ _ _ _ _ _ Hcm) as Hsp.
        rewrite (history_txn E T g t s Hh) in Hsp.
        by eapply (added_typed_checked E T g t g1 r2 m1 g2 x y l ny); [done|done|apply Hok, Hsp|..].
      + exfalso. destruct Hd as [Hg'|[?|(g1&r&m1&Hsp&Hst&Hb)]]; [|done|].
        * apply (final_guard E T g t s Hh) in Hg' as [Hd ?]. destruct Hres as [Hd'|?]; [congruence|done].
        * by eapply no_conflict_maintained, Hb; [done|done|apply Hok].
  Qed.
End final.
