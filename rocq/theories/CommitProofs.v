(** * A commit refines the sequential specification *)
From Verif Require Export UnionFind.

Section commit.
  Context {D : Type} (E : env).
  Implicit Types (g : graph D) (n : node D) (x y : idx) (s : source) (m : gmap N (node D)) (a : arena D).

  (** [m] is the content of an arena / a graph *)
  Definition aabs a m : Prop := forall i, m !! i = arena_get a i.
  Definition gabs g m : Prop := forall i, m !! i = graph_get g i.
  Definition amap a : gmap N (node D) := list_to_map (arena_items a).
  Definition gmap_of g : gmap N (node D) := amap (g_nodes g).

  Lemma amap_abs a : arena_ok E a -> aabs a (amap a).
  Proof.
    intros Hok i. unfold amap. destruct (arena_get a i) as [n|] eqn:Hi.
    - apply elem_of_list_to_map.
      + by apply (arena_items_NoDup E).
      + by apply (arena_get_items E).
    - apply not_elem_of_list_to_map. intros Hin. apply elem_of_list_fmap in Hin as ([j n]&->&Hin).
      apply (arena_get_items E) in Hin; [|done]. cbn in Hi. congruence.
  Qed.
  Lemma gmap_of_abs g : WF E g -> gabs g (gmap_of g).
  Proof. intros Hwf. apply amap_abs, Hwf. Qed.
  Lemma gabs_unique g m m' : gabs g m -> gabs g m' -> m = m'.
  Proof. intros H H'. apply map_eq. intros i. by rewrite H, H'. Qed.

  Definition trans_txn (t : trans D) : txn D :=
    Txn (t_redir t) (amap (t_inc t)) (t_mut t) (t_upd t) (t_redir_all t) (t_dec t).

  (** every node sits in the container of its variant *)
  Definition atyped a : Prop :=
    forall i n d, arena_get a i = Some n -> arena_dispatch a i = Some d -> nvar n = d.
  Definition gtyped g : Prop := atyped (g_nodes g).

  Record ST (K0 : idx -> idx -> link -> Prop) (c : N) (DD : idx -> Prop) (T : Prop) m g r : Prop := {
    st_wf : WF E g;
    st_abs : gabs g m;
    st_lc : LC E r K0 (glink g);
    st_ctx : g_ctx g = c;
    st_disp : forall i, is_Some (arena_dispatch (g_nodes g) i) -> is_Some (m !! i) \/ DD i;
    st_typed : T -> gtyped g }.

  Lemma src_val_links_to n s y : src_val n s y -> y <> 0%N -> links_to n y.
  Proof. intros H Hy. exists (src_link s). by apply src_val_has_link. Qed.

  Lemma node_redirects_nvar res n : nvar (node_redirects res n) = nvar n.
  Proof.
    unfold node_redirects. revert n. induction res as [|[o z] res IH]; intros n; [done|].
    cbn. by rewrite IH.
  Qed.

  Lemma redirecteds_ST K0 c (DD : idx -> Prop) (T : Prop) m g r g' r' res :
    ST K0 c DD T m g r -> redirecteds E g g' r' K0 res -> ST K0 c DD T (node_redirects res <$> m) g' r'.
  Proof.
    intros Hst Hrd. split.
    - apply Hrd.
    - intros i. rewrite lookup_fmap, (rds_get _ _ _ _ _ _ Hrd). by rewrite (st_abs _ _ _ _ _ _ _ Hst).
    - apply Hrd.
    - rewrite (rds_ctx _ _ _ _ _ _ Hrd). apply Hst.
    - intros i. rewrite (rds_disp _ _ _ _ _ _ Hrd), lookup_fmap, fmap_is_Some. apply Hst.
    - intros HT i n d. change (arena_get (g_nodes g') i) with (graph_get g' i).
      rewrite (rds_get _ _ _ _ _ _ Hrd), (rds_disp _ _ _ _ _ _ Hrd).
      destruct (graph_get g i) as [n0|] eqn:Hi; cbn; [|done]. intros [= <-] Hd.
      assert (nvar n0 = d) as <- by by apply (st_typed _ _ _ _ _ _ _ Hst HT i).
      apply node_redirects_nvar.
  Qed.

  (** [m'] has no nodes that [m] does not have; every node of [m] outside [dl] is still
      there, outside [X] with the same variant and data *)
  Definition kept (X dl : list idx) m m' : Prop :=
    (forall i, is_Some (m' !! i) -> is_Some (m !! i)) /\
    forall i n, m !! i = Some n -> i ∉ dl -> exists n', m' !! i = Some n' /\ (i ∉ X -> nvar n' = nvar n /\ ndata n' = ndata n).
  Lemma kept_refl X dl m : kept X dl m m.
  Proof. split; [done|]. eauto. Qed.
  Lemma kept_trans X dl m m1 m2 : kept X dl m m1 -> kept X dl m1 m2 -> kept X dl m m2.
  Proof.
    intros [H1 H2] [H3 H4]. split; [auto|]. intros i n Hi Hd. destruct (H2 i n Hi Hd) as (n1&Hi1&He1).
    destruct (H4 i n1 Hi1 Hd) as (n2&Hi2&He2). exists n2. split; [done|]. intros HX.
    destruct (He1 HX) as [<- <-]. by apply He2.
  Qed.
  Lemma kept_mono X dl X' dl' m m' : X ⊆ X' -> dl ⊆ dl' -> kept X dl m m' -> kept X' dl' m m'.
  Proof.
    intros HX Hdl [H1 H2]. split; [done|]. intros i n Hi Hd. destruct (H2 i n Hi) as (n'&Hi'&He); [by intros ?%Hdl|].
    exists n'. split; [done|]. intros Hn. apply He. by intros ?%HX.
  Qed.
  Lemma kept_fmap X dl (f : node D -> node D) m : (forall n, nvar (f n) = nvar n /\ ndata (f n) = ndata n) -> kept X dl m (f <$> m).
  Proof.
    intros Hf. split; [intros i; by rewrite lookup_fmap, fmap_is_Some|]. intros i n Hi _. exists (f n).
    rewrite lookup_fmap, Hi. split; [done|]. intros _. apply Hf.
  Qed.
  Lemma kept_insert X dl m i n n' : m !! i = Some n -> i ∈ X -> kept X dl m (<[i := n']> m).
  Proof.
    intros Hi HX. split.
    - intros j. destruct (decide (j = i)) as [->|Hne]; [eauto|by rewrite lookup_insert_ne].
    - intros j nj Hj _. destruct (decide (j = i)) as [->|Hne]; [rewrite lookup_insert; eauto; exists n'; naive_solver|].
      rewrite lookup_insert_ne by done. eauto.
  Qed.
  Lemma node_redirects_same res n : nvar (node_redirects res n) = nvar n /\ ndata (node_redirects res n) = ndata n.
  Proof.
    unfold node_redirects. revert n. induction res as [|[o z] res IH]; intros n; [done|]. cbn. apply (IH (node_redirect o z n)).
  Qed.

  (** a consistent state whose nodes satisfy [P] *)
  Definition left_ok K0 c (DD : idx -> Prop) (T : Prop) (P : gmap N (node D) -> Prop) g r : Prop :=
    exists m', ST K0 c DD T m' g r /\ P m'.
  Lemma left_ok_mono K0 c (DD : idx -> Prop) (T : Prop) (P Q : gmap N (node D) -> Prop) g r :
    left_ok K0 c DD T P g r -> (forall m', P m' -> Q m') -> left_ok K0 c DD T Q g r.
  Proof. intros (m0&Hst&Hd) Hm. exists m0. eauto. Qed.

  Lemma redirect_phase K0 c (DD : idx -> Prop) (T : Prop) m g r reps :
    (forall o, o ∈ reps.*1 -> o <> 0%N) ->
    ST K0 c DD T m g r ->
    wp (redirect_links_vec (D:=D) reps) (g, r)
      (fun _ '(g', r') => exists m', sp_redirect reps m m' /\ ST K0 c DD T m' g' r')
      (fun p '(g', r') => ~ redir_valid reps m /\
         (p = PLoop -> redir_bad reps /\ g' = g) /\ left_ok K0 c DD T (kept [] [] m) g' r').
  Proof.
    intros Hz Hst. eapply wp_mono; [apply redirect_links_vec_wp; [done|apply Hst|apply Hst]|..]; cbn beta.
    - intros _ [g' r'] (res&Hres&Hh&Hrd). exists (node_redirects res <$> m).
      split; [by exists res|]. by eapply redirecteds_ST.
    - intros p [g' r'] [(->&Hl&Hnp&->&->)|(->&(o&Ho&Hn)&res&Hrd)].
      + split; [by intros (Hn&_)|]. split; [done|]. exists m. split; [done|apply kept_refl].
      + split; [|split; [done|exists (node_redirects res <$> m); split; [by eapply redirecteds_ST|]]].
        2:{ apply kept_fmap, node_redirects_same. }
        intros (_&HH). destruct (HH o Ho) as [n Hon].
        rewrite (st_abs _ _ _ _ _ _ _ Hst) in Hon. destruct Hn. by apply (wf_b1 _ _ (st_wf _ _ _ _ _ _ _ Hst) o n).
  Qed.

  Lemma merge_phase K0 c (DD : idx -> Prop) (T : Prop) m g r a (R : panic -> graph D * lcr -> Prop) :
    arena_ok E a -> arena_disj (g_nodes g) a ->
    (forall x n, arena_get a x = Some n -> node_ok E n /\ x <> 0%N) ->
    (T -> atyped a) -> (forall i, is_Some (arena_dispatch a i) -> arena_get a i = None -> DD i) ->
    ST K0 c DD T m g r ->
    wp (merge_nodes E a) (g, r)
      (fun _ '(g', r') => ST K0 c DD T (amap a ∪ m) g' r') R.
  Proof.
    intros Hok Hdisj Hnodes Hty HDD Hst.
    eapply wp_mono; [apply (merge_nodes_wp E a g r K0); try done; apply Hst|..]; cbn beta; [|intros ?? HH; exact HH].
    intros _ [g' r'] (Hwf&Hctx&Hn&Hget&HLC&_). split; try done.
    - intros i. rewrite Hget, lookup_union, (amap_abs a Hok i), (st_abs _ _ _ _ _ _ _ Hst).
      destruct (arena_get a i), (graph_get g i); done.
    - rewrite Hctx. apply Hst.
    - intros i. rewrite Hn, (arena_merge_dispatch E) by done.
      rewrite lookup_union_is_Some, (amap_abs a Hok i).
      destruct (arena_dispatch a i) eqn:Hi; [|intros Hi'; apply (st_disp _ _ _ _ _ _ _ Hst) in Hi'; tauto].
      intros _. destruct (arena_get a i) eqn:Hai; [left; left; eauto|right; apply HDD; eauto].
    - intros HT i n d. change (arena_get (g_nodes g') i) with (graph_get g' i). rewrite Hget, Hn.
      rewrite (arena_merge_dispatch E) by done.
      destruct (arena_get a i) as [n0|] eqn:Hi.
      + intros [= <-]. destruct (arena_get_dispatch _ _ _ Hi) as [d' Hd']. rewrite Hd'. intros [= <-].
        by apply (Hty HT i).
      + intros Hgi. destruct (arena_dispatch a i) as [d'|] eqn:Hd'.
        * assert (arena_dispatch (g_nodes g) i = None) as Hnone by (apply Hdisj; eauto).
          destruct (arena_get_dispatch _ _ _ Hgi). congruence.
        * by apply (st_typed _ _ _ _ _ _ _ Hst HT i).
  Qed.

  Lemma changed_ST K0 c (DD : idx -> Prop) (T : Prop) m g r g' r' x n n' :
    ST K0 c DD T m g r -> graph_get g x = Some n -> node_changed E g g' r' K0 x n' ->
    (T -> nvar n' = nvar n) ->
    ST K0 c DD T (<[x := n']> m) g' r'.
  Proof.
    intros Hst Hg Hnc Hv. split; try apply Hnc.
    - intros i. rewrite (nc_get _ _ _ _ _ _ _ Hnc). destruct (decide (i = x)) as [->|Hi].
      + by rewrite lookup_insert.
      + rewrite lookup_insert_ne by done. apply Hst.
    - rewrite (nc_ctx _ _ _ _ _ _ _ Hnc). apply Hst.
    - intros i. rewrite (nc_disp _ _ _ _ _ _ _ Hnc), lookup_insert_is_Some'. intros Hi.
      apply (st_disp _ _ _ _ _ _ _ Hst) in Hi. tauto.
    - intros HT i ni d. change (arena_get (g_nodes g') i) with (graph_get g' i).
      rewrite (nc_get _ _ _ _ _ _ _ Hnc), (nc_disp _ _ _ _ _ _ _ Hnc). case_decide as Hi.
      + subst i. intros [= <-] Hd. rewrite (Hv HT). by apply (st_typed _ _ _ _ _ _ _ Hst HT x).
      + by apply (st_typed _ _ _ _ _ _ _ Hst HT i).
  Qed.

  Lemma targets_known_has g m n s y : WF E g -> gabs g m -> targets_known m n -> src_val n s y -> hasback g y.
  Proof.
    intros Hwf Habs [Hk Hset] Hs. destruct (decide (y = 0%N)) as [->|Hy].
    - destruct Hs as [Hv Hs]. destruct (nlinks n !! s_fld s) as [[i|k l|l]|] eqn:Hl; [| |destruct (s_pos s)|done].
      + destruct (s_pos s); naive_solver.
      + destruct (s_pos s); [done|]. by apply Hset in Hl.
      + naive_solver.
      + done.
    - destruct (Hk y) as [ny Hny]; [by eapply src_val_links_to|].
      rewrite Habs in Hny. by apply (wf_b1 _ _ Hwf y ny).
  Qed.

  Definition mut_ok (T : Prop) (f : mut_fn D) : Prop :=
    forall n n', node_ok E n -> f n = Done n' tt -> node_ok E n' /\ (T -> nvar n' = nvar n).
  Definition upd_ok (T : Prop) (f : upd_fn D) : Prop :=
    forall n n', node_ok E n -> f n = Ok n' -> node_ok E n' /\ (T -> nvar n' = nvar n).

  (** the closure of a queued mutate/update fails on the node it is applied to, or it
      makes a node that mentions an index without node *)
  Definition mut_fault fs (p : panic) m : Prop :=
    exists pre i (f : mut_fn D) post mi n, fs = pre ++ (i, f) :: post /\ sp_mutates pre m = Some mi /\ mi !! i = Some n /\
      ((exists n', f n = Panicked p n') \/ exists n', f n = Done n' tt /\ p = PUnwrap /\ ~ targets_known mi n').
  Definition upd_fault fs (p : panic) m : Prop :=
    exists pre i (f : upd_fn D) post mi n, fs = pre ++ (i, f) :: post /\ sp_updates pre m = Some mi /\ mi !! i = Some n /\
      (f n = Err p \/ exists n', f n = Ok n' /\ p = PUnwrap /\ ~ targets_known mi n').
  Lemma mutates_phase K0 c (DD : idx -> Prop) (T : Prop) m g r fs :
    (forall i f, (i, f) ∈ fs -> mut_ok T f) ->
    ST K0 c DD T m g r ->
    wp (mfor fs (fun '(i, f) => modify_node E i f)) (g, r)
      (fun _ '(g', r') => exists m', sp_mutates fs m = Some m' /\ ST K0 c DD T m' g' r')
      (fun p '(g', r') => ~ (mutates_known fs m /\ is_Some (sp_mutates fs m)) /\
         (left_ok K0 c DD T (kept fs.*1 [] m) g' r' \/ mut_fault fs p m)).
  Proof.
    revert m g r. induction fs as [|[i f] fs IH]; intros m g r Hfs Hst; cbn [mfor].
    - apply wp_ret. by exists m.
    - apply wp_bind. eapply wp_mono; [apply (modify_node_wp E i f g r K0); try apply Hst|..]; cbn beta.
      + intros n n' Hg Hf. eapply (Hfs i f); [left|by apply (wf_nodes _ _ (st_wf _ _ _ _ _ _ _ Hst) i)|done].
      + intros _ [g1 r1] (n&n'&Hg&Hf&Hnc&_).
        assert (ST K0 c DD T (<[i := n']> m) g1 r1) as Hst1.
        { eapply changed_ST; [done|done|done|].
          eapply (Hfs i f); [left|by apply (wf_nodes _ _ (st_wf _ _ _ _ _ _ _ Hst) i)|done]. }
        assert (m !! i = Some n) as Hm by by rewrite (st_abs _ _ _ _ _ _ _ Hst).
        eapply wp_mono; [apply (IH (<[i := n']> m)); [|done]|..]; cbn beta.
        * intros j f' Hin. apply (Hfs j). by right.
        * intros _ [g' r'] (m'&Hm'&Hst'). exists m'. cbn. by rewrite Hm, Hf.
        * intros p [g' r'] [Hn Hlf]. split.
          { intros [Hk Hs]. apply Hn. cbn in Hk, Hs. rewrite Hm, Hf in Hs. split; [|done]. by apply (Hk n n'). }
          destruct Hlf as [Hlf|(pre&j&f'&post&mi&nj&->&Hpre&Hrest)]; [left|right].
          { eapply left_ok_mono; [done|]. intros m' Hm'. eapply kept_trans; [by apply (kept_insert _ _ m i n n'); [|left]|].
            eapply kept_mono; [|done|done]. intros k Hk. by right. }
          exists ((i, f) :: pre), j, f', post, mi, nj. split; [done|]. split; [|done]. cbn. by rewrite Hm, Hf.
      + intros p [g' r'] HH.
        destruct HH as [[Hn [= -> ->]]|(n&Hg&[(n'&Hf)|(n'&y&s&Hf&->&Hsv&Hb)])].
        * split; [|left; exists m; split; [done|apply kept_refl]]. intros [_ Hs]. cbn in Hs. rewrite (st_abs _ _ _ _ _ _ _ Hst), Hn in Hs. by destruct Hs.
        * split; [intros [_ Hs]; cbn in Hs; rewrite (st_abs _ _ _ _ _ _ _ Hst), Hg, Hf in Hs; by destruct Hs|right].
          exists [], i, f, fs, m, n. rewrite (st_abs _ _ _ _ _ _ _ Hst). split_and!; [done..|left; by exists n'].
        * assert (m !! i = Some n) as Hm by by rewrite (st_abs _ _ _ _ _ _ _ Hst).
          assert (~ targets_known m n') as Hnk. { intros Hk. destruct Hb. by eapply targets_known_has; [apply Hst|apply Hst| |]. }
          split; [intros [Hk _]; apply Hnk; by apply (Hk n n')|right].
          exists [], i, f, fs, m, n. split_and!; [done..|]. right. by exists n'.
  Qed.

  Lemma updates_phase K0 c (DD : idx -> Prop) (T : Prop) m g r fs :
    (forall i f, (i, f) ∈ fs -> upd_ok T f) ->
    ST K0 c DD T m g r ->
    wp (mfor fs (fun '(i, f) => update_node E i f)) (g, r)
      (fun _ '(g', r') => exists m', sp_updates fs m = Some m' /\ ST K0 c DD T m' g' r')
      (fun p '(g', r') => ~ (updates_known fs m /\ is_Some (sp_updates fs m)) /\
         (left_ok K0 c DD T (kept fs.*1 [] m) g' r' \/ upd_fault fs p m)).
  Proof.
    revert m g r. induction fs as [|[i f] fs IH]; intros m g r Hfs Hst; cbn [mfor].
    - apply wp_ret. by exists m.
    - apply wp_bind. eapply wp_mono; [apply (update_node_wp E i f g r K0); try apply Hst|..]; cbn beta.
      + intros n n' Hg Hf. eapply (Hfs i f); [left|by apply (wf_nodes _ _ (st_wf _ _ _ _ _ _ _ Hst) i)|done].
      + intros _ [g1 r1] (n&n'&Hg&Hf&Hnc&_).
        assert (ST K0 c DD T (<[i := n']> m) g1 r1) as Hst1.
        { eapply changed_ST; [done|done|done|].
          eapply (Hfs i f); [left|by apply (wf_nodes _ _ (st_wf _ _ _ _ _ _ _ Hst) i)|done]. }
        assert (m !! i = Some n) as Hm by by rewrite (st_abs _ _ _ _ _ _ _ Hst).
        eapply wp_mono; [apply (IH (<[i := n']> m)); [|done]|..]; cbn beta.
        * intros j f' Hin. apply (Hfs j). by right.
        * intros _ [g' r'] (m'&Hm'&Hst'). exists m'. cbn. by rewrite Hm, Hf.
        * intros p [g' r'] [Hn Hlf]. split.
          { intros [Hk Hs]. apply Hn. cbn in Hk, Hs. rewrite Hm, Hf in Hs. split; [|done]. by apply (Hk n n'). }
          destruct Hlf as [Hlf|(pre&j&f'&post&mi&nj&->&Hpre&Hrest)]; [left|right].
          { eapply left_ok_mono; [done|]. intros m' Hm'. eapply kept_trans; [by apply (kept_insert _ _ m i n n'); [|left]|].
            eapply kept_mono; [|done|done]. intros k Hk. by right. }
          exists ((i, f) :: pre), j, f', post, mi, nj. split; [done|]. split; [|done]. cbn. by rewrite Hm, Hf.
      + intros p [g' r'] HH.
        destruct HH as [[Hn [= -> ->]]|(n&Hg&[Hf|(n'&y&s&Hf&->&Hsv&Hb)])].
        * split; [|left; exists m; split; [done|apply kept_refl]]. intros [_ Hs]. cbn in Hs. rewrite (st_abs _ _ _ _ _ _ _ Hst), Hn in Hs. by destruct Hs.
        * split; [intros [_ Hs]; cbn in Hs; rewrite (st_abs _ _ _ _ _ _ _ Hst), Hg, Hf in Hs; by destruct Hs|right].
          exists [], i, f, fs, m, n. rewrite (st_abs _ _ _ _ _ _ _ Hst). split_and!; [done..|by left].
        * assert (m !! i = Some n) as Hm by by rewrite (st_abs _ _ _ _ _ _ _ Hst).
          assert (~ targets_known m n') as Hnk. { intros Hk. destruct Hb. by eapply targets_known_has; [apply Hst|apply Hst| |]. }
          split; [intros [Hk _]; apply Hnk; by apply (Hk n n')|right].
          exists [], i, f, fs, m, n. split_and!; [done..|]. right. by exists n'.
  Qed.

  (** taking the dispatcher entry of a missing node away changes nothing *)
  Lemma WF_same_nodes g x : WF E g ->
    (forall i, graph_get (with_nodes g (arena_remove (g_nodes g) x).1) i = graph_get g i) ->
    WF E (with_nodes g (arena_remove (g_nodes g) x).1).
  Proof.
    intros Hwf Hget. split.
    - by apply arena_remove_ok, Hwf.
    - intros i n. rewrite Hget. apply (wf_nodes _ _ Hwf).
    - rewrite Hget. apply (wf_zero _ _ Hwf).
    - apply Hwf.
    - intros i n. rewrite Hget. apply (wf_b1 _ _ Hwf).
    - intros i n s y. rewrite Hget. apply (wf_b2 _ _ Hwf).
    - intros y i s Hy Hi. rewrite Hget. by apply (wf_b3 _ _ Hwf y).
  Qed.

  Lemma removes_phase K0 c (DD : idx -> Prop) (T : Prop) m g r xs :
    ST K0 c DD T m g r ->
    wp (mfor xs (remove_node E)) (g, r)
      (fun _ '(g', r') => exists m', sp_removes xs m = Some m' /\ ST K0 c DD T m' g' r')
      (fun p '(g', r') => sp_removes xs m = None /\ left_ok K0 c DD T (kept [] xs m) g' r').
  Proof.
    revert m g r. induction xs as [|x xs IH]; intros m g r Hst; cbn [mfor].
    - apply wp_ret. by exists m.
    - apply wp_bind. eapply wp_mono; [apply (remove_node_wp E g r K0 x); apply Hst|..]; cbn beta.
      + intros _ [g1 r1] [[n Hg] Hrm]. cbn. rewrite (st_abs _ _ _ _ _ _ _ Hst), Hg.
        eapply wp_mono; [apply (IH (sp_remove x m))|..]; cbn beta.
        2:{ intros ? [? ?] ?. done. }
        2:{ intros p [g' r'] [? Hlf]. split; [done|]. eapply left_ok_mono; [done|]. intros m' Hm'.
            eapply kept_trans; [|eapply kept_mono; [done| |done]; intros k Hk; by right]. unfold sp_remove. split.
            - intros i. rewrite lookup_fmap, fmap_is_Some. intros [? [_ Hi]%lookup_delete_Some]. eauto.
            - intros i ni Hi [Hne _]%not_elem_of_cons. exists (node_redirect x 0%N ni).
              by rewrite lookup_fmap, lookup_delete_ne, Hi. }
        split; try apply Hrm.
        * intros i. unfold sp_remove. rewrite lookup_fmap, (rm_get _ _ _ _ _ _ Hrm).
          destruct (decide (i = x)) as [->|Hi]; [by rewrite lookup_delete|].
          rewrite lookup_delete_ne by done. by rewrite (st_abs _ _ _ _ _ _ _ Hst).
        * rewrite (rm_ctx _ _ _ _ _ _ Hrm). apply Hst.
        * intros i. rewrite (rm_disp _ _ _ _ _ _ Hrm). unfold sp_remove. rewrite lookup_fmap, fmap_is_Some. case_decide; [by intros [? [=]]|].
          rewrite lookup_delete_ne by done. apply Hst.
        * intros HT i ni d. change (arena_get (g_nodes g1) i) with (graph_get g1 i).
          rewrite (rm_get _ _ _ _ _ _ Hrm), (rm_disp _ _ _ _ _ _ Hrm). case_decide as Hi; [done|].
          destruct (graph_get g i) as [n0|] eqn:Hgi; cbn; [|done]. intros [= <-] Hd. change (nvar n0 = d).
          by apply (st_typed _ _ _ _ _ _ _ Hst HT i).
      + intros p [g' r'] (Hn&->&->). cbn. rewrite (st_abs _ _ _ _ _ _ _ Hst), Hn. split; [done|]. exists m. split; [|apply kept_refl].
        assert (forall i, graph_get (with_nodes g (arena_remove (g_nodes g) x).1) i = graph_get g i) as Hget.
        { intros i. unfold graph_get. cbn. rewrite (arena_remove_get E) by apply Hst. case_decide; [by subst|done]. }
        destruct Hst as [Hwf Habs HLC Hctx Hdisp Hty]. split.
        * by apply WF_same_nodes.
        * intros i. by rewrite Hget.
        * eapply LC_ext; [exact HLC|]. intros a b l _ _. unfold glink. by rewrite Hget.
        * done.
        * intros i. cbn. rewrite (arena_remove_dispatch E) by apply Hwf. case_decide; [by intros [? ?]|apply Hdisp].
        * intros HT i n d Hi. change (graph_get (with_nodes g (arena_remove (g_nodes g) x).1) i = Some n) in Hi.
          rewrite Hget in Hi. revert Hi. cbn. rewrite (arena_remove_dispatch E) by apply Hwf. case_decide; [done|]. by apply Hty.
  Qed.

  (** What the callers of the transaction API guarantee (see Trans/World): the new
      nodes form a consistent arena of typed nodes at non-empty indices unknown to
      the graph; closures return typed nodes; nothing is redirected from the empty
      index.  [T]: closures also keep the variant. *)
  Record trans_ok (T : Prop) g (t : trans D) : Prop := {
    to_inc : arena_ok E (t_inc t);
    to_disj : arena_disj (g_nodes g) (t_inc t);
    to_nodes : forall x n, arena_get (t_inc t) x = Some n -> node_ok E n /\ x <> 0%N;
    to_typed : T -> atyped (t_inc t);
    to_mut : forall i f, (i, f) ∈ t_mut t -> mut_ok T f;
    to_upd : forall i f, (i, f) ∈ t_upd t -> upd_ok T f;
    to_redir : forall o, o ∈ (t_redir t).*1 -> o <> 0%N;
    to_redir_all : forall o, o ∈ (t_redir_all t).*1 -> o <> 0%N }.

  (** the indices a graph may dispatch after committing [t] without holding a node for
      them: left-over reservations *)
  Definition disp_bound g (t : trans D) (i : idx) : Prop :=
    (is_Some (arena_dispatch (g_nodes g) i) /\ graph_get g i = None) \/
    (is_Some (arena_dispatch (t_inc t) i) /\ arena_get (t_inc t) i = None).

  (** the closure of a mutate or update of [t] fails when [t] is committed to a graph with
      the nodes [m] *)
  Definition commit_fault (t : trans D) (p : panic) m : Prop :=
    exists m1, sp_redirect (t_redir t) m m1 /\
      (mut_fault (t_mut t) p (amap (t_inc t) ∪ m1) \/
       exists m2, sp_mutates (t_mut t) (amap (t_inc t) ∪ m1) = Some m2 /\ upd_fault (t_upd t) p m2).

  Lemma sp_redirect_kept reps m m' : sp_redirect reps m m' -> kept [] [] m m'.
  Proof. intros (res&_&->). apply kept_fmap, node_redirects_same. Qed.
  Lemma sp_mutates_kept fs m m' : sp_mutates fs m = Some m' -> kept fs.*1 [] m m'.
  Proof.
    revert m. induction fs as [|[j f] fs IH]; intros m; cbn; [intros [= ->]; apply kept_refl|].
    destruct (m !! j) as [n|] eqn:Hj; [|done]. destruct (f n) as [n' []|]; [|done]. intros Hm.
    eapply kept_trans; [by apply (kept_insert _ _ m j n n'); [|left]|].
    eapply kept_mono; [|done|by apply IH]. intros k Hk. by right.
  Qed.
  Lemma sp_updates_kept fs m m' : sp_updates fs m = Some m' -> kept fs.*1 [] m m'.
  Proof.
    revert m. induction fs as [|[j f] fs IH]; intros m; cbn; [intros [= ->]; apply kept_refl|].
    destruct (m !! j) as [n|] eqn:Hj; [|done]. destruct (f n) as [n'|]; [|done]. intros Hm.
    eapply kept_trans; [by apply (kept_insert _ _ m j n n'); [|left]|].
    eapply kept_mono; [|done|by apply IH]. intros k Hk. by right.
  Qed.
  (** what is left of the nodes [m] when the commit of [t] stops before its end *)
  Definition commit_kept (t : trans D) m m' : Prop :=
    (forall i, is_Some (m' !! i) -> is_Some ((amap (t_inc t) ∪ m) !! i)) /\
    forall i n, m !! i = Some n -> i ∉ t_dec t -> exists n', m' !! i = Some n' /\
      (i ∉ (t_mut t).*1 -> i ∉ (t_upd t).*1 -> nvar n' = nvar n /\ ndata n' = ndata n).
  Lemma kept_commit t m m' : kept ((t_mut t).*1 ++ (t_upd t).*1) (t_dec t) m m' -> commit_kept t m m'.
  Proof.
    intros [H1 H2]. split; [intros i Hi; rewrite lookup_union_is_Some; right; auto|].
    intros i n Hi Hd. destruct (H2 i n Hi Hd) as (n'&Hi'&He). exists n'. split; [done|]. intros Hm Hu. apply He.
    by rewrite not_elem_of_app.
  Qed.
  Lemma kept_commit_merged t m m1 m' : (forall i, is_Some (m !! i) -> amap (t_inc t) !! i = None) ->
    kept ((t_mut t).*1 ++ (t_upd t).*1) (t_dec t) m m1 ->
    kept ((t_mut t).*1 ++ (t_upd t).*1) (t_dec t) (amap (t_inc t) ∪ m1) m' -> commit_kept t m m'.
  Proof.
    intros Hdj Hk1 [H1 H2]. destruct Hk1 as [Hk1 Hk2]. split.
    - intros i Hi. apply H1 in Hi. rewrite lookup_union_is_Some in *. naive_solver.
    - intros i n Hi Hd. destruct (Hk2 i n Hi Hd) as (n1&Hi1&He1).
      destruct (H2 i n1) as (n'&Hi'&He'); [rewrite lookup_union_r; [done|by eapply Hdj]|done|].
      exists n'. split; [done|]. intros Hm Hu. assert (i ∉ (t_mut t).*1 ++ (t_upd t).*1) as Hn by by rewrite not_elem_of_app.
      destruct (He1 Hn) as [<- <-]. by apply He'.
  Qed.

  Lemma sp_removes_kept xs m m' : sp_removes xs m = Some m' -> kept [] xs m m'.
  Proof.
    revert m. induction xs as [|x xs IH]; intros m; cbn; [intros [= ->]; apply kept_refl|].
    destruct (m !! x) as [n|] eqn:Hx; [|done]. intros Hm.
    eapply kept_trans; [|eapply kept_mono; [done| |by apply IH]; intros k Hk; by right]. unfold sp_remove. split.
    - intros i. rewrite lookup_fmap, fmap_is_Some. intros [? [_ Hi]%lookup_delete_Some]. eauto.
    - intros i ni Hi [Hne _]%not_elem_of_cons. exists (node_redirect x 0%N ni).
      by rewrite lookup_fmap, lookup_delete_ne, Hi.
  Qed.
  Lemma sp_commit_kept t m m' : (forall i, is_Some (m !! i) -> amap (t_inc t) !! i = None) ->
    sp_commit (trans_txn t) m m' -> commit_kept t m m'.
  Proof.
    intros Hdj (m1&m2&m3&m4&H1&H2&H3&H4&H5). cbn in *.
    assert (forall m m', kept [] [] m m' -> kept ((t_mut t).*1 ++ (t_upd t).*1) (t_dec t) m m') as Hk0.
    { intros. eapply kept_mono; [| |done]; intros ? ?%elem_of_nil; done. }
    apply (kept_commit_merged t m m1); [done|by eapply Hk0, sp_redirect_kept|].
    eapply kept_trans; [eapply kept_mono; [| |by eapply sp_mutates_kept]; [by intros k Hk; apply elem_of_app; left|by intros ? ?%elem_of_nil]|].
    eapply kept_trans; [eapply kept_mono; [| |by eapply sp_updates_kept]; [by intros k Hk; apply elem_of_app; right|by intros ? ?%elem_of_nil]|].
    eapply kept_trans; [by eapply Hk0, sp_redirect_kept|].
    eapply kept_mono; [| |by eapply sp_removes_kept]; [by intros ? ?%elem_of_nil|done].
  Qed.
  Lemma trans_ok_new (T : Prop) g t m : gabs g m -> trans_ok T g t -> forall i, is_Some (m !! i) -> amap (t_inc t) !! i = None.
  Proof.
    intros Habs Hok i [n Hi]. rewrite (amap_abs _ (to_inc _ _ _ Hok)). rewrite (Habs i) in Hi.
    apply eq_None_not_Some. intros [n' Hi']. apply arena_get_dispatch in Hi as Hd. apply arena_get_dispatch in Hi'.
    apply (to_disj _ _ _ Hok) in Hi'. rewrite Hi' in Hd. by destruct Hd.
  Qed.

  Lemma commit_body_wp (T : Prop) g t m :
    WF E g -> gabs g m -> (T -> gtyped g) -> trans_ok T g t ->
    wp (commit_body E t) (g, lcr_new)
      (fun _ '(g', r') => exists m', sp_commit (trans_txn t) m m' /\ ST (glink g) (g_ctx g) (disp_bound g t) T m' g' r')
      (fun p '(g', r') => ~ sp_valid (trans_txn t) m /\
         (left_ok (glink g) (g_ctx g) (disp_bound g t) T (commit_kept t m) g' r' \/ commit_fault t p m)).
  Proof.
    intros Hwf Habs Hty Hok.
    assert (forall i, is_Some (m !! i) -> amap (t_inc t) !! i = None) as Hdj by by eapply trans_ok_new.
    set (X := (t_mut t).*1 ++ (t_upd t).*1).
    assert (forall m m', kept [] [] m m' -> kept X (t_dec t) m m') as Hk0.
    { intros. eapply kept_mono; [| |done]; intros ? ?%elem_of_nil; done. }
    assert (ST (glink g) (g_ctx g) (disp_bound g t) T m g lcr_new) as Hst by 
      (split; try done; [apply LC_new|intros i Hi; rewrite (Habs i); destruct (graph_get g i) eqn:Hgi; [eauto|right; by left]]).
    unfold commit_body. apply wp_bind.
    eapply wp_mono; [apply wp_and; [apply redirect_phase; [apply Hok|exact Hst]|apply redirect_links_vec_wp; [apply Hok|done|apply LC_new]]|..]; cbn beta.
    2:{ intros p [g' r'] [(Hn&_&Hlf) _]. split; [intros [Hv _]; by apply Hn|]. left. eapply left_ok_mono; [done|].
        intros m' Hm'. by apply kept_commit, Hk0. }
    intros _ [g1 r1] [(m1&Hm1&Hst1) (res1&_&_&Hrd1)]. apply wp_bind.
    eapply wp_mono; [apply (merge_phase (glink g) (g_ctx g) (disp_bound g t) T m1); [apply Hok| |apply Hok|apply Hok|intros i Hi Hi'; by right|exact Hst1]|..]; cbn beta.
    { intros i Hi. rewrite (rds_disp _ _ _ _ _ _ Hrd1). by apply Hok. }
    2:{ intros ?? HH. exact HH. }
    intros _ [g2 r2] Hst2.
    assert (kept X (t_dec t) m m1) as Hk1 by by eapply Hk0, sp_redirect_kept.
    apply wp_bind.
    eapply wp_mono; [apply mutates_phase; [apply Hok|exact Hst2]|..]; cbn beta.
    2:{ intros p [g' r'] [Hn Hlf]. split.
        - intros [_ Hv]. destruct (Hv m1 Hm1) as (Hk&m2&Hm2&_). apply Hn. cbn in Hm2. rewrite Hm2. by eauto.
        - destruct Hlf as [Hlf|Hft]; [left|right; exists m1; split; [done|by left]].
          eapply left_ok_mono; [done|]. intros m' Hm'. apply (kept_commit_merged t m m1); [done|done|].
          eapply kept_mono; [| |done]; [by intros k Hk; apply elem_of_app; left|by intros ? ?%elem_of_nil]. }
    intros _ [g3 r3] (m2&Hm2&Hst3).
    assert (kept X (t_dec t) (amap (t_inc t) ∪ m1) m2) as Hk2.
    { eapply kept_mono; [| |by eapply sp_mutates_kept]; [by intros k Hk; apply elem_of_app; left|by intros ? ?%elem_of_nil]. }
    apply wp_bind.
    eapply wp_mono; [apply updates_phase; [apply Hok|exact Hst3]|..]; cbn beta.
    2:{ intros p [g' r'] [Hn Hlf]. split.
        - intros [_ Hv]. destruct (Hv m1 Hm1) as (_&m2'&Hm2'&Hk&m3&Hm3&_).
          cbn in Hm2', Hk, Hm3. assert (m2' = m2) as -> by congruence. apply Hn. rewrite Hm3. eauto.
        - destruct Hlf as [Hlf|Hft]; [left|right; exists m1; split; [done|]; right; by exists m2].
          eapply left_ok_mono; [done|]. intros m' Hm'. apply (kept_commit_merged t m m1); [done|done|].
          eapply kept_trans; [done|].
          eapply kept_mono; [| |done]; [by intros k Hk; apply elem_of_app; right|by intros ? ?%elem_of_nil]. }
    intros _ [g4 r4] (m3&Hm3&Hst4).
    assert (kept X (t_dec t) (amap (t_inc t) ∪ m1) m3) as Hk3.
    { eapply kept_trans; [done|].
      eapply kept_mono; [| |by eapply sp_updates_kept]; [by intros k Hk; apply elem_of_app; right|by intros ? ?%elem_of_nil]. }
    apply wp_bind.
    eapply wp_mono; [apply redirect_phase; [apply Hok|exact Hst4]|..]; cbn beta.
    2:{ intros p [g' r'] (Hn&_&Hlf). split.
        2:{ left. eapply left_ok_mono; [done|]. intros m' Hm'. apply (kept_commit_merged t m m1); [done|done|].
            eapply kept_trans; [done|by apply Hk0]. }
        intros [_ Hv].
        destruct (Hv m1 Hm1) as (_&m2'&Hm2'&_&m3'&Hm3'&HH&_).
        cbn in Hm2', Hm3'. assert (m2' = m2) as -> by congruence. assert (m3' = m3) as -> by congruence.
        by apply Hn. }
    intros _ [g5 r5] (m4&Hm4&Hst5).
    eapply wp_mono; [apply removes_phase; exact Hst5|..]; cbn beta.
    2:{ intros p [g' r'] [Hn Hlf]. split.
        2:{ left. eapply left_ok_mono; [done|]. intros m' Hm'. apply (kept_commit_merged t m m1); [done|done|].
            eapply kept_trans; [done|]. eapply kept_trans; [by eapply Hk0, sp_redirect_kept|].
            eapply kept_mono; [| |done]; [by intros ? ?%elem_of_nil|done]. }
        intros [_ Hv]. destruct (Hv m1 Hm1) as (_&m2'&Hm2'&_&m3'&Hm3'&_&HH).
        cbn in Hm2', Hm3'. assert (m2' = m2) as -> by congruence. assert (m3' = m3) as -> by congruence.
        apply HH in Hm4 as [? Hm4]. cbn in Hm4. congruence. }
    intros _ [g6 r6] (m5&Hm5&Hst6). exists m5. split; [|done].
    exists m1, m2, m3, m4. done.
  Qed.
End commit.
