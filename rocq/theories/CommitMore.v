(** * Further facts about commits *)
From Verif Require Export Panics.

Section more.
  Context {D : Type} (E : env).
  Implicit Types (g : graph D) (t : trans D) (n : node D) (m : gmap N (node D)).

  (** ** Splitting a commit at the maintenance *)
  Lemma do_commit_split (T : Prop) g t g' r :
    WF E g -> (T -> gtyped g) -> trans_ok E T g t -> do_commit E t g = Done g' r ->
    exists g1 m1, committed E T g t g1 r m1 g' /\ exists r', apply_bidirectional_links E r (g1, r) = Done (g', r') tt.
  Proof.
    intros Hwf Hty Hok Hd. apply (guard_cases E g t); intros Hg.
    { destruct (do_commit_guard E g t Hg) as (p&Hp&_). congruence. }
    rewrite (do_commit_unfold E g t Hg) in Hd. unfold bindM at 1 in Hd.
    pose proof (commit_body_wp E T g t (gmap_of g) Hwf (gmap_of_abs E g Hwf) Hty Hok) as Hb.
    unfold wp in Hb. destruct (commit_body E t (g, lcr_new)) as [[g1 r1] []|p [g1 r1]]; [|done].
    destruct Hb as (m1&Hsp&Hst). unfold bindM, getM in Hd.
    pose proof (apply_bidirectional_links_wp E r1 g1 r1 (st_wf _ _ _ _ _ _ _ _ Hst)) as Hw.
    unfold wp in Hw. destruct (apply_bidirectional_links E r1 (g1, r1)) as [[g2 r2] []|p [g2 r2]] eqn:He; [|done].
    injection Hd as -> <-. destruct Hw as (->&Hwf2&Hfr&HK&Hdone). exists g1, m1. split; [by split|]. eauto.
  Qed.

  (** ** Sets without the empty index *)
  Definition all_nodes (P : idx -> node D -> Prop) g : Prop := forall i n, graph_get g i = Some n -> P i n.
  Lemma all_nodes_set (P : idx -> node D -> Prop) g i n0 n :
    graph_get g i = Some n0 -> all_nodes P g -> P i n -> all_nodes P (with_nodes g (arena_set (g_nodes g) i n)).
  Proof.
    intros Hi Hall Hn j n'. unfold graph_get. cbn [with_nodes g_nodes]. rewrite (arena_set_get _ _ n0) by done.
    case_decide; [|apply Hall]. intros [= <-]. by subst.
  Qed.
  Lemma all_nodes_back (P : idx -> node D -> Prop) g b : all_nodes P (with_back g b) <-> all_nodes P g.
  Proof. done. Qed.

  Definition no0 (i : idx) n : Prop :=
    i <> 0%N /\ forall f k l, nlinks n !! f = Some (LSet k l) -> NoDup l /\ 0%N ∉ l.
  Lemma no0_set_field i n f lv :
    no0 i n -> (forall k l, lv = LSet k l -> NoDup l /\ 0%N ∉ l) -> no0 i (set_field n f lv).
  Proof.
    intros [Hi Hn] Hlv. split; [done|]. intros f' k l. cbn. intros Hl.
    apply list_lookup_insert_Some in Hl as [(<-&Heq&_)|[_ Hl]]; [by eapply Hlv|by eapply Hn].
  Qed.
  Lemma no0_remove_link i n l x n' b : no0 i n -> remove_link n l x = Ok (n', b) -> no0 i n'.
  Proof.
    intros Hn. unfold remove_link. destruct (decide (nvar n = l_var l)); [|by intros [= <- <-]].
    destruct (nlinks n !! l_fld l) as [[j|k ls|ls]|] eqn:Hf; try done.
    - destruct (j =? 0)%N; [by intros [= <- <-]|]. destruct (j =? x)%N; intros [= <- <-]; [|done].
      by apply no0_set_field.
    - intros [= <- <-]. apply no0_set_field; [done|]. intros k' l' [= <- <-].
      destruct Hn as [_ Hn]. destruct (Hn _ _ _ Hf) as [Hnd H0]. split; [by apply set_remove_NoDup|].
      rewrite set_remove_elem by done. naive_solver.
  Qed.
  Lemma no0_add_link i n l x n' b : x <> 0%N -> no0 i n -> add_link n l x = Ok (n', b) -> no0 i n'.
  Proof.
    intros Hx Hn. unfold add_link. destruct (decide (nvar n = l_var l)); [|by intros [= <- <-]].
    destruct (nlinks n !! l_fld l) as [[j|k ls|ls]|] eqn:Hf; try done.
    - destruct (j =? 0)%N.
      + destruct (negb (j =? x)%N); intros [= <- <-]; [|done]. by apply no0_set_field.
      + destruct (j =? x)%N; [|done]. by intros [= <- <-].
    - intros [= <- <-]. apply no0_set_field; [done|]. intros k' l' [= <- <-].
      destruct Hn as [_ Hn]. destruct (Hn _ _ _ Hf) as [Hnd H0]. split; [by apply set_insert_NoDup|].
      rewrite set_insert_elem. intros [?|?]; by congruence.
  Qed.

  Definition gno0 (s : graph D * lcr) : Prop := all_nodes no0 s.1.
  Lemma back_remove_no0 y e s : gno0 s -> wp (back_remove (D:=D) y e) s (fun _ s => gno0 s) (fun _ _ => True).
  Proof. destruct s as [g r]. intros Hg. unfold back_remove, wp. by destruct (omap_get y (g_back g)). Qed.
  Lemma back_insert_no0 y e s : gno0 s -> wp (back_insert (D:=D) y e) s (fun _ s => gno0 s) (fun _ _ => True).
  Proof. destruct s as [g r]. intros Hg. unfold back_insert, wp. by destruct (omap_get y (g_back g)). Qed.
  Lemma bidi_remove1_no0 xyl g r :
    gno0 (g, r) -> wp (bidi_remove1 (D:=D) E xyl) (g, r) (fun _ s => gno0 s) (fun _ _ => True).
  Proof.
    intros Hg. destruct xyl as [[x y] l]. unfold bidi_remove1, wp at 1. destruct (_ || _); [done|].
    lazymatch goal with |- match ?p (g, r) with _ => _ end => change (wp p (g, r) (fun _ s => gno0 s) (fun _ _ => True)) end.
    apply wp_bind. unfold node_unwrap at 1, wp at 1. destruct (graph_get g x) as [nx|]; [|done].
    apply wp_bind. unfold node_unwrap at 1, wp at 1. destruct (graph_get g y) as [ny|]; [|done].
    apply (wp_mfor_simple _ _ gno0); [done|].
    intros lk [g' r'] _ Hg'. apply wp_bind. unfold node_unwrap at 1, wp at 1.
    destruct (graph_get g' y) as [ny'|] eqn:Hy; [|done]. apply wp_bind. unfold liftM at 1, wp at 1.
    destruct (remove_link ny' lk x) as [[n'' b]|] eqn:Hr; [|done]. apply wp_bind. unfold wp at 1.
    assert (all_nodes no0 (with_nodes g' (arena_set (g_nodes g') y n''))) as Hg2.
    { eapply all_nodes_set; [done..|]. eapply no0_remove_link; [|done]. by apply Hg'. }
    destruct b; [|done]. apply wp_bind. unfold liftM, wp at 1. destruct (to_source E lk); [|done].
    by apply back_remove_no0.
  Qed.
  Lemma bidi_add1_no0 xyl g r :
    gno0 (g, r) -> wp (bidi_add1 (D:=D) E xyl) (g, r) (fun _ s => gno0 s) (fun _ _ => True).
  Proof.
    intros Hg. destruct xyl as [[x y] l]. unfold bidi_add1, wp at 1. destruct (_ || _); [done|].
    lazymatch goal with |- match ?p (g, r) with _ => _ end => change (wp p (g, r) (fun _ s => gno0 s) (fun _ _ => True)) end.
    apply wp_bind. unfold node_unwrap at 1, wp at 1. destruct (graph_get g x) as [nx|] eqn:Hx; [|done].
    apply wp_bind. unfold node_unwrap at 1, wp at 1. destruct (graph_get g y) as [ny|] eqn:Hy; [|done].
    destruct (match_bd ny (e_opp E l)) as [|lk ls]; [done|]. destruct (existsb _ _); [done|].
    destruct (_ =? 1); [|done]. apply wp_bind. unfold liftM at 1, wp at 1.
    destruct (add_link ny lk x) as [[n'' b]|] eqn:Hr; [|done]. apply wp_bind. unfold wp at 1.
    assert (all_nodes no0 (with_nodes g (arena_set (g_nodes g) y n''))) as Hg2.
    { eapply all_nodes_set; [done..|]. eapply no0_add_link; [|by apply Hg|done]. by apply (Hg x nx). }
    destruct b; [|done]. apply wp_bind. unfold liftM, wp at 1. destruct (to_source E lk); [|done].
    unfold add_back_link, back_entry_insert. apply wp_bind. unfold back_entry, wp at 1.
    by apply back_insert_no0.
  Qed.
  Lemma apply_bidi_no0 rr g r g' r' :
    gno0 (g, r) -> apply_bidirectional_links E rr (g, r) = Done (g', r') tt -> gno0 (g', r').
  Proof.
    intros Hg Hd.
    assert (wp (apply_bidirectional_links (D:=D) E rr) (g, r) (fun _ s => gno0 s) (fun _ _ => True)) as Hw.
    { unfold apply_bidirectional_links. apply wp_bind. eapply wp_mono; [apply (wp_mfor_simple _ _ gno0); [exact Hg|]|..].
      - intros a [g0 r0] _ H. by apply bidi_remove1_no0.
      - cbn beta. intros _ [g0 r0] H. apply (wp_mfor_simple _ _ gno0); [done|]. intros a [g2 r2] _ H'. by apply bidi_add1_no0.
      - done. }
    unfold wp in Hw. by rewrite Hd in Hw.
  Qed.

  (** ** check_integrity *)
  Lemma check_integrity_spec g :
    WF E g -> check_integrity E g = true <-> (e_dbg E = false \/ closed g /\ no_empty_in_sets g).
  Proof.
    intros Hwf. unfold check_integrity. rewrite orb_true_iff, negb_true_iff.
    assert (forall P Q R : Prop, (Q <-> R) -> (P \/ Q <-> P \/ R)) as Hor by tauto. apply Hor. clear Hor.
    rewrite forallb_forall. unfold graph_iter.
    assert (forall x n, In (x, n) (arena_items (g_nodes g)) <-> graph_get g x = Some n) as Hit.
    { intros x n. rewrite <- elem_of_list_In. unfold graph_get. symmetry. apply (arena_get_items E), Hwf. }
    split.
    - intros Hall. assert (forall x n y s, graph_get g x = Some n -> src_val n s y -> is_Some (graph_get g y)) as Hs.
      { intros x n y s Hx Hsv. specialize (Hall (x, n) (proj2 (Hit _ _) Hx)). cbn in Hall.
        rewrite forallb_forall in Hall. specialize (Hall (y, s)). rewrite <- elem_of_list_In, elem_iter_sources in Hall.
        specialize (Hall Hsv). cbn in Hall. destruct (graph_get g y); [eauto|done]. }
      split.
      + intros x n y Hx [l Hl]. apply has_link_src_val in Hl as (s&_&Hsv). by eapply Hs.
      + intros x n f sk xs Hx Hf H0. destruct (Hs x n 0%N (Src (nvar n) f None) Hx) as [n0 Hn0].
        { split; [done|]. cbn. by rewrite Hf. }
        rewrite (wf_zero _ _ Hwf) in Hn0. done.
    - intros [Hc H0] [x n] Hin. apply Hit in Hin. cbn. rewrite forallb_forall. intros [y s].
      rewrite <- elem_of_list_In, elem_iter_sources. intros Hsv. destruct (decide (y = 0%N)) as [->|Hy].
      + exfalso. destruct Hsv as [Hv Hsv]. destruct (nlinks n !! s_fld s) as [[i|k l|l]|] eqn:Hf; [|..|done];
          destruct (s_pos s); try done; try naive_solver. by apply (H0 _ _ _ _ _ Hin Hf).
      + destruct (Hc x n y Hin) as [ny ->]; [|done]. exists (src_link s). by apply src_val_has_link.
  Qed.

  (** C42 *)
  Definition good_closures (U : idx -> Prop) t : Prop :=
    (forall i f n n', (i, f) ∈ t_mut t -> f n = Done n' tt -> node_tk U n -> node_tk U n') /\
    (forall i f n n', (i, f) ∈ t_upd t -> f n = Ok n' -> node_tk U n -> node_tk U n').

  Lemma commit_closed (T : Prop) g t g' :
    WF E g -> (T -> gtyped g) -> trans_ok E T g t ->
    let U := fun y => is_Some (arena_get (t_inc t) y) \/ is_Some (graph_get g y) in
    (forall z, z ∈ (t_redir t).*2 ++ (t_redir_all t).*2 -> z = 0%N \/ U z) ->
    (forall x n, graph_get g x = Some n -> node_tk U n) ->
    (forall x n, own_node t x n -> node_tk U n) ->
    good_closures U t ->
    commit E t g = Done g' tt -> closed g' /\ no_empty_in_sets g'.
  Proof.
    intros Hwf Hty Ht U Hz Hg Hn [Hm Hu] Hc.
    destruct (commit_done E T g t Hwf Hty Ht g' Hc) as (_&g1&r&m1&Hcm&Hd&_). clear Hcm g1 m1.
    destruct (do_commit_split T g t g' r Hwf Hty Ht Hd) as (g1&m1&Hcm&r'&Hb).
    pose proof (cm_st _ _ _ _ _ _ _ _ Hcm) as Hst.
    assert (forall y, U y <-> is_Some (x_new (trans_txn t) !! y) \/ is_Some (gmap_of g !! y)) as HU.
    { intros y. cbn. rewrite (amap_get E) by apply Ht. by rewrite (gmap_of_get E). }
    assert (forall n, node_tk U n <-> node_tk (fun y => is_Some (x_new (trans_txn t) !! y) \/ is_Some (gmap_of g !! y)) n) as HUn.
    { intros n. unfold node_tk. by setoid_rewrite HU. }
    assert (map_tk (fun y => is_Some (m1 !! y)) m1) as Htk.
    { pose proof (cm_spec _ _ _ _ _ _ _ _ Hcm) as Hsp.
      eapply (sp_commit_closed E (trans_txn t) (gmap_of g)); cbn [x_redir x_redir_all x_del x_mut x_upd x_new trans_txn];
        [apply Ht|apply Ht|..|exact Hsp].
      - intros x Hx. by eapply (sp_del_nz E T g t).
      - intros z Hin. rewrite <- HU. apply Hz, elem_of_app. by left.
      - intros z Hin. rewrite <- HU. apply Hz, elem_of_app. by right.
      - intros i f Hin n n' Hok Hf. destruct (to_mut _ _ _ _ Ht i f Hin n n' Hok Hf). done.
      - intros i f Hin n n' Hok Hf. destruct (to_upd _ _ _ _ Ht i f Hin n n' Hok Hf). done.
      - intros i f n n' Hin Hf Hk. apply HUn in Hk. apply HUn. by eapply Hm.
      - intros i f n n' Hin Hf Hk. apply HUn in Hk. apply HUn. by eapply Hu.
      - by apply ok_map_gmap.
      - by eapply ok_map_inc.
      - intros i n Hi. apply HUn. apply (Hg i). by rewrite (gmap_of_get E) in Hi.
      - intros i n Hi. apply HUn. apply (Hn i). by rewrite (amap_get E) in Hi by apply Ht. }
    assert (gno0 (g1, r)) as H0.
    { intros i n Hi. cbn in Hi. split.
      - intros ->. rewrite (wf_zero _ _ (st_wf _ _ _ _ _ _ _ _ Hst)) in Hi. done.
      - intros f k l Hf. split.
        + destruct (node_ok_lookup E n f _ (wf_nodes _ _ (st_wf _ _ _ _ _ _ _ _ Hst) _ _ Hi) Hf) as (ks&_&_&_&[Hnd _]). done.
        + rewrite <- (st_abs _ _ _ _ _ _ _ _ Hst) in Hi. by apply (Htk i n Hi) in Hf. }
    pose proof (apply_bidi_no0 _ _ _ _ _ H0 Hb) as H0'. split.
    - intros x n y Hx [l Hl]. assert (glink g' x y l) as HK by by exists n.
      apply (cm_links _ _ _ _ _ _ _ _ Hcm) in HK.
      assert (is_Some (graph_get g1 y)) as Hy.
      { destruct HK as [[(n1&Hx1&Hl1) _]|(l'&_&Hy&_)]; [|done].
        rewrite <- (st_abs _ _ _ _ _ _ _ _ Hst) in Hx1. rewrite <- (st_abs _ _ _ _ _ _ _ _ Hst).
        apply (Htk x n1 Hx1). by exists l. }
      by eapply bframe_present; [apply (cm_frame _ _ _ _ _ _ _ _ Hcm)|].
    - intros x n f sk xs Hx Hf. by apply (H0' x n Hx) in Hf as [_ ?].
  Qed.

  (** C20: the panic *)
  Lemma commit_conflict (T : Prop) g t m' a b z l nb k :
    WF E g -> (T -> gtyped g) -> trans_ok E T g t ->
    sp_commit (trans_txn t) (gmap_of g) m' ->
    mlink m' a b l -> ~ glink g a b l -> nonvec E l ->
    m' !! b = Some nb -> match_bd nb (e_opp E l) = [k] -> linkkind E k = Some KDirect ->
    mlink m' b z k -> z <> a ->
    (forall l', k ∈ e_opp E l' -> nonvec E l') ->
    (forall l', k ∈ e_opp E l' -> ~ (glink g z b l' /\ ~ mlink m' z b l')) ->
    exists p g', commit E t g = Panicked p g'.
  Proof.
    intros Hwf Hty Ht Hsp Hab Hnab Hv Hb Hm Hk Hz Hza Hnv Hnr.
    destruct (commit E t g) as [g' []|p g'] eqn:Hc; [|eauto]. exfalso.
    destruct (commit_occupied E T g t Hwf Hty Ht g' Hc) as (m''&Hsp'&Hh&Hsurv&Hmir).
    assert (m'' = m') as -> by by eapply (sp_commit_det (trans_txn t)).
    assert (glink g' b z k) as (n1&Hb1&Hl1) by (apply Hsurv; naive_solver).
    assert (glink g' b a k) as (n2&Hb2&Hl2) by by eapply Hmir.
    rewrite Hb1 in Hb2. injection Hb2 as <-.
    destruct Hl1 as (_&Hv1&lv&Hlv&Hin1). destruct Hl2 as (_&_&lv'&Hlv'&Hin2). rewrite Hlv in Hlv'. injection Hlv' as <-.
    assert (WF E g') as Hwf'. { destruct (commit_done E T g t Hwf Hty Ht g' Hc) as (_&g1&r&m1&Hcm&_). apply Hcm. }
    pose proof (node_ok_linkkind E n1 _ _ (wf_nodes _ _ Hwf' _ _ Hb1) Hlv) as Hlk.
    rewrite Hv1 in Hlk. destruct k as [v f]; cbn in *. rewrite Hk in Hlk. injection Hlk as Hkd.
    destruct lv; try done. cbn in *. apply elem_of_list_singleton in Hin1, Hin2. congruence.
  Qed.

  (** C26 *)
  Lemma commit_linktype_real (T : Prop) g t g' :
    WF E g -> (T -> gtyped g) -> trans_ok E T g t -> closures_plain t -> (forall v l, e_chk E v l = false -> nonvec E l) ->
    commit E t g = Panicked PLinkType g' ->
    exists m', sp_commit (trans_txn t) (gmap_of g) m' /\ ~ map_typed E m'.
  Proof.
    intros Hwf Hty Ht Hpl Hnv Hc. unfold commit, bindM in Hc.
    destruct (do_commit E t g) as [g1 r|p g1] eqn:Hd.
    2:{ injection Hc as -> ->. by apply do_commit_no_linktype in Hd. }
    pose proof (check_link_type_spec E r g1) as Hs. rewrite Hc in Hs.
    destruct Hs as (->&_&x&y&l&ny&Hin&Hy&Hck).
    destruct (do_commit_split T g t g1 r Hwf Hty Ht Hd) as (g2&m1&Hcm&_).
    pose proof (cm_st _ _ _ _ _ _ _ _ Hcm) as Hst. exists m1. split; [apply Hcm|]. intros Hmt.
    apply (lc_a _ _ _ _ (st_lc _ _ _ _ _ _ _ _ Hst)) in Hin as [HK _]; [|by eapply (lc_nz_a _ _ _ _ (st_lc _ _ _ _ _ _ _ _ Hst))|by eapply Hnv].
    destruct HK as (nx&Hx&Hl).
    destruct (graph_get g2 y) as [ny2|] eqn:Hy2.
    2:{ apply (bfr_none _ _ _ (cm_frame _ _ _ _ _ _ _ _ Hcm)) in Hy2. congruence. }
    assert (nvar ny = nvar ny2) as Hv by (eapply bframe_nvar; [apply Hcm|done..]).
    rewrite Hv in Hck. rewrite (Hmt x y nx ny2 l) in Hck; try done.
    - by rewrite (st_abs _ _ _ _ _ _ _ _ Hst).
    - by rewrite (st_abs _ _ _ _ _ _ _ _ Hst).
  Qed.

  (** C29 *)
  Lemma any_fails_all {A} (f : A -> option bool) l : any_fails f l = Some false -> forall a, a ∈ l -> f a = Some true.
  Proof.
    induction l as [|a l IH]; cbn; [intros _ a Ha; by apply elem_of_nil in Ha|].
    destruct (f a) as [[]|] eqn:Hf; try done. intros Hl b [->|Hb]%elem_of_cons; [done|by apply IH].
  Qed.
  Lemma failed_names_nil {A} (f : A -> option bool) (l : list (string * A)) :
    failed_names f l = Some [] -> forall nm a, (nm, a) ∈ l -> f a = Some false.
  Proof.
    induction l as [|[nm a] l IH]; cbn; [intros _ nm a Ha; by apply elem_of_nil in Ha|].
    destruct (f a) as [b|] eqn:Hf; [|done]. destruct (failed_names f l) as [r|]; [|done].
    destruct b; [done|]. intros [= ->] nm' a' [[= -> ->]|Hin]%elem_of_cons; [done|]. by eapply IH.
  Qed.
  Lemma commit_checked_adds (T : Prop) g t c g' :
    WF E g -> (T -> gtyped g) -> trans_ok E T g t ->
    commit_checked E t c g = Done g' tt ->
    commit E t g = Done g' tt /\
    exists m', sp_commit (trans_txn t) (gmap_of g) m' /\ holds_nonbidi E g' m' /\
      forall nm chk x y l, (nm, chk) ∈ gc_add c -> nonvec E l -> mlink m' x y l -> ~ glink g x y l ->
        exists nx, graph_get g' x = Some nx /\ chk x y nx (graph_get g' y) = true.
  Proof.
    intros Hwf Hty Ht Hc. unfold commit_checked, bindM, getM, retM, panicM in Hc. unfold commit, bindM.
    destruct (do_commit E t g) as [g1 r|p g1] eqn:Hd; [|done].
    destruct (check_link_type E r g1) as [g2 []|p g2] eqn:Hk; [|done].
    pose proof (check_link_type_spec E r g1) as Hs. rewrite Hk in Hs. destruct Hs as [-> _].
    destruct (check_change g1 r c) as [ls|] eqn:Hch; [|done]. destruct ls; [|done]. injection Hc as ->.
    split; [done|]. destruct (change_record E T g t Hwf Hty Ht g' r Hd) as (m'&Hsp&Hh&Hrec).
    exists m'. split; [done|]. split; [done|]. intros nm chk x y l Hin Hv Hl Hnl.
    unfold check_change in Hch.
    set (nf := failed_names _ (gc_node c)) in Hch. destruct nf as [f1|]; [|done].
    destruct (failed_names _ (gc_add c)) as [f2|] eqn:Hf2; [|done].
    set (rf := failed_names _ (gc_rem c)) in Hch. destruct rf as [f3|]; [|done].
    injection Hch as Hch. apply app_eq_nil in Hch as [_ Hch]. apply app_eq_nil in Hch as [-> _].
    pose proof (failed_names_nil _ _ Hf2 _ _ Hin) as Haf. cbn beta in Haf.
    assert (y <> 0%N) as Hy by (by destruct Hl as (n&_&?&_)).
    apply (any_fails_all _ _) with (a := (x, y, l)) in Haf.
    2:{ by apply (Hrec x y l Hy Hv). }
    cbn in Haf. destruct (graph_get g' x) as [nx|]; [|done]. exists nx. split; [done|]. by injection Haf.
  Qed.

  (** C41 *)
  Lemma commit_succeeds (T : Prop) g t :
    WF E g -> (T -> gtyped g) -> trans_ok E T g t ->
    (forall l, e_opp E l = []) -> (forall v l, e_chk E v l = true) ->
    ~ guard_fails E g t -> sp_valid (trans_txn t) (gmap_of g) ->
    exists g', commit E t g = Done g' tt /\
      exists m', sp_commit (trans_txn t) (gmap_of g) m' /\ forall i, graph_get g' i = m' !! i.
  Proof.
    intros Hwf Hty Ht Ho Hck Hg Hv. pose proof (commit_spec E T g t Hwf Hty Ht) as Hs.
    destruct (commit E t g) as [g' []|p g'] eqn:Hc.
    - exists g'. split; [done|]. destruct (commit_refines E T g t Hwf Hty Ht g' Hc) as (m'&Hsp&Hh).
      exists m'. split; [done|]. by apply (holds_exact E).
    - exfalso. destruct Hs as [[Hg'|_ Hnv|g1 r m1 _ Hsp Hst Hb]|(_&g1&r&m1&Hcm&x&y&l&ny&_&_&Hf)]; try done.
      + destruct Hb as [(x&y&l&k&_&Hk&_)|(x&y&l&ny&_&_&_&[(_&Hlen&_)|(k&Hm&_)])].
        * rewrite Ho in Hk. by apply elem_of_nil in Hk.
        * rewrite Ho in Hlen. cbn in Hlen. lia.
        * rewrite Ho in Hm. done.
      + by rewrite Hck in Hf.
  Qed.

  (** C37 *)
  Lemma commit_guard g t :
    e_dbg E = true -> t_ctx t <> g_ctx g \/ t_alloc t <> [] ->
    exists p, commit E t g = Panicked p g /\ (p = PCtxMismatch \/ p = PUnfilled).
  Proof.
    intros Hd Hg. destruct (do_commit_guard E g t (conj Hd Hg)) as (p&Hp&?). exists p.
    unfold commit, bindM. by rewrite Hp.
  Qed.
  Lemma commit_ctx_mismatch g t :
    e_dbg E = true -> t_ctx t <> g_ctx g -> commit E t g = Panicked PCtxMismatch g.
  Proof.
    intros Hd Hg. unfold commit, bindM, do_commit. rewrite Hd. cbn.
    destruct (N.eqb_spec (t_ctx t) (g_ctx g)); done.
  Qed.
  Lemma commit_release g t u xs :
    e_dbg E = false -> commit E (Trans u xs (t_inc t) (t_dec t) (t_mut t) (t_upd t) (t_redir_all t) (t_redir t)) g = commit E t g.
  Proof. intros Hd. unfold commit, bindM, do_commit. rewrite Hd. done. Qed.
  Lemma merge_mismatch g t : t_ctx t <> g_ctx g -> trans_merge g t = Panicked PCtxMismatch t.
  Proof. intros H. unfold trans_merge. destruct (N.eqb_spec (t_ctx t) (g_ctx g)); done. Qed.
End more.
