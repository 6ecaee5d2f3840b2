(** * switch_context, exactly: also when old and new indices meet in a set *)
From stdpp Require Export gmap.
From Verif Require Export SwitchFinal.

(** [z] comes after [x] in the iteration order of the graph *)
Definition comes_after {D} (g : graph D) (x z : idx) : Prop :=
  exists i j, i < j /\ (graph_iter g).*1 !! i = Some x /\ (graph_iter g).*1 !! j = Some z.
(** a link value after [switch_context]: direct and Vec links are renamed; the link of a set
    to [x] is renamed, and lost when its new index was a member of the same set and belonged
    to a node that comes later *)
Definition lv_switched {D} (g : graph D) (f : idx -> idx) (lv lv' : linkval) : Prop :=
  match lv, lv' with
  | LDirect x, LDirect x' => x' = f x
  | LSet k l, LSet k' l' => k' = k /\ NoDup l' /\
      forall z, z ∈ l' <-> exists x, x ∈ l /\ z = f x /\ ~ (f x ∈ l /\ comes_after g x (f x))
  | LVec l, LVec l' => l' = f <$> l
  | _, _ => False
  end.
Definition node_switched {D} (g : graph D) (f : idx -> idx) (n n' : node D) : Prop :=
  nvar n' = nvar n /\ ndata n' = ndata n /\ length (nlinks n') = length (nlinks n) /\
  forall fld lv, nlinks n !! fld = Some lv -> exists lv', nlinks n' !! fld = Some lv' /\ lv_switched g f lv lv'.

Section last.
  Context (f : idx -> idx).
  (** [z] is the new index of a key that is not removed afterwards *)
  Definition stays (z : idx) (Q : idx -> Prop) (L : list idx) : Prop :=
    exists i x, L !! i = Some x /\ Q x /\ z = f x /\ forall j, i < j -> L !! j = Some (f x) -> ~ Q (f x).
  Lemma stays_nil (z : idx) (Q : idx -> Prop) : ~ stays z Q [].
  Proof. intros (i&x&Hx&_). by rewrite lookup_nil in Hx. Qed.
  Lemma stays_snoc (z : idx) (Q : idx -> Prop) L k : Q k -> stays z Q (L ++ [k]) <-> z = f k \/ (stays z Q L /\ z <> k).
  Proof.
    intros Hk. split.
    - intros (i&x&Hx&HQ&->&Hl). destruct (decide (i < length L)) as [Hi|Hi].
      + right. rewrite lookup_app_l in Hx by done. split.
        * exists i, x. split; [done|]. split; [done|]. split; [done|]. intros j Hj Hjx. apply (Hl j Hj).
          rewrite lookup_app_l; [done|by eapply lookup_lt_Some].
        * intros <-. apply (Hl (length L) Hi); [|done]. by rewrite lookup_app_r, Nat.sub_diag by done.
      + left. rewrite lookup_app_r in Hx by lia. destruct (i - length L) as [|m] eqn:He; cbn in Hx; [congruence|done].
    - intros [->|((i&x&Hx&HQ&->&Hl)&Hne)].
      + exists (length L), k. split; [by rewrite lookup_app_r, Nat.sub_diag by done|]. split; [done|]. split; [done|].
        intros j Hj Hx. apply lookup_lt_Some in Hx. rewrite app_length in Hx. cbn in Hx. lia.
      + exists i, x. pose proof (lookup_lt_Some _ _ _ Hx). split; [by rewrite lookup_app_l by done|]. split; [done|]. split; [done|].
        intros j Hj Hjx. destruct (decide (j < length L)) as [Hlt|Hge].
        * rewrite lookup_app_l in Hjx by done. by apply (Hl j).
        * rewrite lookup_app_r in Hjx by lia. destruct (j - length L) as [|m]; cbn in Hjx; [congruence|done].
  Qed.
  Lemma stays_skip (z : idx) (Q : idx -> Prop) L k : ~ Q k -> stays z Q (L ++ [k]) <-> stays z Q L.
  Proof.
    intros Hk. split.
    - intros (i&x&Hx&HQ&->&Hl). destruct (decide (i < length L)) as [Hi|Hi].
      + rewrite lookup_app_l in Hx by done.
        exists i, x. split; [done|]. split; [done|]. split; [done|]. intros j Hj Hjx. apply (Hl j Hj).
        rewrite lookup_app_l; [done|by eapply lookup_lt_Some].
      + rewrite lookup_app_r in Hx by lia. destruct (i - length L) as [|m] eqn:He; cbn in Hx; [congruence|done].
    - intros (i&x&Hx&HQ&->&Hl). exists i, x. pose proof (lookup_lt_Some _ _ _ Hx). split; [by rewrite lookup_app_l by done|]. split; [done|]. split; [done|].
      intros j Hj Hjx. destruct (decide (j < length L)) as [Hlt|Hge].
      + rewrite lookup_app_l in Hjx by done. by apply (Hl j).
      + rewrite lookup_app_r in Hjx by lia. destruct (j - length L) as [|m]; cbn in Hjx; [congruence|done].
  Qed.
  Lemma stays_filter (z : idx) (Q : idx -> Prop) `{!forall x, Decision (Q x)} L : stays z (fun _ => True) (filter Q L) <-> stays z Q L.
  Proof.
    induction L as [|k L IH] using rev_ind; [by split; intros ?%stays_nil|]. rewrite filter_app.
    destruct (decide (Q k)) as [Hk|Hk].
    - rewrite filter_cons_True, filter_nil by done. rewrite stays_snoc, IH by done. by rewrite stays_snoc.
    - rewrite filter_cons_False, filter_nil, app_nil_r by done. by rewrite stays_skip.
  Qed.
End last.

Section exact.
  Context {D : Type} (E : env).
  Implicit Types (g : graph D) (n : node D) (x y i : idx) (s : source) (a : arena D).

  (** the keys whose links were replaced at source [s] of node [y], in order *)
  Definition keys (P : list (idx * (idx * source))) y s : list idx :=
    omap (fun xe : idx * (idx * source) => if decide (xe.2 = (y, s)) then Some xe.1 else None) P.
  Lemma keys_snoc_eq P y s i : keys (P ++ [(i, (y, s))]) y s = keys P y s ++ [i].
  Proof. unfold keys. rewrite omap_app. cbn. by rewrite decide_True. Qed.
  Lemma keys_snoc_ne P y s i e : e <> (y, s) -> keys (P ++ [(i, e)]) y s = keys P y s.
  Proof. intros He. unfold keys. rewrite omap_app. cbn. by rewrite decide_False, app_nil_r. Qed.

  Definition set_prog (f : idx -> idx) (K : list idx) (l l' : list idx) : Prop :=
    NoDup l' /\ forall z, z ∈ l' <-> (z ∈ l /\ z ∉ K) \/ stays f z (fun _ => True) K.
  Definition lv_prog (f : idx -> idx) (K : option nat -> list idx) (lv lv' : linkval) : Prop :=
    match lv, lv' with
    | LDirect x, LDirect x' => x' = if decide (x ∈ K None) then f x else x
    | LSet k l, LSet k' l' => k' = k /\ set_prog f (K None) l l'
    | LVec l, LVec l' => l' = imap (fun p x => if decide (x ∈ K (Some p)) then f x else x) l
    | _, _ => False
    end.
  Definition node_prog (f : idx -> idx) (P : list (idx * (idx * source))) y n n' : Prop :=
    nvar n' = nvar n /\ ndata n' = ndata n /\ length (nlinks n') = length (nlinks n) /\
    forall fld lv, nlinks n !! fld = Some lv -> exists lv', nlinks n' !! fld = Some lv' /\
      lv_prog f (fun p => keys P y (Src (nvar n) fld p)) lv lv'.

  Lemma lv_prog_ext f (K K' : option nat -> list idx) lv lv' : (forall p, K p = K' p) -> lv_prog f K lv lv' -> lv_prog f K' lv lv'.
  Proof.
    intros He. destruct lv as [x|k l|l], lv' as [x'|k' l'|l']; cbn; try done.
    - by rewrite He.
    - by rewrite He.
    - intros ->. apply imap_ext. intros p x _. cbn. by rewrite He.
  Qed.
  Lemma node_prog_refl f y n : node_ok E n -> node_prog f [] y n n.
  Proof.
    intros Hok. split; [done|]. split; [done|]. split; [done|]. intros fld lv Hlv. exists lv. split; [done|].
    destruct lv as [x|k l|l]; cbn.
    - by rewrite decide_False by apply not_elem_of_nil.
    - split; [done|]. split; [by eapply (node_ok_set E)|]. intros z. split.
      + intros Hz. left. split; [done|apply not_elem_of_nil].
      + intros [[Hz _]|Hz]; [done|by apply stays_nil in Hz].
    - apply list_eq. intros p. rewrite list_lookup_imap. destruct (l !! p) as [x|]; [|done]. cbn. by rewrite decide_False by apply not_elem_of_nil.
  Qed.

  Lemma node_prog_other f P y n n' i e : (forall fld p, e <> (y, Src (nvar n) fld p)) -> node_prog f P y n n' -> node_prog f (P ++ [(i, e)]) y n n'.
  Proof.
    intros He (Hv&Hd&Hl&Hf). split; [done|]. split; [done|]. split; [done|]. intros fld lv Hlv. destruct (Hf fld lv Hlv) as (lv'&Hlv'&Hr).
    exists lv'. split; [done|]. eapply lv_prog_ext; [|exact Hr]. intros p. cbn. by rewrite keys_snoc_ne.
  Qed.

  (** one replaced link *)
  Lemma modify_prog f P y n n' s i : node_ok E n -> node_prog f P y n n' -> src_val n s i -> f i <> 0%N ->
    exists n'' fl, modify_link n' s i (f i) = Ok (n'', fl) /\ node_prog f (P ++ [(i, (y, s))]) y n n''.
  Proof.
    intros Hok (Hv&Hd&Hl&Hf) [Hsv Hs] Hnz. destruct s as [sv sf sp]. cbn in Hsv, Hs. subst sv.
    destruct (nlinks n !! sf) as [lv|] eqn:Hlv; [|done]. destruct (Hf sf lv Hlv) as (lv'&Hlv'&Hren).
    assert (forall lv2, lv_prog f (fun p => keys (P ++ [(i, (y, Src (nvar n) sf sp))]) y (Src (nvar n) sf p)) lv lv2 ->
      node_prog f (P ++ [(i, (y, Src (nvar n) sf sp))]) y n (set_field n' sf lv2)) as Hset.
    { intros lv2 Hr2. split; [done|]. split; [done|]. split; [cbn; by rewrite insert_length|]. intros fld lvf Hlvf.
      unfold set_field. cbn. destruct (decide (fld = sf)) as [->|Hne].
      - exists lv2. rewrite list_lookup_insert by by eapply lookup_lt_Some. split; [done|]. by assert (lvf = lv) as -> by congruence.
      - rewrite list_lookup_insert_ne by done. destruct (Hf fld lvf Hlvf) as (lvf'&Hlvf'&Hrf). exists lvf'. split; [done|].
        eapply lv_prog_ext; [|exact Hrf]. intros p. cbn. rewrite keys_snoc_ne; [done|congruence]. }
    unfold modify_link. cbn [s_var s_fld s_pos]. rewrite decide_True by done. rewrite Hlv'.
    destruct lv as [x|k l|l], lv' as [x'|k' l'|l']; cbn in Hren; try done; destruct sp as [p|]; try done.
    - destruct Hs as [-> _]. eexists _, _. split; [done|]. apply Hset. cbn. rewrite keys_snoc_eq, decide_True; [done|].
      apply elem_of_app. right. left.
    - destruct Hren as (->&Hnd&Hz). destruct (N.eqb_spec (f i) 0) as [|_]; [done|]. eexists _, _. split; [done|]. apply Hset. cbn.
      split; [done|]. rewrite keys_snoc_eq. split; [by apply set_insert_NoDup, set_remove_NoDup|]. intros z.
      rewrite set_insert_elem, set_remove_elem by done. rewrite Hz, stays_snoc by done. rewrite not_elem_of_app, elem_of_list_singleton. tauto.
    - destruct Hs as [Hp Hi]. subst l'. rewrite list_lookup_imap, Hp. cbn. eexists _, _. split; [done|]. apply Hset. cbn.
      apply list_eq. intros q. destruct (decide (q = p)) as [->|Hne].
      + rewrite list_lookup_insert by (rewrite imap_length; by eapply lookup_lt_Some).
        rewrite list_lookup_imap, Hp. cbn. rewrite keys_snoc_eq, decide_True; [done|]. apply elem_of_app. right. left.
      + rewrite list_lookup_insert_ne by done. rewrite !list_lookup_imap. destruct (l !! q) as [x|]; [|done]. cbn.
        rewrite keys_snoc_ne; [done|congruence].
  Qed.

  (** the whole relabelling *)
  Record progress g (f : idx -> idx) a0 P a : Prop := {
    pr_ok : arena_ok E a;
    pr_disp : forall j, arena_dispatch a j = arena_dispatch a0 j;
    pr_some : forall y n, graph_get g y = Some n -> exists n', arena_get a (f y) = Some n' /\ node_prog f P y n n';
    pr_none : forall j, (forall y, is_Some (graph_get g y) -> j <> f y) -> arena_get a j = None }.

  Lemma switch_relabel_exact g m a0 : WF E g ->
    let f := relabel_of m in
    (forall x, x ∈ m.*1 <-> is_Some (graph_get g x)) -> NoDup m.*1 ->
    (forall x x', is_Some (graph_get g x) -> is_Some (graph_get g x') -> f x = f x' -> x = x') ->
    (forall x, is_Some (graph_get g x) -> f x <> 0%N) ->
    progress g f a0 [] a0 ->
    exists a, switch_relabel (g_back g) m a0 = Done a tt /\ progress g f a0 (pairs_of (g_back g) m) a.
  Proof.
    intros Hwf f Hdom Hnd Hinj Hnz H0.
    assert (wp (switch_relabel (g_back g) m) a0 (fun _ a => progress g f a0 (pairs_of (g_back g) m) a) (fun _ _ => False)) as Hwp.
    { apply (wp_mfor _ _ (fun pre a => progress g f a0 (pairs_of (g_back g) pre) a)); [done|].
      intros pre [i j] post a Hm Ha.
      assert (is_Some (graph_get g i)) as Hi. { apply Hdom. rewrite Hm, fmap_app, elem_of_app. right. left. }
      assert (i <> 0%N) as Hi0. { intros ->. rewrite (wf_zero _ _ Hwf) in Hi. by destruct Hi. }
      assert (omap_get i m = Some j) as Hij.
      { apply omap_get_NoDup; [done|]. rewrite Hm, elem_of_app. right. left. }
      assert (f i = j) as Hfi. { unfold f, relabel_of. by rewrite Hij. }
      destruct Hi as [ni Hni]. destruct (wf_b1 _ _ Hwf i ni Hni) as [es Hes]. apply wp_bind, wp_unwrap; [|by rewrite Hes]. rewrite Hes. intros ? [= <-].
      rewrite (pairs_of_snoc _ _ _ _ es Hes).
      apply (wp_mfor _ _ (fun pre' a => progress g f a0 (pairs_of (g_back g) pre ++ ((fun e => (i, e)) <$> pre')) a)); [by rewrite app_nil_r|].
      intros pre' [y s] post' a1 Hpost Ha1.
      destruct (wf_b3 _ _ Hwf i y s Hi0) as (n&Hn&Hsv). { exists es. split; [done|]. rewrite Hpost, elem_of_app. right. left. }
      assert (exists y', omap_get y m = Some y') as [y' Hy'].
      { destruct (omap_get y m) as [y'|] eqn:Hy; [eauto|]. apply omap_get_None in Hy. destruct Hy. apply Hdom. by rewrite Hn. }
      assert (f y = y') as Hfy. { unfold f, relabel_of. by rewrite Hy'. }
      apply wp_bind, wp_unwrap; [|by rewrite Hy']. rewrite Hy'. intros ? [= <-].
      apply wp_bind, wp_get, wp_bind. destruct (pr_some _ _ _ _ _ Ha1 y n Hn) as (n1&Hn1&Hren). rewrite Hfy in Hn1.
      apply wp_unwrap; [|by rewrite Hn1]. rewrite Hn1. intros ? [= <-].
      set (P := pairs_of (g_back g) pre ++ ((fun e => (i, e)) <$> pre')) in *.
      destruct (modify_prog f P y n n1 s i) as (n2&fl&Hmod&Hren2); [by apply (wf_nodes _ _ Hwf y)|done|done|by apply Hnz; rewrite Hni|].
      rewrite Hfi in Hmod. apply wp_bind, wp_lift; [|by rewrite Hmod]. rewrite Hmod. intros ? [= <-]. apply wp_put.
      rewrite fmap_app, app_assoc. cbn [fmap list_fmap]. change (pairs_of (g_back g) pre ++ ((fun e => (i, e)) <$> pre')) with P.
      assert (forall k, arena_get (arena_set a1 y' n2) k = if decide (k = y') then Some n2 else arena_get a1 k) as Hget.
      { intros k. eapply arena_set_get. done. }
      split.
      - apply arena_set_ok, Ha1.
      - intros k. rewrite arena_set_dispatch. apply Ha1.
      - intros y2 m2 Hm2. rewrite Hget. case_decide as Heq.
        + assert (y2 = y) as -> by (apply Hinj; [by rewrite Hm2|by rewrite Hn|congruence]). assert (m2 = n) as -> by congruence. eauto.
        + destruct (pr_some _ _ _ _ _ Ha1 y2 m2 Hm2) as (m2'&Hm2'&Hr2). exists m2'. split; [done|].
          apply node_prog_other; [|done]. intros fld p Hc. apply Heq. assert (y2 = y) by congruence. congruence.
      - intros k Hk. rewrite Hget, decide_False; [by apply Ha1|]. rewrite <- Hfy. apply Hk. by rewrite Hn. }
    unfold wp in Hwp. destruct (switch_relabel (g_back g) m a0) as [a []|]; [|done]. eauto.
  Qed.

  Lemma keys_app P P' y s : keys (P ++ P') y s = keys P y s ++ keys P' y s.
  Proof. apply omap_app. Qed.
  Lemma keys_one i es y s : NoDup es -> keys ((fun e => (i, e)) <$> es) y s = if decide ((y, s) ∈ es) then [i] else [].
  Proof.
    induction es as [|e es IH]; intros Hnd; [done|]. apply NoDup_cons in Hnd as [He Hnd].
    change (keys ((i, e) :: ((fun e => (i, e)) <$> es)) y s = if decide ((y, s) ∈ e :: es) then [i] else []).
    unfold keys in *. cbn [omap list_omap fst snd]. rewrite IH by done. destruct (decide (e = (y, s))) as [->|Hne].
    - rewrite (decide_True (P := (y, s) ∈ (y, s) :: es)) by left. by rewrite decide_False.
    - destruct (decide ((y, s) ∈ es)) as [Hin|Hin].
      + rewrite decide_True; [done|by right].
      + rewrite decide_False; [done|]. by intros [?|?]%elem_of_cons.
  Qed.
  Lemma keys_pairs bl m y s : (forall x b, omap_get x bl = Some b -> NoDup b) ->
    keys (pairs_of bl m) y s = filter (fun x => (y, s) ∈ default [] (omap_get x bl)) m.*1.
  Proof.
    intros Hnd. induction m as [|[i j] m IH]; [done|].
    change (pairs_of bl ((i, j) :: m)) with (((fun e => (i, e)) <$> default [] (omap_get i bl)) ++ pairs_of bl m).
    rewrite keys_app, IH, fmap_cons, filter_cons. cbn [fst]. rewrite keys_one.
    - destruct (decide _); done.
    - destruct (omap_get i bl) as [b|] eqn:Hb; [by eapply Hnd|apply NoDup_nil_2].
  Qed.

  (** every link of the merged nodes is recorded *)
  Lemma merge_nodes_all a g r : lc_rems r = [] ->
    exists g' r', merge_nodes E a (g, r) = Done (g', r') tt /\
      forall x n y l, (x, n) ∈ arena_items a -> has_link n l y -> (x, y, l) ∈ lc_adds r'.
  Proof.
    intros Hr.
    set (I := fun (pre : list (idx * node D)) (gr : graph D * lcr) => lc_rems gr.2 = [] /\
      forall x n y l, (x, n) ∈ pre -> has_link n l y -> (x, y, l) ∈ lc_adds gr.2).
    assert (wp (merge_nodes E a) (g, r) (fun _ st => I (arena_items a) st) (fun _ _ => False)) as Hwp.
    { unfold merge_nodes. apply wp_bind.
      eapply wp_mono; [apply (wp_mfor _ _ I (fun _ _ => False))|..].
      { split; [done|]. by intros x n y l ?%elem_of_nil. }
      2:{ intros _ [g1 r1] Hr1. exact Hr1. } 2:{ done. }
      intros pre [x n] post [g1 r1] _ Hr1. apply wp_bind. unfold add_back_links.
      assert (forall g2 y (e : idx * source), wp (back_entry_insert (D:=D) y e) (g2, r1) (fun _ '(_, r') => r' = r1) (fun _ _ => False)) as Hbi.
      { intros g2 y e. unfold back_entry_insert. apply wp_bind. unfold wp at 1, back_entry.
        unfold wp, back_insert. cbn. rewrite omap_get_entry. by rewrite decide_True. }
      apply wp_bind. unfold wp at 1, back_entry.
      eapply wp_mono; [apply (wp_mfor_simple _ _ (fun '(_, r') => r' = r1) (fun _ _ => False)); [done|]|..].
      - intros [y s] [g2 r2] _ ->. apply Hbi.
      - intros _ [g2 r2] ->.
        eapply wp_mono; [apply (wp_mfor _ _ (fun pre' gr => I pre gr /\
          forall y s, (y, s) ∈ pre' -> y <> 0%N -> (x, y, src_link s) ∈ lc_adds gr.2) (fun _ _ => False))|..].
        + split; [done|]. by intros y s ?%elem_of_nil.
        + intros pre' [y s] post' [g3 r3] _ [[Hr3 Ha3] Hb3]. unfold wp, rec_add. unfold lcr_add.
          destruct (N.eqb_spec y 0) as [Hy|Hy].
          * split; [done|]. intros y' s' [Hin|[= -> ->]%elem_of_list_singleton]%elem_of_app Hy'; [by apply (Hb3 y' s')|done].
          * cbn in *. rewrite Hr3. rewrite decide_False by (intros Hin; inversion Hin). split; [split; [done|]|]; cbn.
            -- intros x' n' y' l' Hin Hl. apply oset_insert_elem. right. by apply (Ha3 x' n').
            -- intros y' s' [Hin|[= -> ->]%elem_of_list_singleton]%elem_of_app Hy'; apply oset_insert_elem; [right; by apply Hb3|by left].
        + intros _ gr [[Hr3 Ha3] Hb3]. split; [done|]. intros x' n' y l [Hin|[= -> ->]%elem_of_list_singleton]%elem_of_app Hl; [by apply (Ha3 x' n')|].
          destruct (has_link_src_val n l y Hl) as (s&<-&Hs). apply Hb3; [by apply elem_iter_sources|apply Hl].
        + done.
      - done. }
    unfold wp in Hwp. destruct (merge_nodes E a (g, r)) as [[g' r'] []|]; [|done]. exists g', r'. split; [done|]. apply Hwp.
  Qed.

  (** the relabelled nodes, whatever the sets hold *)
  Lemma node_prog_switched g c m y n n' : WF E g -> m.*1 = (graph_iter g).*1 ->
    (forall x, graph_get g x = None -> new_index g c x = x) ->
    graph_get g y = Some n -> node_prog (new_index g c) (pairs_of (g_back g) m) y n n' -> node_switched g (new_index g c) n n'.
  Proof.
    intros Hwf Hm Hout Hy (Hv&Hd&Hl&Hf). split; [done|]. split; [done|]. split; [done|].
    intros fld lv Hlv. destruct (Hf fld lv Hlv) as (lv'&Hlv'&Hr). exists lv'. split; [done|].
    assert (forall i m, (i, m) ∈ graph_iter g <-> graph_get g i = Some m) as Hit.
    { intros i ?. symmetry. apply (arena_get_items E), Hwf. }
    assert (forall x, x ∈ (graph_iter g).*1 <-> is_Some (graph_get g x)) as Hk.
    { intros x. rewrite elem_of_list_fmap. split.
      - intros ([i ni]&->&Hx%Hit). cbn. by rewrite Hx.
      - intros [nx Hx%Hit]. by exists (x, nx). }
    assert (forall pos x, x <> 0%N -> ((y, Src (nvar n) fld pos) ∈ default [] (omap_get x (g_back g)) <-> src_val n (Src (nvar n) fld pos) x)) as Hb.
    { intros pos x Hx. split.
      - intros Hin. destruct (omap_get x (g_back g)) as [b|] eqn:Hg; [|by apply elem_of_nil in Hin].
        destruct (wf_b3 _ _ Hwf x y (Src (nvar n) fld pos) Hx) as (n2&Hn2&Hsv); [by exists b|]. by assert (n2 = n) as -> by congruence.
      - intros Hsv. destruct (wf_b2 _ _ Hwf y n _ x Hy Hsv) as (b&->&Hin). done. }
    assert (forall x, is_Some (graph_get g x) -> x <> 0%N) as Hnz.
    { intros x Hx ->. rewrite (wf_zero _ _ Hwf) in Hx. by destruct Hx. }
    assert (forall pos x, x ∈ keys (pairs_of (g_back g) m) y (Src (nvar n) fld pos) <-> is_Some (graph_get g x) /\ src_val n (Src (nvar n) fld pos) x) as Hkey.
    { intros pos x. rewrite keys_pairs by apply (wf_nd _ _ Hwf). rewrite elem_of_list_filter, Hm, Hk. split.
      - intros [Hin Hx]. split; [done|]. by apply Hb; [apply Hnz|].
      - intros [Hx Hin]. split; [|done]. by apply Hb; [apply Hnz|]. }
    assert (forall pos x, src_val n (Src (nvar n) fld pos) x -> x ∉ keys (pairs_of (g_back g) m) y (Src (nvar n) fld pos) -> new_index g c x = x) as Hstay.
    { intros pos x Hsv Hx. apply Hout. destruct (graph_get g x) as [nx|] eqn:Hgx; [|done]. destruct Hx. apply Hkey. by rewrite Hgx. }
    destruct lv as [x|k l|l], lv' as [x'|k' l'|l']; cbn in Hr |- *; try done.
    - rewrite Hr. case_decide as Hin; [done|]. symmetry. destruct (decide (x = 0%N)) as [->|Hx]; [apply Hout, Hwf|].
      apply (Hstay None); [|done]. split; [done|]. cbn. rewrite Hlv. done.
    - destruct Hr as (->&Hnd&Hz). split; [done|]. split; [done|]. intros z. rewrite Hz. clear Hz.
      rewrite keys_pairs by apply (wf_nd _ _ Hwf). rewrite stays_filter, Hm.
      assert (forall x, src_val n (Src (nvar n) fld None) x <-> x ∈ l) as Hsl.
      { intros x. unfold src_val. cbn. rewrite Hlv. tauto. }
      split.
      + intros [[Hzl Hzk]|(i&x&Hx&HQ&->&Hlast)].
        * rewrite <- Hm, <- keys_pairs in Hzk by apply (wf_nd _ _ Hwf). 
          assert (new_index g c z = z) as Hzz by (apply (Hstay None); [by apply Hsl|done]).
          exists z. split; [done|]. split; [done|]. intros [_ (i&j&Hij&Hi&_)]. destruct Hzk. apply Hkey. split; [apply Hk; by eapply elem_of_list_lookup_2|by apply Hsl].
        * assert (is_Some (graph_get g x)) as Hgx by (apply Hk; by eapply elem_of_list_lookup_2).
          exists x. split; [apply Hsl, Hb; [by apply Hnz|done]|]. split; [done|]. intros (Hfl&i'&j&Hij&Hi'&Hj).
          assert (i' = i) as -> by (eapply NoDup_lookup; [apply (arena_items_NoDup E (g_nodes g)), Hwf|done|done]).
          apply (Hlast j Hij Hj). apply Hb; [|by apply Hsl]. apply Hnz, Hk. by eapply elem_of_list_lookup_2.
      + intros (x&Hx&->&Hno). destruct (graph_get g x) as [nx|] eqn:Hgx.
        * right. assert (x ∈ (graph_iter g).*1) as Hxi by (apply Hk; by rewrite Hgx). apply elem_of_list_lookup in Hxi as [i Hi].
          exists i, x. split; [done|]. split; [apply Hb; [apply Hnz; by rewrite Hgx|by apply Hsl]|]. split; [done|].
          intros j Hij Hj Hin. apply Hno. split; [|by exists i, j]. apply Hsl, Hb; [|done]. apply Hnz, Hk. by eapply elem_of_list_lookup_2.
        * left. rewrite (Hout x Hgx). split; [done|]. rewrite <- Hm, <- keys_pairs by apply (wf_nd _ _ Hwf).
          intros [[? ?] _]%Hkey. congruence.
    - rewrite Hr. apply list_eq. intros p. rewrite list_lookup_imap, list_lookup_fmap. destruct (l !! p) as [x|] eqn:Hp; [|done]. cbn. f_equal.
      case_decide as Hin; [done|]. symmetry. destruct (decide (x = 0%N)) as [->|Hx]; [apply Hout, Hwf|].
      apply (Hstay (Some p)); [|done]. split; [done|]. cbn. rewrite Hlv. done.
  Qed.

  (** the arena [switch_context] builds the new graph from *)
  Record relabelled g c a : Prop := {
    rl_ok : arena_ok E a;
    rl_nodes : forall j n, arena_get a j = Some n -> node_ok E n /\ j <> 0%N;
    rl_some : forall x n, graph_get g x = Some n -> exists n', arena_get a (new_index g c x) = Some n' /\ node_switched g (new_index g c) n n';
    rl_only : forall j n', arena_get a j = Some n' -> exists x n, graph_get g x = Some n /\ j = new_index g c x /\ node_switched g (new_index g c) n n' }.
  Lemma switch_prepared T g ctx c : graph_of E T g -> (c + N.of_nat (length (graph_iter g)) < usize_mod)%N ->
    let c' := (c + N.of_nat (length (graph_iter g)))%N in
    exists a, relabelled g c a /\
      switch_context E g ctx c =
        match rebuild E ctx a with
        | Panicked p _ => Panicked p c'
        | Done (g', r) _ => match check_link_type E r g' with Panicked p _ => Panicked p c' | Done g'' _ => Done c' g'' end
        end.
  Proof.
    intros Hg Hroom cend. destruct (graph_of_ok E _ _ Hg) as (Hwf&_).
    assert (forall i n, (i, n) ∈ graph_iter g <-> graph_get g i = Some n) as Hit.
    { intros i n. symmetry. apply (arena_get_items E), Hwf. }
    assert (NoDup (graph_iter g).*1) as Hnd by apply (arena_items_NoDup E), Hwf.
    unfold switch_context. change (arena_items (g_nodes g)) with (graph_iter g). set (l := graph_iter g) in *.
    destruct (switch_insert_spec E l [] c (arena_new E)) as (a1&->&Hin); [apply arena_new_ok|by apply arena_items_ok|done|by intros j [? ?]|].
    rewrite switch_map_eq by done. set (m := imap (fun k (kv : idx * node D) => (kv.1, newix c k)) l).
    assert (m.*1 = l.*1) as Hm1.
    { unfold m. rewrite fmap_imap. clear. induction l as [|kv l IH]; cbn; [done|]. f_equal. done. }
    assert (forall k i n, l !! k = Some (i, n) -> new_index g c i = newix c k /\ omap_get i m = Some (newix c k)) as Hnew.
    { intros k i n Hk. split; [unfold new_index; by rewrite (find_index _ k i n)|].
      apply omap_get_NoDup; [by rewrite Hm1|]. unfold m. apply elem_of_lookup_imap. by exists k, (i, n). }
    assert (forall x, relabel_of m x = new_index g c x) as Hrel.
    { intros x. unfold relabel_of. destruct (omap_get x m) as [j|] eqn:Hx.
      - apply omap_get_elem in Hx. unfold m in Hx. apply elem_of_lookup_imap in Hx as (k&[i n]&Heq&Hk). cbn in Heq. injection Heq as -> ->.
        by rewrite (proj1 (Hnew k i n Hk)).
      - apply omap_get_None in Hx. rewrite Hm1 in Hx. unfold new_index. destruct (list_find _ (graph_iter g)) as [[k [i n]]|] eqn:Hf; [|done].
        apply list_find_Some in Hf as (Hk&Heq&_). cbn in Heq. subst i. destruct Hx. apply elem_of_list_fmap. exists (x, n). split; [done|]. by eapply elem_of_list_lookup_2. }
    assert (forall x n, graph_get g x = Some n -> exists k, l !! k = Some (x, n) /\ new_index g c x = newix c k) as Hpos.
    { intros x n Hx. apply Hit, elem_of_list_lookup in Hx as [k Hk]. exists k. split; [done|]. by eapply Hnew. }
    assert (forall x, graph_get g x = None -> new_index g c x = x) as Hout.
    { intros x Hx. rewrite <- Hrel. unfold relabel_of. destruct (omap_get x m) as [j|] eqn:Hj; [|done].
      apply omap_get_Some_key in Hj. rewrite Hm1 in Hj. apply elem_of_list_fmap in Hj as ([i n]&->&Hin'%Hit). cbn in Hx. congruence. }
    assert (forall x x', is_Some (graph_get g x) -> is_Some (graph_get g x') -> new_index g c x = new_index g c x' -> x = x') as Hinj.
    { intros x x'. by apply (new_index_inj E T). }
    assert (forall (f : idx -> idx) (f' : idx -> idx) P a, (forall x, f x = f' x) -> progress g f a1 P a -> progress g f' a1 P a) as Hpx.
    { intros f f' P a Hff [H1 H2 H3 H4]. split; [done|done| |].
      - intros y n Hy. destruct (H3 y n Hy) as (n'&Hn'&Hv&Hd&Hl&Hfl). exists n'. rewrite <- Hff. split; [done|].
        split; [done|]. split; [done|]. split; [done|]. intros fld lv Hlv. destruct (Hfl fld lv Hlv) as (lv'&Hlv'&Hp). exists lv'. split; [done|].
        destruct lv as [x|k sl|sl], lv' as [x'|k' sl'|sl']; cbn in Hp |- *; try done.
        + by rewrite <- Hff.
        + destruct Hp as (->&Hnd'&Hz). split; [done|]. split; [done|]. intros z. rewrite Hz. apply or_iff_compat_l.
          unfold stays. split; intros (i&x&Hx&_&->&Hj); exists i, x; (split; [done|]; split; [done|]; split; [by rewrite Hff|]);
            intros j Hij; specialize (Hj j Hij); rewrite Hff in *; done.
        + rewrite Hp. apply imap_ext. intros p x _. cbn. by rewrite Hff.
      - intros j Hj. apply H4. intros y Hy. rewrite Hff. by apply Hj. }
    destruct (switch_relabel_exact g m a1 Hwf) as (a2&Ha2&Hre).
    { intros x. rewrite Hm1, elem_of_list_fmap. split.
      - intros ([i n]&->&Hx%Hit). cbn. by rewrite Hx.
      - intros [n Hx%Hit]. by exists (x, n). }
    { by rewrite Hm1. }
    { intros x x' Hx Hx'. rewrite !Hrel. by apply Hinj. }
    { intros x [n Hx]. rewrite Hrel. destruct (Hpos x n Hx) as (k&_&->). unfold newix. lia. }
    { apply (Hpx (new_index g c)); [done|]. split; [apply Hin|done|..].
      - intros y n Hy. destruct (Hpos y n Hy) as (k&Hk&->). exists n. split; [by eapply in_new|].
        apply node_prog_refl, (wf_nodes _ _ Hwf y n Hy).
      - intros j Hj. destruct (in_old _ _ _ _ _ Hin j) as [-> _]; [|done]. intros k Hk ->.
        destruct (lookup_lt_is_Some_2 l k Hk) as [[i n] Hl]. destruct (Hj i) as [].
        + exists n. apply Hit. by eapply elem_of_list_lookup_2. + symmetry. by eapply Hnew. }
    apply (Hpx _ (new_index g c)) in Hre; [|done].
    assert (forall x n, graph_get g x = Some n -> exists n', arena_get a2 (new_index g c x) = Some n' /\ node_switched g (new_index g c) n n') as Hsome.
    { intros x n Hx. destruct (pr_some _ _ _ _ _ Hre x n Hx) as (n'&Hn'&Hr'). exists n'. split; [done|].
      by apply (node_prog_switched g c m x). }
    assert (forall j n', arena_get a2 j = Some n' -> exists x n, graph_get g x = Some n /\ j = new_index g c x /\ node_switched g (new_index g c) n n') as Honly.
    { intros j n' Hj.
      destruct (decide (Exists (fun kv : idx * node D => j = new_index g c kv.1) l)) as [He|He].
      - apply Exists_exists in He as ([x n]&Hx%Hit&->). cbn in *. exists x, n. split; [done|]. split; [done|].
        destruct (Hsome x n Hx) as (n2&Hn2&Hr2). by assert (n2 = n') as -> by congruence.
      - rewrite (pr_none _ _ _ _ _ Hre) in Hj; [done|]. intros y [n Hy] ->. apply He, Exists_exists. exists (y, n).
        split; [by apply Hit|done]. }
    assert (forall j n, arena_get a1 j = Some n -> node_ok E n) as Hok1.
    { intros j n Hj. destruct (decide (Exists (fun k => j = newix c k) (seq 0 (length l)))) as [He|Hne].
      - apply Exists_exists in He as (k&Hk&->). apply elem_of_seq in Hk. destruct (lookup_lt_is_Some_2 l k) as [[i n0] Hl]; [lia|].
        destruct (in_new _ _ _ _ _ Hin k i n0 Hl) as [Hg1 _]. assert (n0 = n) as -> by congruence.
        apply (wf_nodes _ _ Hwf i). apply Hit. by eapply elem_of_list_lookup_2.
      - destruct (in_old _ _ _ _ _ Hin j) as [Heq _].
        + intros k Hk ->. apply Hne, Exists_exists. exists k. split; [|done]. apply elem_of_seq. lia.
        + rewrite Heq in Hj. by rewrite arena_new_get in Hj. }
    pose proof (switch_relabel_shape E (g_back g) m a1 (in_ok _ _ _ _ _ Hin) Hok1) as Hsh.
    unfold wp in Hsh. rewrite Ha2 in Hsh |- *.
    assert (forall x n, arena_get a2 x = Some n -> node_ok E n /\ x <> 0%N) as Hok2.
    { intros j n Hj. split.
      - destruct (arena_get a1 j) as [n1|] eqn:Hj1.
        + destruct (sh_some _ _ _ Hsh j n1 Hj1) as (n2&Hg2&_&Hk). by assert (n2 = n) as -> by congruence.
        + rewrite (sh_none _ _ _ Hsh) in Hj by done. done.
      - destruct (Honly j n Hj) as (x&nx&Hx&->&_). destruct (Hpos x nx Hx) as (k&_&->). unfold newix. lia. }
    exists a2. split; [by split; [apply (pr_ok _ _ _ _ _ Hre)|..]|]. done.
  Qed.

  Lemma final_switch_exact T g ctx c : graph_of E T g -> (forall l, e_opp E l = []) ->
    (c + N.of_nat (length (graph_iter g)) < usize_mod)%N ->
    match switch_context E g ctx c with
    | Done c' g' => c' = (c + N.of_nat (length (graph_iter g)))%N /\ g_ctx g' = ctx /\
        (forall x n, graph_get g x = Some n -> exists n', graph_get g' (new_index g c x) = Some n' /\ node_switched g (new_index g c) n n') /\
        (forall j, is_Some (graph_get g' j) -> exists x, is_Some (graph_get g x) /\ j = new_index g c x) /\
        (forall j k nj nk l, graph_get g' j = Some nj -> graph_get g' k = Some nk -> has_link nj l k -> e_chk E (nvar nk) l = true)
    | Panicked p c' => c' = (c + N.of_nat (length (graph_iter g)))%N /\ p = PLinkType /\
        exists y z ny nz n' l, graph_get g y = Some ny /\ node_switched g (new_index g c) ny n' /\
          graph_get g z = Some nz /\ has_link n' l (new_index g c z) /\ e_chk E (nvar nz) l = false
    end.
  Proof.
    intros Hg Ho Hroom. destruct (switch_prepared T g ctx c Hg Hroom) as (a2&[Hok Hok2 Hsome Honly]&->).
    destruct (merge_nodes_adds E a2 (graph_new E ctx) lcr_new eq_refl) as (g1&r&Hm&Hadd).
    { intros x y l0 Hin'. by apply elem_of_nil in Hin'. }
    destruct (merge_nodes_all a2 (graph_new E ctx) lcr_new eq_refl) as (g1'&r'&Hm'&Hall).
    assert (g1' = g1 /\ r' = r) as [-> ->] by (split; congruence). clear Hm'.
    pose proof (merged_spec E ctx a2 (fun _ _ => False) Hok Hok2) as Hmg. unfold wp in Hmg. rewrite Hm in Hmg.
    rewrite (rebuild_noop E ctx a2 g1 r Hm Hmg).
    2:{ intros x y l0 ny Hin' [nx Hx] Hy Hbd. by rewrite Ho in Hbd. }
    pose proof (check_link_type_spec E r g1) as Hck.
    destruct (check_link_type E r g1) as [g2 []|p g2].
    - destruct Hck as [-> Hck]. split; [done|]. split; [apply Hmg|]. split; [|split].
      + intros x n Hx. destruct (Hsome x n Hx) as (n'&Hn'&Hr'). exists n'. by rewrite (mg_get _ _ _ _ _ Hmg).
      + intros j [n' Hj]. rewrite (mg_get _ _ _ _ _ Hmg) in Hj. destruct (Honly j n' Hj) as (x&n&Hx&->&_). eauto.
      + intros j k nj nk l0 Hj Hk Hl. apply (Hck j k l0 nk); [|done]. apply (Hall j nj); [|done].
        apply (arena_get_items E); [apply Hok|]. by rewrite <- (mg_get _ _ _ _ _ Hmg).
    - destruct Hck as (_&->&x&y&l0&ny&Hin'&Hy&Hchk). split; [done|]. split; [done|]. apply Hadd in Hin' as (n&Hn&Hl).
      apply (arena_get_items E) in Hn; [|apply Hok]. rewrite (mg_get _ _ _ _ _ Hmg) in Hy.
      destruct (Honly x n Hn) as (x0&n0&Hx0&->&Hs0), (Honly y ny Hy) as (y0&ny0&Hy0&->&Hsy).
      exists x0, y0, n0, ny0, n, l0. split; [done|]. split; [done|]. split; [done|]. split; [done|]. by rewrite <- (proj1 Hsy).
  Qed.
End exact.
