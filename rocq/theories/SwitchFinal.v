(** * switch_context: the new graph is the old one with its indices renamed *)
From Verif Require Export SerFinal Switch.

(** renaming in a link value; sets up to order *)
Definition lv_renamed (F : option nat -> idx -> idx) (lv lv' : linkval) : Prop :=
  match lv, lv' with
  | LDirect x, LDirect x' => x' = F None x
  | LSet k l, LSet k' l' => k' = k /\ NoDup l' /\ forall z, z ∈ l' <-> exists x, x ∈ l /\ z = F None x
  | LVec l, LVec l' => l' = imap (fun p x => F (Some p) x) l
  | _, _ => False
  end.
Definition node_renamed {D} (F : nat -> option nat -> idx -> idx) (n n' : node D) : Prop :=
  nvar n' = nvar n /\ ndata n' = ndata n /\ length (nlinks n') = length (nlinks n) /\
  forall fld lv, nlinks n !! fld = Some lv -> exists lv', nlinks n' !! fld = Some lv' /\ lv_renamed (F fld) lv lv'.

Section switch.
  Context {D : Type} (E : env).
  Implicit Types (g : graph D) (n : node D) (x y i : idx) (s : source) (a : arena D).

  Definition lv_at (lv : linkval) (pos : option nat) x : Prop :=
    match lv, pos with
    | LDirect x', None => x = x'
    | LSet _ l, None => x ∈ l
    | LVec l, Some p => l !! p = Some x
    | _, _ => False
    end.
  Lemma lv_renamed_ext (F G : option nat -> idx -> idx) lv lv' :
    (forall p x, lv_at lv p x -> F p x = G p x) -> lv_renamed F lv lv' -> lv_renamed G lv lv'.
  Proof.
    intros He. destruct lv as [x|k l|l], lv' as [x'|k' l'|l']; cbn in *; try done.
    - intros ->. by apply He.
    - intros (->&Hnd&Hz). split; [done|]. split; [done|]. intros z. rewrite Hz.
      split; intros (x&Hx&Hzx); exists x; (split; [done|]); rewrite Hzx; [|symmetry]; by apply He.
    - intros ->. apply imap_ext. intros p x Hx. by apply He.
  Qed.
  Lemma node_renamed_ext (F G : nat -> option nat -> idx -> idx) n n' :
    (forall fld lv p x, nlinks n !! fld = Some lv -> lv_at lv p x -> F fld p x = G fld p x) ->
    node_renamed F n n' -> node_renamed G n n'.
  Proof.
    intros He (Hv&Hd&Hl&Hf). split; [done|]. split; [done|]. split; [done|]. intros fld lv Hlv.
    destruct (Hf fld lv Hlv) as (lv'&Hlv'&Hr). exists lv'. split; [done|]. eapply lv_renamed_ext; [|exact Hr]. eauto.
  Qed.
  Lemma node_renamed_refl n : node_ok E n -> node_renamed (fun _ _ x => x) n n.
  Proof.
    intros Hok. split; [done|]. split; [done|]. split; [done|]. intros fld lv Hlv. exists lv. split; [done|].
    destruct lv as [x|k l|l]; cbn; [done| |].
    - split; [done|]. split; [by eapply (node_ok_set E)|]. intros z. naive_solver.
    - apply list_eq. intros p. rewrite list_lookup_imap. by destruct (l !! p).
  Qed.
  (** what a renamed node links to *)
  Lemma node_renamed_link (f : idx -> idx) n n' l z : f 0%N = 0%N -> (forall x, f x = 0%N -> x = 0%N) ->
    node_renamed (fun _ _ => f) n n' -> has_link n' l z <-> exists x, has_link n l x /\ z = f x.
  Proof.
    intros Hf0 Hfz (Hv&_&Hl&Hf). unfold has_link. rewrite Hv.
    assert (forall lv lv', lv_renamed (fun _ => f) lv lv' -> z ∈ lv_elems lv' <-> exists x, x ∈ lv_elems lv /\ z = f x) as Hr.
    { intros [x|k l1|l1] [x'|k' l1'|l1']; cbn; try done.
      - intros ->. rewrite elem_of_list_singleton. split; [intros ->; exists x; split; [left|done]|]. by intros (x'&->%elem_of_list_singleton&->).
      - by intros (_&_&Hz).
      - intros ->. rewrite elem_of_lookup_imap. split.
        + intros (p&x&->&Hx). exists x. split; [by eapply elem_of_list_lookup_2|done].
        + intros (x&[p Hp]%elem_of_list_lookup&->). by exists p, x. }
    split.
    - intros (Hz&Hvar&lv'&Hlv'&Hin). destruct (lookup_lt_is_Some_2 (nlinks n) (l_fld l)) as [lv Hlv].
      { rewrite <- Hl. by eapply lookup_lt_Some. }
      destruct (Hf _ _ Hlv) as (lv''&Hlv''&Hren). assert (lv'' = lv') as -> by congruence.
      destruct (proj1 (Hr _ _ Hren) Hin) as (x&Hx&Hzx). exists x. split; [|done]. split; [intros ->; congruence|]. split; [done|]. eauto.
    - intros (x&(Hx&Hvar&lv&Hlv&Hin)&Hzx). split; [intros Hz; apply Hx, Hfz; congruence|]. split; [done|].
      destruct (Hf _ _ Hlv) as (lv'&Hlv'&Hren). exists lv'. split; [done|]. apply (Hr _ _ Hren). eauto.
  Qed.

  (** ** One step of the relabelling *)
  Definition ren (f : idx -> idx) (P : list (idx * (idx * source))) y (v fld : nat) (pos : option nat) x : idx :=
    if decide ((x, (y, Src v fld pos)) ∈ P) then f x else x.

  Lemma ren_snoc_ne f P i e y v fld pos x : (x, (y, Src v fld pos)) <> (i, e) -> ren f (P ++ [(i, e)]) y v fld pos x = ren f P y v fld pos x.
  Proof.
    intros Hne. unfold ren. destruct (decide (_ ∈ P)) as [H|H].
    - rewrite decide_True; [done|]. apply elem_of_app. by left.
    - rewrite decide_False; [done|]. rewrite elem_of_app, elem_of_list_singleton. tauto.
  Qed.
  Lemma ren_snoc_eq f P y v fld pos x : ren f (P ++ [(x, (y, Src v fld pos))]) y v fld pos x = f x.
  Proof. unfold ren. rewrite decide_True; [done|]. apply elem_of_app. right. left. Qed.

  Lemma modify_renamed f P y n n' s i : node_ok E n -> node_renamed (ren f P y (nvar n)) n n' -> src_val n s i ->
    f i <> 0%N ->
    (forall fld k l x e, nlinks n !! fld = Some (LSet k l) -> x ∈ l -> i ∈ l -> (x, e) ∈ P -> f x = i -> x = i) ->
    exists n'' fl, modify_link n' s i (f i) = Ok (n'', fl) /\ node_renamed (ren f (P ++ [(i, (y, s))]) y (nvar n)) n n''.
  Proof.
    intros Hok (Hv&Hd&Hl&Hf) [Hsv Hs] Hnz Hcol. destruct s as [sv sf sp]. cbn in Hsv, Hs. subst sv.
    destruct (nlinks n !! sf) as [lv|] eqn:Hlv; [|done]. destruct (Hf sf lv Hlv) as (lv'&Hlv'&Hren).
    assert (forall lv2, lv_renamed (ren f (P ++ [(i, (y, Src (nvar n) sf sp))]) y (nvar n) sf) lv lv2 ->
      node_renamed (ren f (P ++ [(i, (y, Src (nvar n) sf sp))]) y (nvar n)) n (set_field n' sf lv2)) as Hset.
    { intros lv2 Hr2. split; [done|]. split; [done|]. split; [cbn; by rewrite insert_length|]. intros fld lvf Hlvf.
      unfold set_field. cbn. destruct (decide (fld = sf)) as [->|Hne].
      - exists lv2. rewrite list_lookup_insert by by eapply lookup_lt_Some. split; [done|]. by assert (lvf = lv) as -> by congruence.
      - rewrite list_lookup_insert_ne by done. destruct (Hf fld lvf Hlvf) as (lvf'&Hlvf'&Hrf). exists lvf'. split; [done|].
        eapply lv_renamed_ext; [|exact Hrf]. intros p x _. symmetry. apply ren_snoc_ne. congruence. }
    unfold modify_link. cbn [s_var s_fld s_pos]. rewrite decide_True by done. rewrite Hlv'.
    destruct lv as [x|k l|l], lv' as [x'|k' l'|l']; cbn in Hren; try done; destruct sp as [p|]; try done.
    - destruct Hs as [-> _]. eexists _, _. split; [done|]. apply Hset. cbn. symmetry. apply ren_snoc_eq.
    - destruct Hren as (->&Hnd&Hz). destruct (N.eqb_spec (f i) 0) as [|_]; [done|]. eexists _, _. split; [done|]. apply Hset.
      split; [done|]. split; [by apply set_insert_NoDup, set_remove_NoDup|]. intros z.
      rewrite set_insert_elem, set_remove_elem by done. rewrite Hz. split.
      + intros [->|(Hzi&x&Hx&->)].
        * exists i. split; [done|]. symmetry. apply ren_snoc_eq.
        * exists x. split; [done|]. destruct (decide (x = i)) as [->|Hne].
          -- rewrite ren_snoc_eq. unfold ren in *. case_decide; done.
          -- symmetry. apply ren_snoc_ne. congruence.
      + intros (x&Hx&->). destruct (decide (x = i)) as [->|Hne]; [left; by rewrite ren_snoc_eq|].
        right. rewrite ren_snoc_ne by congruence. split; [|eauto]. unfold ren. case_decide as Hin; [|done].
        intros Heq. by apply Hne, (Hcol sf k l x _ Hlv Hx Hs Hin).
    - destruct Hs as [Hp Hi]. subst l'. rewrite list_lookup_imap, Hp. cbn. eexists _, _. split; [done|]. apply Hset. cbn.
      apply list_eq. intros q. destruct (decide (q = p)) as [->|Hne].
      + rewrite list_lookup_insert by (rewrite imap_length; by eapply lookup_lt_Some).
        rewrite list_lookup_imap, Hp. cbn. by rewrite ren_snoc_eq.
      + rewrite list_lookup_insert_ne by done. rewrite !list_lookup_imap. destruct (l !! q) as [x|]; [|done]. cbn.
        f_equal. symmetry. apply ren_snoc_ne. congruence.
  Qed.

  (** ** The whole relabelling *)
  Definition relabel_of (m : list (idx * idx)) (x : idx) : idx := default x (omap_get x m).

  Definition pairs_of (bl : list (idx * list (idx * source))) (m : list (idx * idx)) : list (idx * (idx * source)) :=
    concat ((fun ij : idx * idx => (fun e => (ij.1, e)) <$> default [] (omap_get ij.1 bl)) <$> m).
  Lemma pairs_of_snoc bl m i j es : omap_get i bl = Some es -> pairs_of bl (m ++ [(i, j)]) = pairs_of bl m ++ ((fun e => (i, e)) <$> es).
  Proof. intros Hes. unfold pairs_of. rewrite fmap_app, concat_app. cbn. by rewrite Hes, app_nil_r. Qed.
  Lemma elem_pairs_of bl m x e : (x, e) ∈ pairs_of bl m <-> x ∈ m.*1 /\ exists es, omap_get x bl = Some es /\ e ∈ es.
  Proof.
    unfold pairs_of. rewrite elem_of_list_In, in_concat. split.
    - intros (c&Hc&Hin). apply elem_of_list_In in Hc, Hin. apply elem_of_list_fmap in Hc as ([i j]&->&Hm).
      apply elem_of_list_fmap in Hin as (e'&Heq&Hin). cbn in *. injection Heq as -> ->. split; [apply elem_of_list_fmap; by exists (i, j)|].
      destruct (omap_get i bl) as [es|]; [by exists es|by apply elem_of_nil in Hin].
    - intros (([i j]&->&Hm)%elem_of_list_fmap&es&Hes&He). eexists. split; apply elem_of_list_In.
      + apply elem_of_list_fmap. exists (i, j). split; [done|exact Hm].
      + cbn in *. rewrite Hes. cbn. apply elem_of_list_fmap. by exists e.
  Qed.

  (** [a] holds the nodes of [g], renamed as far as [P] says, at their new places *)
  Record relabelled g (f : idx -> idx) a0 P a : Prop := {
    re_ok : arena_ok E a;
    re_disp : forall j, arena_dispatch a j = arena_dispatch a0 j;
    re_some : forall y n, graph_get g y = Some n -> exists n', arena_get a (f y) = Some n' /\ node_renamed (ren f P y (nvar n)) n n';
    re_none : forall j, (forall y, is_Some (graph_get g y) -> j <> f y) -> arena_get a j = None }.

  Lemma switch_relabel_spec g m a0 : WF E g ->
    let f := relabel_of m in
    (forall x, x ∈ m.*1 <-> is_Some (graph_get g x)) -> NoDup m.*1 ->
    (forall x x', is_Some (graph_get g x) -> is_Some (graph_get g x') -> f x = f x' -> x = x') ->
    (forall y n fld k l x i, graph_get g y = Some n -> nlinks n !! fld = Some (LSet k l) -> x ∈ l -> i ∈ l ->
      is_Some (graph_get g x) -> is_Some (graph_get g i) -> f x = i -> x = i) ->
    (forall x, is_Some (graph_get g x) -> f x <> 0%N) ->
    relabelled g f a0 [] a0 ->
    exists a, switch_relabel (g_back g) m a0 = Done a tt /\ relabelled g f a0 (pairs_of (g_back g) m) a.
  Proof.
    intros Hwf f Hdom Hnd Hinj Hcol Hnz H0.
    assert (wp (switch_relabel (g_back g) m) a0 (fun _ a => relabelled g f a0 (pairs_of (g_back g) m) a) (fun _ _ => False)) as Hwp.
    { apply (wp_mfor _ _ (fun pre a => relabelled g f a0 (pairs_of (g_back g) pre) a)); [done|].
      intros pre [i j] post a Hm Ha.
      assert (is_Some (graph_get g i)) as Hi. { apply Hdom. rewrite Hm, fmap_app, elem_of_app. right. left. }
      assert (i <> 0%N) as Hi0. { intros ->. rewrite (wf_zero _ _ Hwf) in Hi. by destruct Hi. }
      assert (omap_get i m = Some j) as Hij.
      { apply omap_get_NoDup; [done|]. rewrite Hm, elem_of_app. right. left. }
      assert (f i = j) as Hfi. { unfold f, relabel_of. by rewrite Hij. }
      destruct Hi as [ni Hni]. destruct (wf_b1 _ _ Hwf i ni Hni) as [es Hes]. apply wp_bind, wp_unwrap; [|by rewrite Hes]. rewrite Hes. intros ? [= <-].
      rewrite (pairs_of_snoc _ _ _ _ es Hes).
      apply (wp_mfor _ _ (fun pre' a => relabelled g f a0 (pairs_of (g_back g) pre ++ ((fun e => (i, e)) <$> pre')) a)); [by rewrite app_nil_r|].
      intros pre' [y s] post' a1 Hpost Ha1.
      destruct (wf_b3 _ _ Hwf i y s Hi0) as (n&Hn&Hsv). { exists es. split; [done|]. rewrite Hpost, elem_of_app. right. left. }
      assert (exists y', omap_get y m = Some y') as [y' Hy'].
      { destruct (omap_get y m) as [y'|] eqn:Hy; [eauto|]. apply omap_get_None in Hy. destruct Hy. apply Hdom. by rewrite Hn. }
      assert (f y = y') as Hfy. { unfold f, relabel_of. by rewrite Hy'. }
      apply wp_bind, wp_unwrap; [|by rewrite Hy']. rewrite Hy'. intros ? [= <-].
      apply wp_bind, wp_get, wp_bind. destruct (re_some _ _ _ _ _ Ha1 y n Hn) as (n1&Hn1&Hren). rewrite Hfy in Hn1.
      apply wp_unwrap; [|by rewrite Hn1]. rewrite Hn1. intros ? [= <-].
      set (P := pairs_of (g_back g) pre ++ ((fun e => (i, e)) <$> pre')) in *.
      destruct (modify_renamed f P y n n1 s i) as (n2&fl&Hmod&Hren2); [by apply (wf_nodes _ _ Hwf y)|done|done|by apply Hnz; rewrite Hni| |].
      { intros fld k l x e Hfld Hxl Hil Hin. eapply Hcol; [exact Hn|exact Hfld|done|done| |by rewrite Hni]. apply Hdom. unfold P in Hin. apply elem_of_app in Hin as [Hin|Hin].
        - apply elem_pairs_of in Hin as [Hin _]. rewrite Hm, fmap_app, elem_of_app. by left.
        - apply elem_of_list_fmap in Hin as (?&Heq&_). injection Heq as -> _. rewrite Hm, fmap_app, elem_of_app. right. left. }
      rewrite Hfi in Hmod. apply wp_bind, wp_lift; [|by rewrite Hmod]. rewrite Hmod. intros ? [= <-]. apply wp_put.
      rewrite fmap_app, app_assoc. cbn [fmap list_fmap]. change (pairs_of (g_back g) pre ++ ((fun e => (i, e)) <$> pre')) with P.
      assert (forall k, arena_get (arena_set a1 y' n2) k = if decide (k = y') then Some n2 else arena_get a1 k) as Hget.
      { intros k. eapply arena_set_get. done. }
      split.
      - apply arena_set_ok, Ha1.
      - intros k. rewrite arena_set_dispatch. apply Ha1.
      - intros y2 m2 Hm2. rewrite Hget. case_decide as Heq.
        + assert (y2 = y) as -> by (apply Hinj; [by rewrite Hm2|by rewrite Hn|congruence]). assert (m2 = n) as -> by congruence. eauto.
        + destruct (re_some _ _ _ _ _ Ha1 y2 m2 Hm2) as (m2'&Hm2'&Hr2). exists m2'. split; [done|].
          eapply node_renamed_ext; [|exact Hr2]. intros fld lv p x _ _. symmetry. apply ren_snoc_ne.
          intros Hc. apply Heq. assert (y2 = y) by congruence. congruence.
      - intros k Hk. rewrite Hget, decide_False; [by apply Ha1|]. rewrite <- Hfy. apply Hk. by rewrite Hn. }
    unfold wp in Hwp. destruct (switch_relabel (g_back g) m a0) as [a []|]; [|done]. eauto.
  Qed.

  (** ** The renaming as a function of the graph and the counter *)
  (** a node keeps its place in the iteration order: the [k]-th node gets the [k]-th new index *)
  Definition new_index g (c : idx) (x : idx) : idx :=
    match list_find (fun kv : idx * node D => kv.1 = x) (graph_iter g) with
    | Some (k, _) => (c + 1 + N.of_nat k)%N
    | None => x
    end.
  (** no index of a set field is the new index of another one *)
  Definition sets_apart g (c : idx) : Prop :=
    forall y n fld k l x i, graph_get g y = Some n -> nlinks n !! fld = Some (LSet k l) -> x ∈ l -> i ∈ l ->
      is_Some (graph_get g x) -> is_Some (graph_get g i) -> new_index g c x = i -> x = i.
  (** links to indices without a node do not start to hit a node *)
  Definition dangling_apart g (c : idx) : Prop :=
    forall y n l x, graph_get g y = Some n -> has_link n l x -> graph_get g x = None ->
      ~ (c < x <= c + N.of_nat (length (graph_iter g)))%N.

  Lemma switch_map_eq (l : list (idx * node D)) c : NoDup l.*1 -> switch_map l c [] = imap (fun k kv => (kv.1, newix c k)) l.
  Proof.
    intros Hnd. unfold switch_map.
    assert (forall (L m : list (idx * idx)), NoDup (m ++ L).*1 -> fold_left (fun m ij => omap_insert ij.1 ij.2 m) L m = m ++ L) as Hf.
    { induction L as [|[i j] L IH]; intros m Hn; cbn; [by rewrite app_nil_r|].
      rewrite omap_insert_fresh.
      - rewrite IH; rewrite <- app_assoc; done.
      - rewrite fmap_app in Hn. apply NoDup_app in Hn as (_&Hn&_). intros Hin. apply (Hn i Hin). left. }
    rewrite Hf; [done|]. cbn. rewrite fmap_imap. replace (imap _ l) with l.*1; [done|].
    clear. induction l as [|kv l IH]; cbn; [done|]. f_equal. done.
  Qed.

  Lemma find_index (l : list (idx * node D)) k i n : NoDup l.*1 -> l !! k = Some (i, n) -> list_find (fun kv => kv.1 = i) l = Some (k, (i, n)).
  Proof.
    intros Hnd Hk. apply list_find_Some. split; [done|]. split; [done|]. intros j [i' n'] Hj Hlt Heq. cbn in Heq. subst i'.
    assert (j = k); [|lia]. eapply NoDup_lookup; [exact Hnd|..]; rewrite list_lookup_fmap.
    - by rewrite Hj. - by rewrite Hk.
  Qed.

  Lemma new_index_at T g c x n : graph_of E T g -> graph_get g x = Some n ->
    exists k, graph_iter g !! k = Some (x, n) /\ new_index g c x = newix c k.
  Proof.
    intros Hg Hx. destruct (graph_of_ok E _ _ Hg) as (Hwf&_). apply (arena_get_items E) in Hx; [|apply Hwf].
    change (arena_items (g_nodes g)) with (graph_iter g) in Hx. apply elem_of_list_lookup in Hx as [k Hk].
    exists k. split; [done|]. unfold new_index. rewrite (find_index _ k x n); [done| |done]. apply (arena_items_NoDup E), Hwf.
  Qed.
  Lemma new_index_range T g c x : graph_of E T g -> is_Some (graph_get g x) ->
    (c < new_index g c x <= c + N.of_nat (length (graph_iter g)))%N.
  Proof.
    intros Hg [n Hx]. destruct (new_index_at T g c x n Hg Hx) as (k&Hk&->). apply lookup_lt_Some in Hk. unfold newix. lia.
  Qed.
  Lemma new_index_inj T g c x x' : graph_of E T g -> is_Some (graph_get g x) -> is_Some (graph_get g x') ->
    new_index g c x = new_index g c x' -> x = x'.
  Proof.
    intros Hg [n Hx] [n' Hx']. destruct (new_index_at T g c x n Hg Hx) as (k&Hk&->), (new_index_at T g c x' n' Hg Hx') as (k'&Hk'&->).
    unfold newix. intros Heq. assert (k = k') as -> by lia. congruence.
  Qed.

  Lemma final_switch T g ctx c : graph_of E T g -> answered E g ->
    (c + N.of_nat (length (graph_iter g)) < usize_mod)%N -> sets_apart g c -> dangling_apart g c ->
    match switch_context E g ctx c with
    | Done c' g' => c' = (c + N.of_nat (length (graph_iter g)))%N /\ g_ctx g' = ctx /\
        (forall x n, graph_get g x = Some n -> exists n', graph_get g' (new_index g c x) = Some n' /\ node_renamed (fun _ _ => new_index g c) n n') /\
        (forall j, is_Some (graph_get g' j) -> exists x, is_Some (graph_get g x) /\ j = new_index g c x)
    | Panicked p _ => p = PLinkType /\ exists x y nx ny l, graph_get g x = Some nx /\ graph_get g y = Some ny /\ has_link nx l y /\ e_chk E (nvar ny) l = false
    end.
  Proof.
    intros Hg Hans Hroom Hsets Hdang. destruct (graph_of_ok E _ _ Hg) as (Hwf&_).
    assert (forall i n, (i, n) ∈ graph_iter g <-> graph_get g i = Some n) as Hit.
    { intros i n. symmetry. apply (arena_get_items E), Hwf. }
    assert (NoDup (graph_iter g).*1) as Hnd by apply (arena_items_NoDup E), Hwf.
    unfold switch_context. change (arena_items (g_nodes g)) with (graph_iter g). set (l := graph_iter g) in *.
    destruct (switch_insert_spec E l [] c (arena_new E)) as (a1&->&Hin); [apply arena_new_ok|by apply arena_items_ok|done|by intros j [? ?]|].
    rewrite switch_map_eq by done. set (m := imap (fun k (kv : idx * node D) => (kv.1, newix c k)) l).
    assert (m.*1 = l.*1) as Hm1.
    { unfold m. rewrite fmap_imap. clear. induction l as [|kv l IH]; cbn; [done|]. f_equal. done. }
    assert (forall k i n, l !! k = Some (i, n) -> new_index g c i = newix c k /\ omap_get i m = Some (newix c k)) as Hnew.
    { intros k i n Hk. split; [unfold new_index; by rewrite (find_index _ k i n)|].
      apply omap_get_NoDup; [by rewrite Hm1|]. unfold m. apply elem_of_lookup_imap. by exists k, (i, n). }
    assert (forall x, relabel_of m x = new_index g c x) as Hrel.
    { intros x. unfold relabel_of. destruct (omap_get x m) as [j|] eqn:Hx.
      - apply omap_get_elem in Hx. unfold m in Hx. apply elem_of_lookup_imap in Hx as (k&[i n]&Heq&Hk). cbn in Heq. injection Heq as -> ->.
        by rewrite (proj1 (Hnew k i n Hk)).
      - apply omap_get_None in Hx. rewrite Hm1 in Hx. unfold new_index. destruct (list_find _ (graph_iter g)) as [[k [i n]]|] eqn:Hf; [|done].
        apply list_find_Some in Hf as (Hk&Heq&_). cbn in Heq. subst i. destruct Hx. apply elem_of_list_fmap. exists (x, n). split; [done|]. by eapply elem_of_list_lookup_2. }
    assert (forall x n, graph_get g x = Some n -> exists k, l !! k = Some (x, n) /\ new_index g c x = newix c k) as Hpos.
    { intros x n Hx. apply Hit, elem_of_list_lookup in Hx as [k Hk]. exists k. split; [done|]. by eapply Hnew. }
    assert (forall x, graph_get g x = None -> new_index g c x = x) as Hout.
    { intros x Hx. rewrite <- Hrel. unfold relabel_of. destruct (omap_get x m) as [j|] eqn:Hj; [|done].
      apply omap_get_Some_key in Hj. rewrite Hm1 in Hj. apply elem_of_list_fmap in Hj as ([i n]&->&Hin'%Hit). cbn in Hx. congruence. }
    assert (forall x x', is_Some (graph_get g x) -> is_Some (graph_get g x') -> new_index g c x = new_index g c x' -> x = x') as Hinj.
    { intros x x' [n Hx] [n' Hx']. destruct (Hpos x n Hx) as (k&Hk&->), (Hpos x' n' Hx') as (k'&Hk'&->).
      unfold newix. intros Heq. assert (k = k') as -> by lia. congruence. }
    destruct (switch_relabel_spec g m a1 Hwf) as (a2&Ha2&Hre).
    { intros x. rewrite Hm1, elem_of_list_fmap. split.
      - intros ([i n]&->&Hx%Hit). cbn. by rewrite Hx.
      - intros [n Hx%Hit]. by exists (x, n). }
    { by rewrite Hm1. }
    { intros x x' Hx Hx'. rewrite !Hrel. by apply Hinj. }
    { intros y n fld k sl x i Hy Hf Hx Hi Hgx Hgi. rewrite Hrel. by eapply Hsets. }
    { intros x [n Hx]. rewrite Hrel. destruct (Hpos x n Hx) as (k&_&->). unfold newix. lia. }
    { split; [apply Hin|done|..].
      - intros y n Hy. rewrite Hrel. destruct (Hpos y n Hy) as (k&Hk&->). exists n. split; [by eapply in_new|].
        eapply node_renamed_ext; [|eapply node_renamed_refl, (wf_nodes _ _ Hwf y n Hy)]. intros fld lv p x _ _. unfold ren. rewrite decide_False; [done|]. apply not_elem_of_nil.
      - intros j Hj. destruct (in_old _ _ _ _ _ Hin j) as [-> _]; [|done]. intros k Hk ->.
        destruct (lookup_lt_is_Some_2 l k Hk) as [[i n] Hl]. destruct (Hj i) as [].
        + exists n. apply Hit. by eapply elem_of_list_lookup_2. + rewrite Hrel. symmetry. by eapply Hnew. }
    (* the arena after relabelling is the renamed graph *)
    assert (forall x n, graph_get g x = Some n -> exists n', arena_get a2 (new_index g c x) = Some n' /\ node_renamed (fun _ _ => new_index g c) n n') as Hsome.
    { intros x n Hx. destruct (re_some _ _ _ _ _ Hre x n Hx) as (n'&Hn'&Hr'). rewrite Hrel in Hn'. exists n'. split; [done|].
      eapply node_renamed_ext; [|exact Hr']. intros fld lv p y Hlv Hat. unfold ren. rewrite Hrel. case_decide as Hin'; [done|].
      symmetry. destruct (graph_get g y) as [ny|] eqn:Hy; [|by apply Hout]. destruct Hin'. apply elem_pairs_of.
      assert (y <> 0%N) as Hy0. { intros ->. by rewrite (wf_zero _ _ Hwf) in Hy. }
      split; [rewrite Hm1; apply elem_of_list_fmap; exists (y, ny); split; [done|by apply Hit]|].
      apply (wf_b2 _ _ Hwf x n); [done|]. split; [done|]. cbn. rewrite Hlv. destruct lv, p; cbn in Hat; try done. }
    assert (forall j n', arena_get a2 j = Some n' -> exists x n, graph_get g x = Some n /\ j = new_index g c x /\ node_renamed (fun _ _ => new_index g c) n n') as Honly.
    { intros j n' Hj.
      destruct (decide (Exists (fun kv : idx * node D => j = new_index g c kv.1) l)) as [He|He].
      - apply Exists_exists in He as ([x n]&Hx%Hit&->). cbn in *. exists x, n. split; [done|]. split; [done|].
        destruct (Hsome x n Hx) as (n2&Hn2&Hr2). by assert (n2 = n') as -> by congruence.
      - rewrite (re_none _ _ _ _ _ Hre) in Hj; [done|]. intros y [n Hy] ->. apply He, Exists_exists. exists (y, n).
        split; [by apply Hit|]. by rewrite Hrel. }
    assert (forall j n, arena_get a1 j = Some n -> node_ok E n) as Hok1.
    { intros j n Hj. destruct (decide (Exists (fun k => j = newix c k) (seq 0 (length l)))) as [He|Hne].
      - apply Exists_exists in He as (k&Hk&->). apply elem_of_seq in Hk. destruct (lookup_lt_is_Some_2 l k) as [[i n0] Hl]; [lia|].
        destruct (in_new _ _ _ _ _ Hin k i n0 Hl) as [Hg1 _]. assert (n0 = n) as -> by congruence.
        apply (wf_nodes _ _ Hwf i). apply Hit. by eapply elem_of_list_lookup_2.
      - destruct (in_old _ _ _ _ _ Hin j) as [Heq _].
        + intros k Hk ->. apply Hne, Exists_exists. exists k. split; [|done]. apply elem_of_seq. lia.
        + rewrite Heq in Hj. by rewrite arena_new_get in Hj. }
    pose proof (switch_relabel_shape E (g_back g) m a1 (in_ok _ _ _ _ _ Hin) Hok1) as Hsh.
    unfold wp in Hsh. rewrite Ha2 in Hsh |- *.
    assert (forall x n, arena_get a2 x = Some n -> node_ok E n /\ x <> 0%N) as Hok2.
    { intros j n Hj. split.
      - destruct (arena_get a1 j) as [n1|] eqn:Hj1.
        + destruct (sh_some _ _ _ Hsh j n1 Hj1) as (n2&Hg2&_&Hk). by assert (n2 = n) as -> by congruence.
        + rewrite (sh_none _ _ _ Hsh) in Hj by done. done.
      - destruct (Honly j n Hj) as (x&nx&Hx&->&_). destruct (Hpos x nx Hx) as (k&_&->). unfold newix. lia. }
    assert (new_index g c 0%N = 0%N) as Hz. { apply Hout, Hwf. }
    assert (forall x, new_index g c x = 0%N -> x = 0%N) as Hz'.
    { intros x Hx. destruct (graph_get g x) as [n|] eqn:Hgx; [|by rewrite Hout in Hx].
      destruct (Hpos x n Hgx) as (k&_&Hk). rewrite Hk in Hx. unfold newix in Hx. lia. }
    (* a link of the renamed graph between two of its nodes is a renamed link between two nodes *)
    assert (forall x y nx ny l0, arena_get a2 x = Some nx -> arena_get a2 y = Some ny -> has_link nx l0 y ->
      exists x0 y0 nx0 ny0, graph_get g x0 = Some nx0 /\ graph_get g y0 = Some ny0 /\ x = new_index g c x0 /\ y = new_index g c y0 /\
        has_link nx0 l0 y0 /\ nvar ny = nvar ny0 /\ node_renamed (fun _ _ => new_index g c) ny0 ny) as Hback.
    { intros x y nx ny l0 Hx Hy Hl. destruct (Honly x nx Hx) as (x0&nx0&Hx0&->&Hrx), (Honly y ny Hy) as (y0&ny0&Hy0&->&Hry).
      exists x0, y0, nx0, ny0. split; [done|]. split; [done|]. split; [done|]. split; [done|].
      split; [|split; [apply Hry|done]].
      apply (node_renamed_link _ _ _ _ _ Hz Hz' Hrx) in Hl as (y1&Hl&Heq).
      destruct (graph_get g y1) as [ny1|] eqn:Hy1.
      - by assert (y0 = y1) as -> by (apply Hinj; [by rewrite Hy0|by rewrite Hy1|done]).
      - rewrite (Hout y1 Hy1) in Heq. destruct (Hdang x0 nx0 l0 y1 Hx0 Hl Hy1).
        destruct (Hpos y0 ny0 Hy0) as (k&Hk&Hk'). apply lookup_lt_Some in Hk. fold l. rewrite <- Heq, Hk'. unfold newix. lia. }
    destruct (merge_nodes_adds E a2 (graph_new E ctx) lcr_new eq_refl) as (g1&r&Hm&Hadd).
    { intros x y l0 Hin'. by apply elem_of_nil in Hin'. }
    pose proof (merged_spec E ctx a2 (fun _ _ => False) (re_ok _ _ _ _ _ Hre) Hok2) as Hmg. unfold wp in Hmg. rewrite Hm in Hmg.
    rewrite (rebuild_noop E ctx a2 g1 r Hm Hmg).
    2:{ intros x y l0 ny Hin' [nx Hx] Hy Hbd. apply Hadd in Hin' as (n&Hn&Hl).
      apply (arena_get_items E) in Hn; [|apply (re_ok _ _ _ _ _ Hre)].
      pose proof Hy as Hy2. rewrite (mg_get _ _ _ _ _ Hmg) in Hy2.
      destruct (Hback x y n ny l0 Hn Hy2 Hl) as (x0&y0&nx0&ny0&Hx0&Hy0&->&->&Hl0&Hv&Hry).
      destruct (Hans x0 y0 nx0 ny0 l0 Hx0 Hy0 Hl0) as (k&Hk&Hlk).
      - destruct (match_bd ny (e_opp E l0)) as [|k ks] eqn:Hb; [done|]. exists k.
        assert (k ∈ match_bd ny (e_opp E l0)) as Hk by (rewrite Hb; left). apply elem_match_bd in Hk. by rewrite <- Hv.
      - exists k. assert (has_link ny k (new_index g c x0)) as Hlk'. { apply (node_renamed_link _ _ _ _ _ Hz Hz' Hry). eauto. }
        split; [|by exists ny]. apply elem_match_bd. split; [done|]. symmetry. apply Hlk'. }
    pose proof (check_link_type_spec E r g1) as Hck.
    destruct (check_link_type E r g1) as [g2 []|p g2].
    - destruct Hck as [-> _]. split; [done|]. split; [apply Hmg|]. split.
      + intros x n Hx. destruct (Hsome x n Hx) as (n'&Hn'&Hr'). exists n'. by rewrite (mg_get _ _ _ _ _ Hmg).
      + intros j [n' Hj]. rewrite (mg_get _ _ _ _ _ Hmg) in Hj. destruct (Honly j n' Hj) as (x&n&Hx&->&_). eauto.
    - destruct Hck as (_&->&x&y&l0&ny&Hin'&Hy&Hchk). split; [done|]. apply Hadd in Hin' as (n&Hn&Hl).
      apply (arena_get_items E) in Hn; [|apply (re_ok _ _ _ _ _ Hre)]. rewrite (mg_get _ _ _ _ _ Hmg) in Hy.
      destruct (Hback x y n ny l0 Hn Hy Hl) as (x0&y0&nx0&ny0&Hx0&Hy0&->&->&Hl0&Hv&_).
      exists x0, y0, nx0, ny0, l0. rewrite <- Hv. done.
  Qed.
End switch.
