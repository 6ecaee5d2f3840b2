(** * Allocation, insertion, filling, deserialization and iteration of arenas *)
From Verif Require Export ArenaProofs.

Lemma dist_alloc_ok dbg c : (c + 1 < usize_mod)%N -> dist_alloc dbg c = Done (c + 1)%N (c + 1)%N.
Proof.
  intros Hc. unfold dist_alloc. destruct (N.eqb_spec c (usize_mod - 1)) as [->|_].
  - exfalso. unfold usize_mod in Hc. vm_compute in Hc. done.
  - by rewrite N.mod_small.
Qed.

Section ops.
  Context {D : Type} (E : env).
  Implicit Types (a b : arena D) (n : node D) (i : idx).

  Lemma node_ok_var n : node_ok E n -> nvar n < length (e_kinds E).
  Proof. intros (ks&Hk&_). by apply lookup_lt_Some in Hk. Qed.
  Lemma arena_ok_none_cont a i d n : arena_ok E a -> arena_get a i = None -> (i, n) ∈ cont a d -> False.
  Proof. intros Hok Hn Hin. apply (arena_get_cont E) in Hin as [? _]; [congruence|done]. Qed.

  (** entering an index nobody holds a node under into the dispatcher *)
  Lemma set_disp_spec a i d :
    arena_ok E a -> arena_get a i = None ->
    let a' := set_disp a (omap_insert i d (a_disp a)) in
    arena_ok E a' /\
    (forall j, arena_dispatch a' j = if decide (j = i) then Some d else arena_dispatch a j) /\
    (forall j, arena_get a' j = arena_get a j) /\ (forall d', cont a' d' = cont a d').
  Proof.
    intros Hok Hi a'. pose proof Hok as (Hd&Hl&Hc).
    assert (forall j, arena_dispatch a' j = if decide (j = i) then Some d else arena_dispatch a j) as Hdisp.
    { intros j. unfold arena_dispatch, a'. cbn. apply omap_get_insert. }
    assert (forall d', cont a' d' = cont a d') as Hcont by done.
    split; [|split; [done|split; [|done]]].
    - split; [by apply omap_insert_NoDup|]. split; [done|]. intros d' c Hdc. destruct (Hc d' c Hdc) as [Hnd Hin].
      split; [done|]. intros j n Hjn. rewrite Hdisp. case_decide as Hj; [|by eapply Hin].
      subst j. exfalso. change (a_cont a !! d' = Some c) in Hdc. eapply (arena_ok_none_cont a i d' n); [done|done|]. by rewrite (cont_lookup _ _ _ Hdc).
    - intros j. unfold arena_get. rewrite Hdisp. case_decide as Hj; [subst j|done].
      change (omap_get i (cont a d) = arena_get a i). rewrite Hi.
      apply omap_get_None. intros Hin. apply elem_of_list_fmap in Hin as ([j n]&->&Hin).
      by eapply (arena_ok_none_cont a j d n).
  Qed.

  (** putting a node into the container its index is dispatched to *)
  Lemma cont_insert_spec p a d i n :
    arena_ok E a -> arena_get a i = None -> arena_dispatch a i = Some d -> d < length (e_kinds E) ->
    exists a', cont_insert p d i n a = Done a' tt /\ arena_ok E a' /\
      (forall j, arena_dispatch a' j = arena_dispatch a j) /\
      (forall j, arena_get a' j = if decide (j = i) then Some n else arena_get a j) /\
      (forall d', cont a' d' = if decide (d' = d) then cont a d ++ [(i, n)] else cont a d').
  Proof.
    intros Hok Hi Hdi Hlt. pose proof Hok as (Hd&Hl&Hc). rewrite <- Hl in Hlt.
    assert (omap_get i (cont a d) = None) as Hnone.
    { unfold arena_get in Hi. by rewrite Hdi in Hi. }
    unfold cont_insert. rewrite Hnone. eexists. split; [done|].
    assert (i ∉ (cont a d).*1) as Hni by by apply omap_get_None.
    rewrite omap_insert_fresh by done.
    assert (forall d', cont (set_cont a d (cont a d ++ [(i, n)])) d' =
      if decide (d' = d) then cont a d ++ [(i, n)] else cont a d') as Hcont.
    { intros d'. by apply cont_set_cont. }
    split; [|split; [done|split; [|done]]].
    - split; [done|]. split; [cbn; by rewrite insert_length|].
      intros d' c' [[-> ->]|[Hne Hl']]%set_cont_lookup; [|by apply Hc].
      split.
      + rewrite fmap_app. apply NoDup_app. split; [by apply (arena_ok_cont E)|]. split; [|apply NoDup_singleton].
        intros j Hj Hj'. apply elem_of_list_singleton in Hj' as ->. done.
      + intros j m Hin. rewrite set_cont_dispatch. apply elem_of_app in Hin as [Hin|Hin].
        * by eapply (arena_cont_dispatch E).
        * apply elem_of_list_singleton in Hin as [= -> ->]. done.
    - intros j. unfold arena_get. rewrite set_cont_dispatch. case_decide as Hj.
      + subst j. rewrite Hdi, Hcont, decide_True by done.
        rewrite <- omap_insert_fresh by done. apply omap_get_insert_eq.
      + destruct (arena_dispatch a j) as [d'|]; [|done]. rewrite Hcont. case_decide; [subst|done].
        rewrite <- omap_insert_fresh by done. by rewrite omap_get_insert_ne.
  Qed.

  (** a node added under index [i] with dispatcher entry [nvar n] *)
  Record arena_put a i n a' : Prop := {
    ap_ok : arena_ok E a';
    ap_disp : forall j, arena_dispatch a' j = if decide (j = i) then Some (nvar n) else arena_dispatch a j;
    ap_get : forall j, arena_get a' j = if decide (j = i) then Some n else arena_get a j;
    ap_cont : forall d, cont a' d = if decide (d = nvar n) then cont a d ++ [(i, n)] else cont a d }.

  Lemma arena_put_spec p a i n :
    arena_ok E a -> arena_get a i = None -> nvar n < length (e_kinds E) ->
    exists a', cont_insert p (nvar n) i n (set_disp a (omap_insert i (nvar n) (a_disp a))) = Done a' tt /\
      arena_put a i n a'.
  Proof.
    intros Hok Hi Hlt. destruct (set_disp_spec a i (nvar n) Hok Hi) as (Hok1&Hd1&Hg1&Hc1).
    set (a1 := set_disp a _) in *.
    destruct (cont_insert_spec p a1 (nvar n) i n) as (a'&->&Hok'&Hd'&Hg'&Hc'); [done| | |done|].
    - by rewrite Hg1.
    - rewrite Hd1. by rewrite decide_True.
    - exists a'. split; [done|]. split; [done|..].
      + intros j. by rewrite Hd'.
      + intros j. by rewrite Hg', Hg1.
      + intros d. rewrite Hc'. case_decide; [subst|]; by rewrite Hc1.
  Qed.

  Lemma arena_insert_spec c a n :
    arena_ok E a -> node_ok E n -> (c + 1 < usize_mod)%N -> arena_dispatch a (c + 1)%N = None ->
    exists a', arena_insert E n (c, a) = Done ((c + 1)%N, a') (c + 1)%N /\ arena_put a (c + 1)%N n a'.
  Proof.
    intros Hok Hn Hc Hd. unfold arena_insert, arena_alloc. rewrite dist_alloc_ok by done. rewrite Hd.
    destruct (arena_put_spec PInsertExists a (c + 1)%N n Hok) as (a'&->&Hput).
    - unfold arena_get. by rewrite Hd.
    - by apply node_ok_var.
    - by exists a'.
  Qed.

  Lemma arena_fill_back_spec a i n :
    arena_ok E a -> node_ok E n ->
    match arena_fill_back i n a with
    | Done a' _ => arena_dispatch a i = Some (nvar n) /\ arena_get a i = None /\ arena_put a i n a'
    | Panicked p a' => (arena_dispatch a i = None /\ p = PFillMissing /\ a' = a) \/
        (exists d, arena_dispatch a i = Some d /\ d <> nvar n /\ p = PFillType /\ a' = a) \/
        (arena_dispatch a i = Some (nvar n) /\ is_Some (arena_get a i) /\ p = PFillOccupied)
    end.
  Proof.
    intros Hok Hn. unfold arena_fill_back, bindM, getM, unwrapM.
    destruct (arena_dispatch a i) as [d|] eqn:Hd; cbn; [|by left].
    destruct (decide (nvar n = d)) as [<-|Hne].
    - destruct (arena_get a i) as [n0|] eqn:Hg.
      + unfold cont_insert. unfold arena_get in Hg. rewrite Hd in Hg. rewrite Hg. right. right. by eauto.
      + destruct (cont_insert_spec PFillOccupied a (nvar n) i n Hok Hg Hd (node_ok_var _ Hn)) as (a'&->&Hok'&Hd'&Hg'&Hc').
        split; [done|]. split; [done|]. split; [done|..].
        * intros j. rewrite Hd'. by case_decide; [subst|].
        * done.
        * intros d. rewrite Hc'. by case_decide; [subst|].
    - right. left. exists d. done.
  Qed.

  Lemma arena_fill_back_untyped_spec a i n :
    arena_ok E a -> node_ok E n -> arena_get a i = None ->
    exists a', arena_fill_back_untyped i n a = Done a' tt /\ arena_put a i n a'.
  Proof.
    intros Hok Hn Hg. unfold arena_fill_back_untyped, bindM, getM, putM.
    apply arena_put_spec; [done|done|by apply node_ok_var].
  Qed.

  Lemma arena_put_typed a i n a' : arena_put a i n a' ->
    (forall j m d, arena_get a j = Some m -> arena_dispatch a j = Some d -> nvar m = d) ->
    (forall j m d, arena_get a' j = Some m -> arena_dispatch a' j = Some d -> nvar m = d).
  Proof.
    intros Hp Ht j m d. rewrite (ap_get _ _ _ _ Hp), (ap_disp _ _ _ _ Hp). case_decide; [naive_solver|apply Ht].
  Qed.

  (** ** Building an arena from a list *)
  Lemma cont_new d : cont (arena_new (D:=D) E) d = [].
  Proof.
    unfold cont, arena_new. cbn. destruct (replicate _ _ !! d) as [c|] eqn:Hc; [|done].
    by apply lookup_replicate in Hc as [-> _].
  Qed.
  Record from_iter (l : list (idx * node D)) a : Prop := {
    fi_ok : arena_ok E a;
    fi_disp : forall j, arena_dispatch a j = nvar <$> omap_get j l;
    fi_get : forall j, arena_get a j = omap_get j l;
    fi_cont : forall d, cont a d = filter (fun kv => nvar kv.2 = d) l }.

  Lemma arena_new_from_iter_gen l :
    (forall i n, (i, n) ∈ l -> nvar n < length (e_kinds E)) ->
    match arena_new_from_iter E l with
    | Done a _ => NoDup l.*1 /\ from_iter l a
    | Panicked p _ => p = PDupIndex /\ ~ NoDup l.*1
    end.
  Proof.
    intros Hok. unfold arena_new_from_iter.
    set (body := fun '(i, n) => _).
    assert (wp (mfor l body) (arena_new E) (fun _ a => NoDup l.*1 /\ from_iter l a)
      (fun p _ => p = PDupIndex /\ ~ NoDup l.*1)) as Hwp; [|exact Hwp].
    apply (wp_mfor l body (fun P a => NoDup P.*1 /\ from_iter P a)).
    - split; [constructor|]. split; [apply arena_new_ok|done|done|]. intros d. by rewrite cont_new.
    - intros P [i n] post a Heq [Hnd Hfi].
      assert (nvar n < length (e_kinds E)) as Hn by (apply (Hok i); rewrite Heq, elem_of_app, elem_of_cons; auto).
      unfold body. apply wp_bind, wp_get, wp_bind, wp_put.
      destruct (arena_dispatch a i) as [d|] eqn:Hd.
      + apply wp_panic. split; [done|]. rewrite Heq, fmap_app, fmap_cons. cbn. intros Hnd2.
        apply NoDup_app in Hnd2 as (_&Hnot&_). apply (Hnot i); [|left].
        rewrite (fi_disp _ _ Hfi) in Hd. destruct (omap_get i P) eqn:Hg; [|done]. by eapply omap_get_Some_key.
      + assert (omap_get i P = None) as Hnone.
        { rewrite (fi_disp _ _ Hfi) in Hd. by destruct (omap_get i P). }
        assert (i ∉ P.*1) as Hni by by apply omap_get_None.
        destruct (arena_put_spec PDupIndex a i n (fi_ok _ _ Hfi)) as (a'&Ha'&Hput).
        * by rewrite (fi_get _ _ Hfi).
        * done.
        * unfold wp. rewrite Ha'. split.
          { rewrite fmap_app. apply NoDup_app. split; [done|]. split; [|apply NoDup_singleton].
            intros j Hj Hj'. apply elem_of_list_singleton in Hj' as ->. done. }
          assert (forall j, omap_get j (P ++ [(i, n)]) = if decide (j = i) then Some n else omap_get j P) as Hgj.
          { intros j. rewrite <- omap_insert_fresh by done. apply omap_get_insert. }
          split; [apply Hput|..].
          -- intros j. rewrite (ap_disp _ _ _ _ Hput), Hgj. case_decide; [done|apply Hfi].
          -- intros j. rewrite (ap_get _ _ _ _ Hput), Hgj. case_decide; [done|apply Hfi].
          -- intros d. rewrite (ap_cont _ _ _ _ Hput), filter_app, (fi_cont _ _ Hfi).
             rewrite filter_cons, filter_nil. cbn. case_decide as H1; case_decide as H2; try congruence; by rewrite ?app_nil_r.
  Qed.
  Lemma arena_new_from_iter_spec l :
    (forall i n, (i, n) ∈ l -> node_ok E n) ->
    match arena_new_from_iter E l with
    | Done a _ => NoDup l.*1 /\ from_iter l a
    | Panicked p _ => p = PDupIndex /\ ~ NoDup l.*1
    end.
  Proof. intros Hok. apply arena_new_from_iter_gen. intros i n Hin. by eapply node_ok_var, Hok. Qed.
  Lemma from_iter_typed l a : from_iter l a ->
    forall i n d, arena_get a i = Some n -> arena_dispatch a i = Some d -> nvar n = d.
  Proof.
    intros Hfi i n d. rewrite (fi_get _ _ Hfi), (fi_disp _ _ Hfi). intros ->. by intros [= <-].
  Qed.

  (** ** Iterators *)
  (** containers before the current one are used up *)
  Definition iter_ok (it : Arena.iter D) : Prop :=
    match it_state it with
    | None => concat (it_rest it) = []
    | Some d => forall d' c, d' < d -> it_rest it !! d' = Some c -> c = []
    end.

  Lemma concat_prefix_nil {A} (L : list (list A)) d :
    (forall d' c, d' < d -> L !! d' = Some c -> c = []) -> concat L = concat (drop d L).
  Proof.
    revert L. induction d as [|d IH]; intros L H; [done|]. destruct L as [|c L]; [done|].
    cbn. rewrite (H 0 c) by (done || lia). cbn. apply IH. intros d' c' Hd Hl. apply (H (S d') c'); [lia|done].
  Qed.

  Lemma iter_next_gen fuel (it : Arena.iter D) :
    iter_ok it ->
    match it_state it with None => 1 <= fuel | Some d => S (S (length (it_rest it) - d)) <= fuel end ->
    exists it', iter_next fuel it = Some (head (concat (it_rest it)), it') /\ iter_ok it' /\
      concat (it_rest it') = tail (concat (it_rest it)) /\
      (concat (it_rest it) = [] -> it_state it' = None).
  Proof.
    revert it. induction fuel as [|fuel IH]; intros [st L] Hok Hfuel; cbn in *.
    { destruct st; lia. }
    destruct st as [d|]; cbn in *.
    2:{ unfold iter_ok in Hok. cbn in Hok. rewrite Hok. exists (Iter None L). done. }
    unfold iter_ok in Hok. cbn in Hok. pose proof (concat_prefix_nil L d Hok) as Hcc.
    destruct (L !! d) as [[|kv c]|] eqn:HL.
    - assert (forall d' c', d' < S d -> L !! d' = Some c' -> c' = []) as Hok'.
      { intros d' c' Hd Hl. destruct (decide (d' = d)) as [->|Hne]; [congruence|]. apply (Hok d'); [lia|done]. }
      assert (Hlt := lookup_lt_Some _ _ _ HL).
      unfold disc_next. destruct (Nat.ltb_spec (S d) (length L)) as [Hs|Hs].
      + apply (IH (Iter (Some (S d)) L)); [done|cbn; lia].
      + assert (concat L = []) as Hnil.
        { rewrite (concat_prefix_nil L (S d) Hok'). rewrite drop_ge by lia. done. }
        apply (IH (Iter None L)); [done|cbn; lia].
    - assert (drop d L = (kv :: c) :: drop (S d) L) as Hdrop by by apply drop_S.
      rewrite Hcc, Hdrop. cbn. exists (Iter (Some d) (<[d:=c]> L)). split; [done|]. split; [|split; [|done]].
      + intros d' c' Hd. cbn. rewrite list_lookup_insert_ne by lia. by apply Hok.
      + cbn. assert (Hlt := lookup_lt_Some _ _ _ HL).
        rewrite (concat_prefix_nil (<[d:=c]> L) d).
        * rewrite (drop_S _ c d) by by apply list_lookup_insert. cbn. f_equal. rewrite drop_insert_gt by lia. done.
        * intros d' c' Hd. rewrite list_lookup_insert_ne by lia. by apply Hok.
    - apply lookup_ge_None in HL. unfold disc_next. destruct (Nat.ltb_spec (S d) (length L)) as [Hs|Hs]; [lia|].
      assert (concat L = []) as Hnil by (rewrite Hcc, drop_ge by done; done).
      apply (IH (Iter None L)); [done|cbn; lia].
  Qed.
  Lemma iter_next_spec (it : Arena.iter D) :
    iter_ok it ->
    exists it', iter_next (iter_fuel it) it = Some (head (concat (it_rest it)), it') /\ iter_ok it' /\
      concat (it_rest it') = tail (concat (it_rest it)) /\
      (concat (it_rest it) = [] -> it_state it' = None).
  Proof.
    intros Hok. apply iter_next_gen; [done|]. unfold iter_fuel. destruct (it_state it); lia.
  Qed.
  Lemma iter_start_ok a : iter_ok (iter_start a).
  Proof. unfold iter_ok, iter_start, disc_first. cbn. intros d0 c Hd. lia. Qed.
  Lemma iter_size_hint_spec (it : Arena.iter D) : iter_size_hint it = length (concat (it_rest it)).
  Proof.
    unfold iter_size_hint. destruct (it_rest it) as [|c L]; cbn; [done|].
    rewrite app_length. generalize (length c). clear c.
    induction L as [|c L IH]; intros k; cbn; [lia|]. rewrite IH, app_length. lia.
  Qed.

  (** calling [next] [k] times *)
  Fixpoint iter_steps (k : nat) (it : Arena.iter D) : option (list (option (idx * node D)) * Arena.iter D) :=
    match k with
    | O => Some ([], it)
    | S k' =>
      match iter_next (iter_fuel it) it with
      | None => None
      | Some (o, it') =>
        match iter_steps k' it' with None => None | Some (os, it'') => Some (o :: os, it'') end
      end
    end.
  Lemma iter_steps_spec k (it : Arena.iter D) :
    iter_ok it ->
    exists it', iter_steps k it =
      Some ((fun j => concat (it_rest it) !! j) <$> seq 0 k, it') /\ iter_ok it' /\
      concat (it_rest it') = drop k (concat (it_rest it)).
  Proof.
    revert it. induction k as [|k IH]; intros it Hok.
    - exists it. done.
    - destruct (iter_next_spec it Hok) as (it1&H1&Hok1&Hc1&_). cbn [iter_steps]. rewrite H1.
      destruct (IH it1 Hok1) as (it2&H2&Hok2&Hc2). rewrite H2. exists it2. split; [|split; [done|]].
      + f_equal. f_equal. cbn. f_equal; [by destruct (concat (it_rest it))|].
        rewrite <- fmap_S_seq, <- list_fmap_compose. apply list_fmap_ext. intros j x _. cbn.
        rewrite Hc1. by destruct (concat (it_rest it)).
      + rewrite Hc2, Hc1. by destruct (concat (it_rest it)); cbn; rewrite ?drop_nil.
  Qed.
  (** draining the iterator yields exactly [arena_items], and the size hint is exact throughout *)
  Lemma iter_drain_items a k :
    exists it, iter_steps k (iter_start a) = Some ((fun j => arena_items a !! j) <$> seq 0 k, it) /\
      iter_size_hint it = length (arena_items a) - k.
  Proof.
    destruct (iter_steps_spec k (iter_start a) (iter_start_ok a)) as (it&H&_&Hc).
    exists it. split; [exact H|]. rewrite iter_size_hint_spec, Hc, drop_length. done.
  Qed.
End ops.
