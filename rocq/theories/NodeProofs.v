(** * Facts about single nodes *)
From Verif Require Export Spec.

Lemma set_iter_perm ho k l : set_iter ho k l ≡ₚ l.
Proof. destruct k as [[] h]; cbn; try done. by case_decide. Qed.

Lemma sorted_insert_perm x l : sorted_insert x l ≡ₚ x :: l.
Proof.
  induction l as [|y r IH]; cbn; [done|]. destruct (x <? y)%N; [done|].
  rewrite IH. apply Permutation_swap.
Qed.

Lemma set_insert_elem k x y l : y ∈ set_insert k x l <-> y = x \/ y ∈ l.
Proof.
  unfold set_insert. case_decide; [naive_solver|].
  destruct k as [[] h]; cbn; rewrite ?elem_of_app, ?elem_of_list_singleton, ?sorted_insert_perm, ?elem_of_cons;
    naive_solver.
Qed.
Lemma set_insert_NoDup k x l : NoDup l -> NoDup (set_insert k x l).
Proof.
  intros Hnd. unfold set_insert. case_decide; [done|].
  assert (NoDup (x :: l)) by by apply NoDup_cons.
  assert (NoDup (l ++ [x])) by by rewrite <- Permutation_cons_append.
  destruct k as [[] h]; cbn; try done. by rewrite sorted_insert_perm.
Qed.
Lemma set_remove_elem k x y l : NoDup l -> y ∈ set_remove k x l <-> y <> x /\ y ∈ l.
Proof. intros. destruct k as [[] h]; cbn; rewrite ?oset_shift_elem; [done..|]. by apply oset_del_elem. Qed.
Lemma set_remove_NoDup k x l : NoDup l -> NoDup (set_remove k x l).
Proof. intros. destruct k as [[] h]; cbn; auto using oset_shift_NoDup, oset_del_NoDup. Qed.
Lemma set_remove_notin k x l : x ∉ l -> set_remove k x l = l.
Proof.
  intros Hx. assert (oset_shift x l = l).
  { unfold oset_shift. induction l as [|y l IH]; cbn; [done|].
    apply not_elem_of_cons in Hx as [? ?]. cbn. rewrite decide_True by done. f_equal. by apply IH. }
  destruct k as [[] h]; cbn; try done. by apply oset_del_notin.
Qed.

Lemma sorted_insert_sorted x l : x ∉ l -> StronglySorted N.lt l -> StronglySorted N.lt (sorted_insert x l).
Proof.
  intros Hx H. induction H as [|y r Hs IH HF]; cbn; [repeat constructor|].
  apply not_elem_of_cons in Hx as [Hxy Hx]. destruct (N.ltb_spec x y).
  - constructor; [by constructor|]. constructor; [done|]. eapply Forall_impl; [exact HF|]. intros z Hz. cbn in Hz. lia.
  - constructor; [by apply IH|]. rewrite sorted_insert_perm. constructor; [lia|done].
Qed.
Lemma filter_sorted (P : idx -> Prop) `{forall x, Decision (P x)} l : StronglySorted N.lt l -> StronglySorted N.lt (filter P l).
Proof.
  induction 1 as [|y r Hs IH HF]; [constructor|]. rewrite filter_cons. case_decide; [|done]. constructor; [done|].
  apply Forall_forall. intros z [_ Hz]%elem_of_list_filter. rewrite Forall_forall in HF. by apply HF.
Qed.
Lemma set_rep_nd k l : set_rep k l -> NoDup l.
Proof. by intros []. Qed.
Lemma set_insert_rep k x l : set_rep k l -> set_rep k (set_insert k x l).
Proof.
  intros [Hnd Hs]. split; [by apply set_insert_NoDup|]. intros Hk. specialize (Hs Hk). unfold set_insert. rewrite Hk.
  case_decide; [done|]. by apply sorted_insert_sorted.
Qed.
Lemma set_remove_rep k x l : set_rep k l -> set_rep k (set_remove k x l).
Proof.
  intros [Hnd Hs]. split; [by apply set_remove_NoDup|]. intros Hk. specialize (Hs Hk). unfold set_remove. rewrite Hk.
  by apply filter_sorted.
Qed.

Section node.
  Context {D : Type}.
  Implicit Types (n : node D) (E : env).

  (** [s] is a source of [n] holding [y] *)
  Definition src_val n (s : source) (y : idx) : Prop :=
    nvar n = s_var s /\
    match nlinks n !! s_fld s, s_pos s with
    | Some (LDirect i), None => i = y /\ y <> 0%N
    | Some (LSet _ l), None => y ∈ l
    | Some (LVec l), Some p => l !! p = Some y /\ y <> 0%N
    | _, _ => False
    end.

  Lemma elem_concat_imap {A B} (f : nat -> A -> list B) (l : list A) b :
    b ∈ concat (imap f l) <-> exists i a, l !! i = Some a /\ b ∈ f i a.
  Proof.
    revert f. induction l as [|a l IH]; intros f; cbn.
    - split; [inversion 1|]. by intros (i&a&[=]&_).
    - rewrite elem_of_app, IH. split.
      + intros [H|(i&a'&Hl&H)]; [by exists 0, a|by exists (S i), a'].
      + intros ([|i]&a'&Hl&H); [left; by injection Hl as ->|right; eauto].
  Qed.

  Lemma elem_field_sources E v f lv y s :
    (y, s) ∈ field_sources E v f lv <->
      s_var s = v /\ s_fld s = f /\
      match lv, s_pos s with
      | LDirect i, None => i = y /\ y <> 0%N
      | LSet _ l, None => y ∈ l
      | LVec l, Some p => l !! p = Some y /\ y <> 0%N
      | _, _ => False
      end.
  Proof.
    destruct s as [sv sf sp]. destruct lv as [i|k l|l]; cbn.
    - destruct (N.eqb_spec i 0).
      + split; [inversion 1|]. intros (_&_&H). destruct sp; [done|]. naive_solver.
      + rewrite elem_of_list_singleton. destruct sp; naive_solver.
    - rewrite elem_of_list_fmap. setoid_rewrite set_iter_perm. destruct sp; naive_solver.
    - rewrite elem_concat_imap. split.
      + intros (p&i&Hl&Hin). destruct (N.eqb_spec i 0); [inversion Hin|].
        apply elem_of_list_singleton in Hin. naive_solver.
      + intros (->&->&H). destruct sp as [p|]; [|done]. destruct H as [Hl Hy].
        exists p, y. split; [done|]. destruct (N.eqb_spec y 0); [done|].
        by apply elem_of_list_singleton.
  Qed.

  Lemma elem_iter_sources E n y s : (y, s) ∈ iter_sources E n <-> src_val n s y.
  Proof.
    unfold iter_sources, src_val. rewrite elem_concat_imap.
    setoid_rewrite elem_field_sources. split.
    - intros (f&lv&Hl&<-&<-&H). split; [done|]. rewrite Hl. by destruct lv.
    - intros [Hv H]. destruct (nlinks n !! s_fld s) as [lv|] eqn:Hl; [|done].
      exists (s_fld s), lv. split; [done|]. split; [done|]. split; [done|]. by destruct lv.
  Qed.

  Lemma NoDup_concat_imap {A B} (f : nat -> A -> list B) (l : list A) :
    (forall i a, l !! i = Some a -> NoDup (f i a)) ->
    (forall i j a a' b, l !! i = Some a -> l !! j = Some a' -> b ∈ f i a -> b ∈ f j a' -> i = j) ->
    NoDup (concat (imap f l)).
  Proof.
    revert f. induction l as [|a l IH]; intros f H1 H2; cbn; [constructor|].
    apply NoDup_app. split; [by apply (H1 0)|]. split.
    - intros b Hb Hin. apply elem_concat_imap in Hin as (j&a'&Hl&Hj). cbn in Hj.
      by specialize (H2 0 (S j) a a' b eq_refl Hl Hb Hj).
    - apply IH.
      + intros i a' Hl. by apply (H1 (S i)).
      + intros i j a1 a2 b Hi Hj Hb1 Hb2. cbn in Hb1, Hb2.
        specialize (H2 (S i) (S j) a1 a2 b Hi Hj Hb1 Hb2). lia.
  Qed.

  Lemma node_ok_lookup E n f lv :
    node_ok E n -> nlinks n !! f = Some lv ->
    exists ks, e_kinds E !! nvar n = Some ks /\ ks !! f = Some (kind_of lv) /\ linkval_ok (kind_of lv) lv.
  Proof.
    intros (ks&Hk&HF) Hl. exists ks. split; [done|].
    destruct (Forall2_lookup_r _ _ _ _ _ HF Hl) as (k&Hk'&[Hkd Hnd]).
    subst k. split; [done|]. split; done.
  Qed.

  Lemma node_ok_rep E n f k l : node_ok E n -> nlinks n !! f = Some (LSet k l) -> set_rep k l.
  Proof. intros Hok Hl. by destruct (node_ok_lookup _ _ _ _ Hok Hl) as (?&_&_&_&?). Qed.
  Lemma node_ok_set E n f k l : node_ok E n -> nlinks n !! f = Some (LSet k l) -> NoDup l.
  Proof. intros Hok Hl. by eapply set_rep_nd, node_ok_rep. Qed.

  Lemma iter_sources_NoDup E n : node_ok E n -> NoDup (iter_sources E n).
  Proof.
    intros Hok. apply NoDup_concat_imap.
    - intros f lv Hl. destruct lv as [i|k l|l]; cbn.
      + destruct (i =? 0)%N; [constructor|apply NoDup_singleton].
      + apply NoDup_fmap_2; [intros ?? [=]; done|]. rewrite set_iter_perm.
        by eapply node_ok_set.
      + apply NoDup_concat_imap.
        * intros p i _. destruct (i =? 0)%N; [constructor|apply NoDup_singleton].
        * intros p q i j b _ _ H1 H2. destruct (i =? 0)%N; [inversion H1|].
          destruct (j =? 0)%N; [inversion H2|].
          apply elem_of_list_singleton in H1, H2. congruence.
    - intros i j a a' [y s] _ _ H1 H2.
      apply elem_field_sources in H1 as (_&<-&_), H2 as (_&<-&_). done.
  Qed.

  (** ** Links and sources *)
  Lemma src_val_has_link n s y : y <> 0%N -> src_val n s y -> has_link n (src_link s) y.
  Proof.
    intros Hy [Hv H]. split; [done|]. split; [done|]. cbn.
    destruct (nlinks n !! s_fld s) as [lv|]; [|done]. exists lv. split; [done|].
    destruct lv, (s_pos s); try done; cbn.
    - destruct H as [-> _]. by apply elem_of_list_singleton.
    - destruct H as [Hp _]. by eapply elem_of_list_lookup_2.
  Qed.
  Lemma has_link_src_val n l y : has_link n l y -> exists s, src_link s = l /\ src_val n s y.
  Proof.
    intros (Hy&Hv&lv&Hl&Hin). destruct l as [v f]; cbn in *. subst v.
    destruct lv as [i|k l|l]; cbn in Hin.
    - apply elem_of_list_singleton in Hin as ->. exists (Src (nvar n) f None).
      split; [done|]. split; [done|]. cbn. by rewrite Hl.
    - exists (Src (nvar n) f None). split; [done|]. split; [done|]. cbn. by rewrite Hl.
    - apply elem_of_list_lookup in Hin as [p Hp]. exists (Src (nvar n) f (Some p)).
      split; [done|]. split; [done|]. cbn. by rewrite Hl.
  Qed.
  Lemma has_link_iff n l y :
    has_link n l y <-> y <> 0%N /\ exists s, src_link s = l /\ src_val n s y.
  Proof.
    split.
    - intros H. split; [apply H|by apply has_link_src_val].
    - intros (Hy&s&<-&H). by apply src_val_has_link.
  Qed.

  (** ** Redirecting an arbitrary set [P] of sources *)
  Definition lv_partial (P : source -> bool) (old new : idx) (v f : nat) (lv : linkval) : linkval :=
    match lv with
    | LDirect i => LDirect (if P (Src v f None) then new else i)
    | LSet k l =>
      if P (Src v f None) then
        if decide (new = 0%N) then LSet k (set_remove k old l)
        else LSet k (set_insert k new (set_remove k old l))
      else LSet k l
    | LVec l => LVec (imap (fun p i => if P (Src v f (Some p)) then new else i) l)
    end.
  Definition node_partial (P : source -> bool) (old new : idx) n : node D :=
    Node (nvar n) (imap (lv_partial P old new (nvar n)) (nlinks n)) (ndata n).

  Lemma node_partial_none P old new n :
    (forall s, s_var s = nvar n -> P s = false) -> node_partial P old new n = n.
  Proof.
    intros HP. destruct n as [v ls d]. unfold node_partial. cbn in *. f_equal.
    apply list_eq. intros f. rewrite list_lookup_imap.
    destruct (ls !! f) as [lv|]; cbn; [|done]. f_equal.
    destruct lv; cbn; rewrite ?HP by done; try done. f_equal.
    apply list_eq. intros p. rewrite list_lookup_imap.
    destruct (l !! p); cbn; [|done]. by rewrite HP.
  Qed.

  Lemma node_partial_ext P P' old new n :
    (forall s, s_var s = nvar n -> P s = P' s) -> node_partial P old new n = node_partial P' old new n.
  Proof.
    intros HP. unfold node_partial. f_equal. apply imap_ext. intros f lv Hl.
    destruct lv; cbn; rewrite ?HP by done; try done. f_equal.
    apply imap_ext. intros p i Hp. by rewrite HP.
  Qed.

  (** the step of [modify_link] *)
  Lemma modify_link_partial E P old new n s :
    node_ok E n -> P s = false -> src_val n s old -> old <> 0%N -> old <> new ->
    exists removed added,
      modify_link (node_partial P old new n) s old new =
        Ok (node_partial (fun s' => bool_decide (s' = s) || P s') old new n, (removed, added)) /\
      (s_pos s = None ->
        removed = true /\ (added = true <-> new <> 0%N /\ ~ has_link n (src_link s) new)).
  Proof.
    intros Hok HP [Hv H] Hold Hne. destruct n as [v ls d]. cbn in *. subst v.
    destruct s as [v f p]. cbn in *.
    unfold modify_link. cbn. rewrite decide_True by done. rewrite list_lookup_imap.
    destruct (ls !! f) as [lv|] eqn:Hl; cbn; [|done].
    assert (forall lv', lv_partial (fun s' => bool_decide (s' = Src v f p) || P s') old new v f lv = lv' ->
      set_field (Node v (imap (lv_partial P old new v) ls) d) f lv' =
      node_partial (fun s' => bool_decide (s' = Src v f p) || P s') old new (Node v ls d)) as Hset.
    { intros lv' Hlv'. unfold set_field, node_partial. cbn. f_equal. apply list_eq. intros f'.
      destruct (decide (f' = f)) as [->|Hf].
      - rewrite list_lookup_insert by (rewrite imap_length; by eapply lookup_lt_Some).
        rewrite list_lookup_imap, Hl. cbn. by rewrite Hlv'.
      - rewrite list_lookup_insert_ne by done. rewrite !list_lookup_imap.
        destruct (ls !! f') as [lv2|]; cbn; [|done]. f_equal.
        assert (forall q, bool_decide (Src v f' q = Src v f p) = false) as Hb.
        { intros q. apply bool_decide_eq_false. by intros [= ? ?]. }
        destruct lv2; cbn; rewrite ?Hb; try done. f_equal. apply imap_ext.
        intros q i _. cbn. by rewrite Hb. }
    destruct lv as [i|k l|l], p as [p|]; try done; cbn.
    - destruct H as [-> _]. rewrite HP. do 2 eexists. split.
      + f_equal. f_equal. apply Hset. cbn. by rewrite bool_decide_true.
      + intros _. destruct (N.eqb_spec old new); [done|]. destruct (N.eqb_spec old 0); [done|].
        cbn. split; [done|]. destruct (N.eqb_spec new 0); cbn; [naive_solver|].
        split; [|done]. intros _. split; [done|]. intros (_&_&lv&Hlv&Hin). cbn in Hlv, Hin.
        rewrite Hl in Hlv. injection Hlv as <-. cbn in Hin.
        apply elem_of_list_singleton in Hin. by subst.
    - rewrite HP. assert (NoDup l) as Hnd by by eapply (node_ok_set _ _ _ _ _ Hok).
      destruct (N.eqb_spec new 0) as [->|Hn0]; cbn.
      + do 2 eexists. split.
        * f_equal. f_equal. apply Hset. cbn. rewrite bool_decide_true by done. by cbn.
        * intros _. rewrite bool_decide_true by done. split; [done|]. naive_solver.
      + do 2 eexists. split.
        * f_equal. f_equal. apply Hset. cbn. rewrite bool_decide_true by done. cbn.
          by rewrite decide_False.
        * intros _. rewrite (bool_decide_true (old ∈ l)) by done. split; [done|].
          rewrite negb_true_iff, bool_decide_eq_false, set_remove_elem by done.
          unfold has_link. cbn. rewrite Hl. split.
          -- intros Hn. split; [done|]. intros (_&_&lv&[= <-]&Hin). naive_solver.
          -- intros [_ Hn] [_ Hin]. naive_solver.
    - destruct H as [Hp _]. rewrite list_lookup_imap, Hp. cbn. rewrite HP.
      do 2 eexists. split; [|done].
      f_equal. f_equal. apply Hset. cbn. f_equal. apply list_eq. intros q.
      rewrite list_lookup_imap. destruct (decide (q = p)) as [->|Hq].
      + rewrite list_lookup_insert by (rewrite imap_length; by eapply lookup_lt_Some).
        rewrite Hp. cbn. by rewrite bool_decide_true.
      + rewrite list_lookup_insert_ne by done. rewrite list_lookup_imap.
        destruct (l !! q); cbn; [|done]. rewrite bool_decide_false; [done|]. by intros [= ?].
  Qed.

  Lemma node_partial_redirect P old new n :
    old <> 0%N -> (forall s, P s = true <-> src_val n s old) ->
    node_partial P old new n = node_redirect old new n.
  Proof.
    intros Hold HP. unfold node_partial, node_redirect. f_equal.
    apply list_eq. intros f. rewrite list_lookup_imap, list_lookup_fmap.
    destruct (nlinks n !! f) as [lv|] eqn:Hl; cbn; [|done]. f_equal.
    assert (forall (Q : Prop) (dec : Decision Q) s,
      (src_val n s old <-> Q) -> P s = bool_decide Q) as HPb.
    { intros Q dec s HQ. apply Bool.eq_iff_eq_true. by rewrite HP, bool_decide_eq_true. }
    destruct lv as [i|k l|l]; cbn.
    - rewrite (HPb (i = old) _).
      + f_equal. repeat case_decide; case_bool_decide; done.
      + unfold src_val. cbn. rewrite Hl. naive_solver.
    - rewrite (HPb (old ∈ l) _).
      + repeat case_decide; repeat case_bool_decide; done.
      + unfold src_val. cbn. rewrite Hl. naive_solver.
    - f_equal. apply list_eq. intros p. rewrite list_lookup_imap, list_lookup_fmap.
      destruct (l !! p) as [i|] eqn:Hp; cbn; [|done]. rewrite (HPb (i = old) _).
      + repeat case_decide; case_bool_decide; done.
      + unfold src_val. cbn. rewrite Hl, Hp. naive_solver.
  Qed.

  (** sources after a redirection *)
  Lemma src_val_redirect E old new n s y :
    node_ok E n -> old <> 0%N -> old <> new ->
    src_val (node_redirect old new n) s y <->
      (src_val n s y /\ y <> old) \/ (y = new /\ new <> 0%N /\ src_val n s old).
  Proof.
    intros Hok Hold Hne. unfold src_val. cbn. rewrite list_lookup_fmap.
    destruct (nlinks n !! s_fld s) as [lv|] eqn:Hl; cbn; [|naive_solver].
    destruct lv as [i|k l|l], (s_pos s) as [p|]; cbn; try naive_solver.
    - case_decide; naive_solver.
    - case_decide as Ho; [case_decide|]; naive_solver.
    - assert (NoDup l) as Hnd by by eapply node_ok_set.
      case_decide; [case_decide|]; rewrite ?set_insert_elem, ?set_remove_elem by done; naive_solver.
    - rewrite list_lookup_fmap. destruct (l !! p) as [i|]; cbn; [|naive_solver].
      case_decide; naive_solver.
  Qed.

  Lemma node_redirect_ok E old new n : node_ok E n -> node_ok E (node_redirect old new n).
  Proof.
    intros (ks&Hk&HF). exists ks. split; [done|]. cbn. apply Forall2_fmap_r.
    eapply Forall2_impl; [exact HF|]. intros k lv [Hkd Hnd]. split.
    - destruct lv; cbn in *; [done| |done]. by repeat case_decide.
    - destruct lv; cbn; [done| |done].
      repeat case_decide; auto using set_insert_rep, set_remove_rep.
  Qed.
  Lemma node_partial_ok E P old new n : node_ok E n -> node_ok E (node_partial P old new n).
  Proof.
    intros (ks&Hk&HF). exists ks. split; [done|]. cbn.
    apply Forall2_same_length_lookup. split.
    { rewrite imap_length. by eapply Forall2_length. }
    intros f k lv Hf Hlv. rewrite list_lookup_imap in Hlv.
    destruct (nlinks n !! f) as [lv0|] eqn:Hl; cbn in Hlv; [|done]. injection Hlv as <-.
    destruct (Forall2_lookup_lr _ _ _ _ _ _ HF Hf Hl) as [Hkd Hnd]. split.
    - destruct lv0; cbn in *; [done| |done]. by repeat case_match.
    - destruct lv0; cbn; [done| |done].
      repeat case_match; simplify_eq; auto using set_insert_rep, set_remove_rep.
  Qed.
  Lemma node_redirect_none E old new n :
    node_ok E n -> old <> 0%N -> (forall s, ~ src_val n s old) -> node_redirect old new n = n.
  Proof.
    intros Hok Hold Hn. rewrite <- (node_partial_redirect (fun _ => false)).
    - by apply node_partial_none.
    - done.
    - intros s. split; [done|]. intros H. by destruct (Hn s).
  Qed.
  Lemma has_link_redirect E old new n l y :
    node_ok E n -> old <> 0%N -> old <> new ->
    has_link (node_redirect old new n) l y <->
      (has_link n l y /\ y <> old) \/ (y = new /\ new <> 0%N /\ has_link n l old).
  Proof.
    intros Hok Ho Hne. rewrite !has_link_iff.
    setoid_rewrite (src_val_redirect E); [|done..]. naive_solver.
  Qed.

  (** links of a partially redirected node, for fields that are not Vec *)
  Lemma has_link_partial E (P : source -> bool) old new n l z :
    node_ok E n -> old <> 0%N -> old <> new ->
    (forall s, P s = true -> src_val n s old) ->
    (e_kinds E !! l_var l ≫= (fun ks => ks !! l_fld l) <> Some KVec) ->
    has_link (node_partial P old new n) l z <->
      if P (Src (l_var l) (l_fld l) None)
      then (has_link n l z /\ z <> old) \/ (z = new /\ new <> 0%N)
      else has_link n l z.
  Proof.
    intros Hok Hold Hne HP Hnv. unfold has_link. cbn. rewrite list_lookup_imap.
    destruct l as [v f]. cbn in *.
    assert (P (Src v f None) = true -> src_val n (Src v f None) old) as Hsv by apply HP.
    destruct (decide (nvar n = v)) as [<-|Hv].
    2:{ destruct (P (Src v f None)); [|clear -Hv; naive_solver]. by destruct Hsv as [? _]. }
    destruct (nlinks n !! f) as [lv|] eqn:Hl; cbn.
    2:{ destruct (P (Src (nvar n) f None)); [|clear; naive_solver].
        destruct Hsv as [_ Hsv]; [done|]. cbn in Hsv. by rewrite Hl in Hsv. }
    assert (forall lv', (exists lv0 : linkval, Some lv' = Some lv0 /\ z ∈ lv_elems lv0) <-> z ∈ lv_elems lv') as Hex.
    { intros lv'. split; [by intros (?&[= <-]&?)|eauto]. }
    rewrite Hex. destruct lv as [i|k ls|ls]; cbn.
    - destruct (P (Src (nvar n) f None)) eqn:HPs.
      + destruct Hsv as [_ Hsv]; [done|]. cbn in Hsv. rewrite Hl in Hsv. destruct Hsv as [-> _].
        rewrite !Hex. cbn. rewrite !elem_of_list_singleton. clear -Hne. naive_solver.
      + by rewrite Hex.
    - assert (NoDup ls) as Hnd by by eapply node_ok_set.
      destruct (P (Src (nvar n) f None)) eqn:HPs; [|by rewrite Hex].
      rewrite Hex. cbn. clear Hsv HP Hok Hnv Hex.
      case_decide; cbn; rewrite ?set_insert_elem, ?set_remove_elem by done; naive_solver.
    - destruct (node_ok_lookup _ _ _ _ Hok Hl) as (ks&Hks&Hk&_).
      rewrite Hks in Hnv. cbn in Hnv. by rewrite Hk in Hnv.
  Qed.

  (** A non-Vec source is determined by its link. *)
  Definition nonvec E (l : link) : Prop :=
    e_kinds E !! l_var l ≫= (fun ks => ks !! l_fld l) <> Some KVec.
  Lemma src_nonvec E n s y :
    node_ok E n -> src_val n s y -> nonvec E (src_link s) <-> s_pos s = None.
  Proof.
    intros Hok [Hv H]. unfold nonvec. cbn.
    destruct (nlinks n !! s_fld s) as [lv|] eqn:Hl; [|done].
    destruct (node_ok_lookup _ _ _ _ Hok Hl) as (ks&Hks&Hk&_).
    rewrite <- Hv, Hks. cbn. rewrite Hk.
    destruct lv, (s_pos s); cbn in *; naive_solver.
  Qed.
  Lemma src_link_inj s s' : s_pos s = None -> s_pos s' = None -> src_link s = src_link s' -> s = s'.
  Proof. destruct s, s'; cbn. intros -> -> [= -> ->]. done. Qed.
End node.
