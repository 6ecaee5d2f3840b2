(** * Facts about arenas *)
From Verif Require Export Arena NodeProofs.

Section arena.
  Context {D : Type} (E : env).
  Implicit Types (a b : arena D) (n : node D) (i : idx).

  (** The representation invariant: unique keys, one container per variant, and
      what a container holds is dispatched to it. *)
  Definition arena_ok a : Prop :=
    NoDup (a_disp a).*1 /\
    length (a_cont a) = length (e_kinds E) /\
    forall d c, a_cont a !! d = Some c ->
      NoDup c.*1 /\ forall i n, (i, n) ∈ c -> arena_dispatch a i = Some d.

  Lemma cont_lookup a d c : a_cont a !! d = Some c -> cont a d = c.
  Proof. unfold cont. by intros ->. Qed.
  Lemma cont_get_lookup a d i n : omap_get i (cont a d) = Some n -> a_cont a !! d = Some (cont a d).
  Proof. unfold cont. by destruct (a_cont a !! d). Qed.
  Lemma arena_ok_cont a d : arena_ok a -> NoDup (cont a d).*1.
  Proof.
    intros (_&_&H). unfold cont. destruct (a_cont a !! d) as [c|] eqn:Hc; cbn; [|constructor].
    by apply (H d c).
  Qed.

  Lemma arena_get_inv a i n :
    arena_get a i = Some n ->
    exists d, arena_dispatch a i = Some d /\ a_cont a !! d = Some (cont a d) /\
              omap_get i (cont a d) = Some n.
  Proof.
    unfold arena_get. destruct (arena_dispatch a i) as [d|]; [|done].
    intros H. exists d. split; [done|]. split; [by eapply cont_get_lookup|done].
  Qed.
  Lemma arena_get_dispatch a i n : arena_get a i = Some n -> is_Some (arena_dispatch a i).
  Proof. intros (d&?&_)%arena_get_inv. eauto. Qed.

  Lemma arena_contains_get a i : arena_contains a i = true <-> is_Some (arena_get a i).
  Proof.
    unfold arena_contains, arena_get. destruct (arena_dispatch a i) as [d|].
    - destruct (omap_get i (cont a d)); [by split; eauto|]. split; [done|]. by intros [? ?].
    - split; [done|]. by intros [? ?].
  Qed.
  Lemma arena_contains_false a i : arena_contains a i = false <-> arena_get a i = None.
  Proof.
    rewrite <- not_true_iff_false, arena_contains_get, <- eq_None_not_Some. done.
  Qed.

  Lemma arena_get_cont a i n d :
    arena_ok a -> (i, n) ∈ cont a d -> arena_get a i = Some n /\ arena_dispatch a i = Some d.
  Proof.
    intros (Hd&Hl&Hc) Hin. unfold cont in Hin.
    destruct (a_cont a !! d) as [c|] eqn:Hcd; cbn in Hin; [|inversion Hin].
    destruct (Hc d c Hcd) as [Hnd Hdisp]. specialize (Hdisp i n Hin).
    split; [|done]. unfold arena_get. rewrite Hdisp, (cont_lookup _ _ _ Hcd).
    by apply omap_get_NoDup.
  Qed.

  Lemma arena_cont_dispatch a i n d :
    arena_ok a -> (i, n) ∈ cont a d -> arena_dispatch a i = Some d.
  Proof. intros Hok Hin. by destruct (arena_get_cont _ _ _ _ Hok Hin). Qed.

  Lemma elem_arena_items a i n : (i, n) ∈ arena_items a <-> exists d, (i, n) ∈ cont a d.
  Proof.
    unfold arena_items, cont. split.
    - intros H. apply elem_of_list_In, in_concat in H as (c&Hc&Hin).
      apply elem_of_list_In in Hc, Hin. apply elem_of_list_lookup in Hc as [d Hd].
      exists d. by rewrite Hd.
    - intros (d&H). destruct (a_cont a !! d) as [c|] eqn:Hc; cbn in H; [|inversion H].
      apply elem_of_list_In, in_concat. exists c. split; [|by apply elem_of_list_In].
      apply elem_of_list_In. by eapply elem_of_list_lookup_2.
  Qed.

  Lemma arena_get_items a i n :
    arena_ok a -> arena_get a i = Some n <-> (i, n) ∈ arena_items a.
  Proof.
    intros Hok. rewrite elem_arena_items. split.
    - intros (d&_&_&Hg)%arena_get_inv. exists d. by apply omap_get_elem.
    - intros (d&Hin). by eapply arena_get_cont.
  Qed.

  Lemma arena_items_NoDup a : arena_ok a -> NoDup (arena_items a).*1.
  Proof.
    intros (Hd&Hl&Hc). unfold arena_items. clear Hl.
    assert (forall k l, (forall d c, l !! d = Some c -> a_cont a !! (k + d) = Some c) ->
              NoDup (concat l).*1) as Hgen.
    { intros k l. revert k. induction l as [|c l IH]; intros k Hk; cbn; [constructor|].
      rewrite fmap_app. apply NoDup_app. split.
      { by apply (Hc (k + 0) c), Hk. }
      split.
      - intros i Hi Hi'. apply elem_of_list_fmap in Hi as ([i1 n1]&->&H1). cbn in Hi'.
        apply elem_of_list_fmap in Hi' as ([i2 n2]&Heq&H2). cbn in Heq. subst i2.
        apply elem_of_list_In, in_concat in H2 as (c'&Hc'&Hin).
        apply elem_of_list_In in Hc', Hin. apply elem_of_list_lookup in Hc' as [d Hd'].
        destruct (Hc (k + 0) c) as [_ Hx]; [by apply Hk|]. apply Hx in H1.
        destruct (Hc (k + S d) c') as [_ Hy]; [by apply Hk|]. apply Hy in Hin.
        rewrite H1 in Hin. injection Hin. lia.
      - apply (IH (S k)). intros d c' Hd'. specialize (Hk (S d) c' Hd').
        by rewrite Nat.add_succ_r in Hk. }
    by apply (Hgen 0).
  Qed.

  Lemma arena_len_items a : arena_len a = length (arena_items a).
  Proof.
    unfold arena_len, arena_items. induction (a_cont a) as [|c l IH]; cbn; [done|].
    rewrite app_length. by f_equal.
  Qed.

  (** ** new *)
  Lemma arena_new_ok : arena_ok (arena_new E).
  Proof.
    split; [constructor|]. split; [apply replicate_length|]. cbn.
    intros d c Hc. apply lookup_replicate in Hc as [-> _]. split; [constructor|]. inversion 1.
  Qed.
  Lemma arena_new_get i : arena_get (arena_new (D:=D) E) i = None.
  Proof. done. Qed.
  Lemma arena_new_items : arena_items (arena_new (D:=D) E) = [].
  Proof. unfold arena_items, arena_new. cbn. by induction (length (e_kinds E)). Qed.

  (** ** replacing a node in place *)
  Lemma cont_set_cont a d c d' :
    d < length (a_cont a) -> cont (set_cont a d c) d' = if decide (d' = d) then c else cont a d'.
  Proof.
    intros Hd. unfold cont, set_cont. cbn. case_decide as H.
    - subst. by rewrite list_lookup_insert.
    - by rewrite list_lookup_insert_ne.
  Qed.
  Lemma set_cont_dispatch a d c i : arena_dispatch (set_cont a d c) i = arena_dispatch a i.
  Proof. done. Qed.
  Lemma set_cont_lookup a d c d' c' :
    a_cont (set_cont a d c) !! d' = Some c' ->
    (d' = d /\ c' = c) \/ (d' <> d /\ a_cont a !! d' = Some c').
  Proof.
    cbn. intros H. destruct (decide (d' = d)) as [->|Hne].
    - left. split; [done|]. assert (d < length (a_cont a)).
      { apply lookup_lt_Some in H. by rewrite insert_length in H. }
      rewrite list_lookup_insert in H by done. congruence.
    - right. by rewrite list_lookup_insert_ne in H.
  Qed.

  Lemma arena_set_dispatch a i n j : arena_dispatch (arena_set a i n) j = arena_dispatch a j.
  Proof. unfold arena_set. by destruct (arena_dispatch a i). Qed.
  Lemma arena_set_get a i n0 n j :
    arena_get a i = Some n0 ->
    arena_get (arena_set a i n) j = if decide (j = i) then Some n else arena_get a j.
  Proof.
    intros (d&Hd&Hc&Hg)%arena_get_inv. unfold arena_set. rewrite Hd.
    unfold arena_get. rewrite set_cont_dispatch. apply lookup_lt_Some in Hc.
    case_decide as Hj.
    - subst j. rewrite Hd, cont_set_cont, decide_True by done. apply omap_get_insert_eq.
    - destruct (arena_dispatch a j) as [d'|]; [|done]. rewrite cont_set_cont by done.
      case_decide; [subst|done]. by rewrite omap_get_insert_ne.
  Qed.
  Lemma arena_set_ok a i n : arena_ok a -> arena_ok (arena_set a i n).
  Proof.
    intros Hok. pose proof Hok as (Hd&Hl&Hc). unfold arena_set. destruct (arena_dispatch a i) as [d|] eqn:Hi; [|done].
    split; [done|]. split; [cbn; by rewrite insert_length|].
    intros d' c' [[-> ->]|[Hne Hl']]%set_cont_lookup; [|by apply Hc].
    assert (NoDup (cont a d).*1) as Hnd by by apply arena_ok_cont.
    split; [by apply omap_insert_NoDup|].
    intros j m Hin. apply omap_insert_elem in Hin as [[-> _]|[_ Hin]]; [done| |done].
    by eapply (arena_cont_dispatch a).
  Qed.

  (** ** removal *)
  Lemma arena_remove_result a i : (arena_remove a i).2 = arena_get a i.
  Proof. unfold arena_remove, arena_get. by destruct (arena_dispatch a i). Qed.
  Lemma arena_remove_dispatch a i j :
    arena_ok a ->
    arena_dispatch (arena_remove a i).1 j = if decide (j = i) then None else arena_dispatch a j.
  Proof.
    intros (Hd&_&_). unfold arena_remove. destruct (arena_dispatch a i) as [d|] eqn:Hi; cbn.
    - unfold arena_dispatch. cbn. by apply omap_get_del.
    - case_decide; [by subst|done].
  Qed.
  Lemma arena_remove_get a i j :
    arena_ok a ->
    arena_get (arena_remove a i).1 j = if decide (j = i) then None else arena_get a j.
  Proof.
    intros Hok. unfold arena_get at 1. rewrite arena_remove_dispatch by done.
    case_decide as Hj; [done|]. unfold arena_get.
    destruct (arena_dispatch a j) as [d'|] eqn:Hdj; [|done].
    unfold arena_remove. destruct (arena_dispatch a i) as [d|] eqn:Hi; cbn; [|done].
    destruct (decide (d < length (a_cont a))) as [Hlt|Hge].
    - rewrite (cont_set_cont (set_disp a _)) by done. cbn.
      case_decide as Hdd; [subst d'|done].
      rewrite omap_get_del by by apply arena_ok_cont. by rewrite decide_False.
    - unfold cont, set_cont. cbn. rewrite list_insert_ge by lia. done.
  Qed.
  Lemma arena_remove_ok a i : arena_ok a -> arena_ok (arena_remove a i).1.
  Proof.
    intros Hok. pose proof Hok as (Hd&Hl&Hc). unfold arena_remove.
    destruct (arena_dispatch a i) as [d|] eqn:Hi; cbn; [|done].
    split; [by apply omap_del_NoDup|]. split; [cbn; by rewrite insert_length|].
    assert (forall j d0, j <> i -> arena_dispatch a j = Some d0 ->
      arena_dispatch (set_cont (set_disp a (omap_del i (a_disp a))) d (omap_del i (cont a d))) j = Some d0) as Hdisp.
    { intros j d0 Hj Hdj. unfold arena_dispatch. cbn.
      rewrite omap_get_del by done. by rewrite decide_False. }
    intros d' c' [[-> ->]|[Hne Hl']]%set_cont_lookup.
    - assert (NoDup (cont a d).*1) as Hnd by by apply arena_ok_cont.
      split; [by apply omap_del_NoDup|]. intros j m Hin.
      assert (NoDup (omap_del i (cont a d)).*1) as Hnd' by by apply omap_del_NoDup.
      apply (omap_get_NoDup _ _ _ Hnd') in Hin. rewrite omap_get_del in Hin by done.
      case_decide; [done|]. apply Hdisp; [done|].
      apply omap_get_elem in Hin. by eapply (arena_cont_dispatch a).
    - destruct (Hc d' c' Hl') as [Hnd Hx]. split; [done|]. intros j m Hin.
      apply Hdisp; [|by eapply Hx]. intros ->. apply Hx in Hin. congruence.
  Qed.

  (** ** merging *)
  Definition arena_disj a b : Prop :=
    forall i, is_Some (arena_dispatch b i) -> arena_dispatch a i = None.

  Lemma arena_merge_dispatch a b i :
    arena_ok b ->
    arena_dispatch (arena_merge a b) i =
      match arena_dispatch b i with Some d => Some d | None => arena_dispatch a i end.
  Proof. intros (Hd&_&_). unfold arena_dispatch. cbn. by apply omap_get_append. Qed.
  Lemma arena_merge_cont a b d :
    length (a_cont a) = length (a_cont b) ->
    cont (arena_merge a b) d = omap_append (cont a d) (cont b d).
  Proof.
    intros Hl. unfold cont, arena_merge. cbn. rewrite lookup_zip_with.
    destruct (a_cont a !! d) as [c|] eqn:H1; cbn.
    - apply lookup_lt_Some in H1. destruct (a_cont b !! d) eqn:H2; cbn; [done|].
      apply lookup_ge_None in H2. lia.
    - apply lookup_ge_None in H1. destruct (a_cont b !! d) eqn:H2; cbn; [|done].
      apply lookup_lt_Some in H2. lia.
  Qed.
  Lemma arena_merge_cont_disj a b d :
    arena_ok a -> arena_ok b -> arena_disj a b ->
    cont (arena_merge a b) d = cont a d ++ cont b d.
  Proof.
    intros Ha Hb Hdis. rewrite arena_merge_cont by (destruct Ha as (_&->&_), Hb as (_&->&_); done).
    apply omap_append_disjoint; [by apply arena_ok_cont|].
    intros k Hk Hk'. apply elem_of_list_fmap in Hk as ([k1 n1]&->&H1).
    apply elem_of_list_fmap in Hk' as ([k2 n2]&Heq&H2). cbn in *. subst k2.
    apply (arena_get_cont _ _ _ _ Hb) in H1 as [_ H1].
    apply (arena_get_cont _ _ _ _ Ha) in H2 as [_ H2].
    rewrite Hdis in H2; [done|by eexists].
  Qed.
  Lemma arena_merge_ok a b : arena_ok a -> arena_ok b -> arena_disj a b -> arena_ok (arena_merge a b).
  Proof.
    intros Ha Hb Hdis. pose proof Ha as (Hda&Hla&_). pose proof Hb as (Hdb&Hlb&_).
    split; [by apply omap_append_NoDup|]. split; [cbn; rewrite zip_with_length; lia|].
    intros d c Hc. apply cont_lookup in Hc as <-.
    rewrite arena_merge_cont_disj by done. split.
    - rewrite fmap_app. apply NoDup_app. split; [by apply arena_ok_cont|].
      split; [|by apply arena_ok_cont].
      intros k Hk Hk'. apply elem_of_list_fmap in Hk as ([k1 n1]&->&H1).
      apply elem_of_list_fmap in Hk' as ([k2 n2]&Heq&H2). cbn in *. subst k2.
      apply (arena_get_cont _ _ _ _ Ha) in H1 as [_ H1].
      apply (arena_get_cont _ _ _ _ Hb) in H2 as [_ H2].
      rewrite Hdis in H1; [done|by eexists].
    - intros i n Hin. rewrite arena_merge_dispatch by done.
      apply elem_of_app in Hin as [Hin|Hin].
      + apply (arena_get_cont _ _ _ _ Ha) in Hin as [_ Hin].
        destruct (arena_dispatch b i) eqn:Hbi; [|done]. rewrite Hdis in Hin; [done|by eexists].
      + apply (arena_get_cont _ _ _ _ Hb) in Hin as [_ Hin]. by rewrite Hin.
  Qed.
  Lemma arena_merge_get a b i :
    arena_ok a -> arena_ok b -> arena_disj a b ->
    arena_get (arena_merge a b) i =
      match arena_get b i with Some n => Some n | None => arena_get a i end.
  Proof.
    intros Ha Hb Hdis. assert (Hm := arena_merge_ok a b Ha Hb Hdis).
    apply option_eq. intros n. rewrite (arena_get_items _ _ _ Hm), elem_arena_items.
    setoid_rewrite (arena_merge_cont_disj a b _ Ha Hb Hdis). setoid_rewrite elem_of_app. split.
    - intros (d&[Hin|Hin]).
      + apply (arena_get_cont _ _ _ _ Ha) in Hin as [Hg Hin].
        destruct (arena_get b i) eqn:Hbi; [|done].
        apply arena_get_dispatch in Hbi. by rewrite Hdis in Hin.
      + apply (arena_get_cont _ _ _ _ Hb) in Hin as [-> _]. done.
    - destruct (arena_get b i) as [n'|] eqn:Hbi; intros Hn.
      + injection Hn as ->. apply (arena_get_items _ _ _ Hb), elem_arena_items in Hbi as [d ?]. eauto.
      + apply (arena_get_items _ _ _ Ha), elem_arena_items in Hn as [d ?]. eauto.
  Qed.

  (** ** taking a node out and putting the result of a function back *)
  Lemma arena_update_wp a i f (Q : unit -> arena D -> Prop) (R : panic -> arena D -> Prop) :
    arena_ok a ->
    (forall n n' a', arena_get a i = Some n -> f n = Ok n' -> arena_ok a' ->
       (forall j, arena_dispatch a' j = arena_dispatch a j) ->
       (forall j, arena_get a' j = if decide (j = i) then Some n' else arena_get a j) ->
       Q tt a') ->
    (forall p a', (arena_get a i = None \/ exists n, arena_get a i = Some n /\ f n = Err p) -> R p a') ->
    wp (arena_update_with i f) a Q R.
  Proof.
    intros Hok HQ HR. unfold arena_update_with.
    apply wp_bind, wp_get. apply wp_bind, wp_unwrap; [|intros Hn].
    2:{ apply HR. left. unfold arena_get. by rewrite Hn. }
    intros d Hd. apply wp_bind, wp_unwrap; [|intros Hn].
    2:{ apply HR. left. unfold arena_get. by rewrite Hd. }
    intros x Hx. apply wp_bind, wp_put. apply wp_bind, wp_lift.
    - intros x' Hf. apply wp_bind, wp_get. apply wp_put.
      assert (Hc := cont_get_lookup _ _ _ _ Hx). assert (Hlt := lookup_lt_Some _ _ _ Hc).
      rewrite cont_set_cont, decide_True by done.
      assert (NoDup (cont a d).*1) as Hnd by by apply arena_ok_cont.
      apply (HQ x x'); [by unfold arena_get; rewrite Hd|done| | |].
      + pose proof Hok as (Hdd&Hl&Hcc). split; [done|].
        split; [cbn; by rewrite !insert_length|].
        intros d' c' [[-> ->]|[Hne Hl']]%set_cont_lookup.
        * split; [by apply omap_insert_NoDup, omap_del_NoDup|]. intros j m Hin.
          apply omap_insert_elem in Hin as [[-> _]|[Hj Hin]]; [done| |by apply omap_del_NoDup].
          apply omap_get_NoDup in Hin; [|by apply omap_del_NoDup].
          rewrite omap_get_del, decide_False in Hin by done.
          apply omap_get_elem in Hin. by eapply (arena_cont_dispatch a).
        * cbn in Hl'. rewrite list_lookup_insert_ne in Hl' by done. by apply Hcc.
      + done.
      + intros j. unfold arena_get. rewrite !set_cont_dispatch.
        case_decide as Hj.
        * subst j. rewrite Hd, cont_set_cont, decide_True; [apply omap_get_insert_eq|done|].
          cbn. by rewrite insert_length.
        * destruct (arena_dispatch a j) as [d'|]; [|done].
          rewrite cont_set_cont by (cbn; by rewrite insert_length).
          case_decide as Hdd; [subst d'|].
          -- rewrite omap_get_insert_ne, omap_get_del, decide_False by done. done.
          -- by rewrite cont_set_cont, decide_False by done.
    - intros p Hf. apply HR. right. exists x. split; [|done]. unfold arena_get. by rewrite Hd.
  Qed.
End arena.
