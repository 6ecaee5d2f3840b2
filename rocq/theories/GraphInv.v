(** * Graph invariants and the node-level phases of a commit *)
From Verif Require Export Graph ArenaProofs.

Section inv.
  Context {D : Type} (E : env).
  Implicit Types (g : graph D) (n : node D) (x y : idx) (s : source).
  Notation GM := (GM (D:=D)).

  Definition inback g y (e : idx * source) : Prop :=
    exists b, omap_get y (g_back g) = Some b /\ e ∈ b.
  Definition hasback g y : Prop := is_Some (omap_get y (g_back g)).
  Definition back_nd g : Prop :=
    NoDup (g_back g).*1 /\ forall y b, omap_get y (g_back g) = Some b -> NoDup b.

  (** Well-formed graphs: consistent arena, typed nodes, and the reverse index
      records exactly the sources of the nodes (the empty index excepted, whose
      entry may hold stale pairs). *)
  Record WF g : Prop := {
    wf_arena : arena_ok E (g_nodes g);
    wf_nodes : forall x n, graph_get g x = Some n -> node_ok E n;
    wf_zero : graph_get g 0%N = None;
    wf_nd : back_nd g;
    wf_b1 : forall x n, graph_get g x = Some n -> hasback g x;
    wf_b2 : forall x n s y, graph_get g x = Some n -> src_val n s y -> inback g y (x, s);
    wf_b3 : forall y x s, y <> 0%N -> inback g y (x, s) ->
              exists n, graph_get g x = Some n /\ src_val n s y }.

  Lemma inback_hasback g y e : inback g y e -> hasback g y.
  Proof. intros (b&Hb&_). by exists b. Qed.

  Definition glink g x y (l : link) : Prop := exists n, graph_get g x = Some n /\ has_link n l y.

  Lemma has_link_dec n l y : has_link n l y \/ ~ has_link n l y.
  Proof.
    unfold has_link. destruct (decide (y = 0%N)) as [->|Hy]; [right; naive_solver|].
    destruct (decide (nvar n = l_var l)); [|right; naive_solver].
    destruct (nlinks n !! l_fld l) as [lv|]; [|right; naive_solver].
    destruct (decide (y ∈ lv_elems lv)); [left; naive_solver|right; naive_solver].
  Qed.
  Lemma glink_dec g x y l : glink g x y l \/ ~ glink g x y l.
  Proof.
    unfold glink. destruct (graph_get g x) as [n|]; [|right; naive_solver].
    destruct (has_link_dec n l y); [left; eauto|right; naive_solver].
  Qed.

  Lemma wf_new ctx : WF (graph_new E ctx).
  Proof.
    split; try done.
    - apply arena_new_ok.
    - split; [constructor|done].
    - intros y x s _ (b&[=]&_).
  Qed.

  (** ** Pure effect on the change record *)
  Definition adds_fold x (L : list (idx * source)) (r : lcr) : lcr :=
    fold_left (fun r '(y, s) => lcr_add x y (src_link s) r) L r.
  Definition rems_fold x (L : list (idx * source)) (r : lcr) : lcr :=
    fold_left (fun r '(y, s) => lcr_rem x y (src_link s) r) L r.

  (** ** Exactness of the change record relative to a ghost relation [K] *)
  Record LC (r : lcr) (K0 K : idx -> idx -> link -> Prop) : Prop := {
    lc_nd_a : NoDup (lc_adds r);
    lc_nd_r : NoDup (lc_rems r);
    lc_dec : forall x y l, K0 x y l \/ ~ K0 x y l;
    lc_nz_a : forall x y l, (x, y, l) ∈ lc_adds r -> y <> 0%N;
    lc_nz_r : forall x y l, (x, y, l) ∈ lc_rems r -> y <> 0%N;
    lc_a : forall x y l, y <> 0%N -> nonvec E l -> (x, y, l) ∈ lc_adds r <-> K x y l /\ ~ K0 x y l;
    lc_r : forall x y l, y <> 0%N -> nonvec E l -> (x, y, l) ∈ lc_rems r <-> K0 x y l /\ ~ K x y l }.

  Lemma LC_new g : LC lcr_new (glink g) (glink g).
  Proof.
    split; cbn.
    - constructor.
    - constructor.
    - intros. apply glink_dec.
    - intros ??? H. inversion H.
    - intros ??? H. inversion H.
    - intros. rewrite elem_of_nil. naive_solver.
    - intros. rewrite elem_of_nil. naive_solver.
  Qed.
  Lemma LC_ext r K0 K K' :
    LC r K0 K -> (forall x y l, y <> 0%N -> nonvec E l -> K x y l <-> K' x y l) -> LC r K0 K'.
  Proof.
    intros [] HK. split; try done; intros x y l Hy Hl.
    - rewrite lc_a0 by done. by rewrite HK.
    - rewrite lc_r0 by done. by rewrite HK.
  Qed.
  Lemma LC_ext0 r K0 K0' K :
    LC r K0 K -> (forall x y l, K0 x y l <-> K0' x y l) -> LC r K0' K.
  Proof.
    intros [] HK. split; try done; intros x y l.
    - rewrite <- HK. apply lc_dec0.
    - intros Hy Hl. rewrite lc_a0 by done. by rewrite HK.
    - intros Hy Hl. rewrite lc_r0 by done. by rewrite HK.
  Qed.

  Lemma lcr_add_adds x y l r t :
    NoDup (lc_adds r) -> NoDup (lc_rems r) ->
    (t ∈ lc_adds (lcr_add x y l r) <->
       t ∈ lc_adds r \/ (t = (x, y, l) /\ y <> 0%N /\ t ∉ lc_rems r)) /\
    (t ∈ lc_rems (lcr_add x y l r) <-> t ∈ lc_rems r /\ ~ (t = (x, y, l) /\ y <> 0%N)) /\
    NoDup (lc_adds (lcr_add x y l r)) /\ NoDup (lc_rems (lcr_add x y l r)).
  Proof.
    intros Ha Hr. unfold lcr_add. destruct (N.eqb_spec y 0); [naive_solver|].
    case_decide; cbn.
    - rewrite oset_del_elem by done. split; [naive_solver|]. split; [naive_solver|].
      auto using oset_del_NoDup.
    - rewrite oset_insert_elem. split; [naive_solver|]. split; [naive_solver|].
      auto using oset_insert_NoDup.
  Qed.
  Lemma lcr_rem_adds x y l r t :
    NoDup (lc_adds r) -> NoDup (lc_rems r) ->
    (t ∈ lc_rems (lcr_rem x y l r) <->
       t ∈ lc_rems r \/ (t = (x, y, l) /\ y <> 0%N /\ t ∉ lc_adds r)) /\
    (t ∈ lc_adds (lcr_rem x y l r) <-> t ∈ lc_adds r /\ ~ (t = (x, y, l) /\ y <> 0%N)) /\
    NoDup (lc_adds (lcr_rem x y l r)) /\ NoDup (lc_rems (lcr_rem x y l r)).
  Proof.
    intros Ha Hr. unfold lcr_rem. destruct (N.eqb_spec y 0); [naive_solver|].
    case_decide; cbn.
    - rewrite oset_del_elem by done. split; [naive_solver|]. split; [naive_solver|].
      auto using oset_del_NoDup.
    - rewrite oset_insert_elem. split; [naive_solver|]. split; [naive_solver|].
      auto using oset_insert_NoDup.
  Qed.

  Lemma LC_add r K0 K x y l :
    LC r K0 K -> (y <> 0%N -> nonvec E l -> ~ K x y l) ->
    LC (lcr_add x y l r) K0 (fun x' y' l' => K x' y' l' \/ (x', y', l') = (x, y, l)).
  Proof.
    intros [nda ndr dec nza nzr Ha Hr] HK.
    destruct (lcr_add_adds x y l r (x, y, l) nda ndr) as (_&_&H3&H4).
    split; try done.
    - intros x' y' l' Hin. apply lcr_add_adds in Hin; [|done..]. naive_solver.
    - intros x' y' l' Hin. apply lcr_add_adds in Hin; [|done..]. naive_solver.
    - intros x' y' l' Hy Hl. destruct (lcr_add_adds x y l r (x', y', l') nda ndr) as (->&_&_).
      rewrite Ha, Hr by done. split.
      + intros [?|(Heq&?&?)]; [naive_solver|]. injection Heq as -> -> ->. split; [naive_solver|].
        specialize (HK Hy Hl). naive_solver.
      + intros [[?|Heq] ?]; [naive_solver|]. right. injection Heq as -> -> ->. naive_solver.
    - intros x' y' l' Hy Hl. destruct (lcr_add_adds x y l r (x', y', l') nda ndr) as (_&->&_).
      rewrite Hr by done. naive_solver.
  Qed.
  Lemma LC_rem r K0 K x y l :
    LC r K0 K -> (y <> 0%N -> nonvec E l -> K x y l) ->
    LC (lcr_rem x y l r) K0 (fun x' y' l' => K x' y' l' /\ (x', y', l') <> (x, y, l)).
  Proof.
    intros [nda ndr dec nza nzr Ha Hr] HK.
    destruct (lcr_rem_adds x y l r (x, y, l) nda ndr) as (_&_&H3&H4).
    split; try done.
    - intros x' y' l' Hin. apply lcr_rem_adds in Hin; [|done..]. naive_solver.
    - intros x' y' l' Hin. apply lcr_rem_adds in Hin; [|done..]. naive_solver.
    - intros x' y' l' Hy Hl. destruct (lcr_rem_adds x y l r (x', y', l') nda ndr) as (_&->&_).
      rewrite Ha by done. naive_solver.
    - intros x' y' l' Hy Hl. destruct (lcr_rem_adds x y l r (x', y', l') nda ndr) as (->&_&_).
      rewrite Ha, Hr by done. split.
      + intros [?|(Heq&?&Hn)]; [naive_solver|]. injection Heq as -> -> ->.
        split; [|naive_solver]. specialize (HK Hy Hl). destruct (dec x y l); naive_solver.
      + intros [H0 Hn]. destruct (decide ((x', y', l') = (x, y, l))) as [Heq|Hne].
        * right. injection Heq as -> -> ->. naive_solver.
        * left. split; [done|]. intros HKx. by apply Hn.
  Qed.

  (** all sources of a node recorded one by one *)
  Lemma LC_adds_fold r K0 K x n :
    node_ok E n -> LC r K0 K -> (forall y l, ~ K x y l) ->
    LC (adds_fold x (iter_sources E n) r) K0
       (fun x' y' l' => K x' y' l' \/ (x' = x /\ has_link n l' y')).
  Proof.
    intros Hok HLC HK. unfold adds_fold.
    assert (forall post pre r, iter_sources E n = pre ++ post ->
      LC r K0 (fun x' y' l' => K x' y' l' \/ (x' = x /\ y' <> 0%N /\ exists s, src_link s = l' /\ (y', s) ∈ pre)) ->
      LC (fold_left (fun r '(y, s) => lcr_add x y (src_link s) r) post r) K0
        (fun x' y' l' => K x' y' l' \/ (x' = x /\ y' <> 0%N /\ exists s, src_link s = l' /\ (y', s) ∈ iter_sources E n))) as Hgen.
    { induction post as [|[y s] post IH]; intros pre r' Heq HLC'; cbn.
      - rewrite app_nil_r in Heq. by rewrite Heq.
      - apply (IH (pre ++ [(y, s)])); [by rewrite <- app_assoc|].
        eapply LC_ext; [apply LC_add; [exact HLC'|]|].
        + intros Hy Hl [?|(_&_&s'&Hs'&Hin)]; [by eapply HK|].
          assert (NoDup (iter_sources E n)) as Hnd by by apply iter_sources_NoDup.
          rewrite Heq in Hnd. apply NoDup_app in Hnd as (_&Hd&_). apply (Hd _ Hin).
          assert (src_val n s y) as Hsv.
          { apply (elem_iter_sources E). rewrite Heq. rewrite elem_of_app, elem_of_cons. auto. }
          assert (src_val n s' y) as Hsv'.
          { apply (elem_iter_sources E). rewrite Heq. rewrite elem_of_app. auto. }
          rewrite (src_link_inj s' s); [left| |  |done].
          * apply (src_nonvec E _ _ _ Hok Hsv'). by rewrite Hs'.
          * by apply (src_nonvec E _ _ _ Hok Hsv).
        + intros x' y' l' Hy Hl. setoid_rewrite elem_of_app. setoid_rewrite elem_of_list_singleton.
          naive_solver. }
    eapply LC_ext; [apply (Hgen _ []); [done|]|].
    - eapply LC_ext; [exact HLC|]. intros x' y' l' Hy Hl. split; [auto|].
      intros [?|(_&_&s&_&Hin)]; [done|inversion Hin].
    - intros x' y' l' Hy Hl. setoid_rewrite elem_iter_sources. rewrite has_link_iff. naive_solver.
  Qed.

  Lemma LC_rems_fold r K0 K x n :
    node_ok E n -> LC r K0 K -> (forall y l, has_link n l y -> K x y l) ->
    LC (rems_fold x (iter_sources E n) r) K0
       (fun x' y' l' => K x' y' l' /\ ~ (x' = x /\ has_link n l' y')).
  Proof.
    intros Hok HLC HK. unfold rems_fold.
    assert (forall post pre r, iter_sources E n = pre ++ post ->
      LC r K0 (fun x' y' l' => K x' y' l' /\ ~ (x' = x /\ y' <> 0%N /\ exists s, src_link s = l' /\ (y', s) ∈ pre)) ->
      LC (fold_left (fun r '(y, s) => lcr_rem x y (src_link s) r) post r) K0
        (fun x' y' l' => K x' y' l' /\ ~ (x' = x /\ y' <> 0%N /\ exists s, src_link s = l' /\ (y', s) ∈ iter_sources E n))) as Hgen.
    { induction post as [|[y s] post IH]; intros pre r' Heq HLC'; cbn.
      - rewrite app_nil_r in Heq. by rewrite Heq.
      - apply (IH (pre ++ [(y, s)])); [by rewrite <- app_assoc|].
        assert (src_val n s y) as Hsv.
        { apply (elem_iter_sources E). rewrite Heq. rewrite elem_of_app, elem_of_cons. auto. }
        eapply LC_ext; [apply LC_rem; [exact HLC'|]|].
        + intros Hy Hl. split; [by apply HK, src_val_has_link|].
          intros (_&_&s'&Hs'&Hin).
          assert (NoDup (iter_sources E n)) as Hnd by by apply iter_sources_NoDup.
          rewrite Heq in Hnd. apply NoDup_app in Hnd as (_&Hd&_). apply (Hd _ Hin).
          assert (src_val n s' y) as Hsv'.
          { apply (elem_iter_sources E). rewrite Heq. rewrite elem_of_app. auto. }
          rewrite (src_link_inj s' s); [left| |  |done].
          * apply (src_nonvec E _ _ _ Hok Hsv'). by rewrite Hs'.
          * by apply (src_nonvec E _ _ _ Hok Hsv).
        + intros x' y' l' Hy Hl. setoid_rewrite elem_of_app. setoid_rewrite elem_of_list_singleton.
          split.
          * intros [[HKx Hn] Hne]. split; [done|]. intros (->&_&s'&<-&[Hin|[= -> ->]]); naive_solver.
          * intros [HKx Hn]. split; [split; [done|]|]; naive_solver. }
    eapply LC_ext; [apply (Hgen _ []); [done|]|].
    - eapply LC_ext; [exact HLC|]. intros x' y' l' Hy Hl. split; [|naive_solver].
      intros ?. split; [done|]. intros (_&_&s&_&Hin). inversion Hin.
    - intros x' y' l' Hy Hl. setoid_rewrite elem_iter_sources. rewrite has_link_iff. naive_solver.
  Qed.
End inv.
