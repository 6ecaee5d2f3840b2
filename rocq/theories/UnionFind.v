(** * Chain resolution of redirect lists *)
From Verif Require Export Ptrs Redirect.

Inductive reaches (fa : list (idx * idx)) : nat -> idx -> idx -> Prop :=
| reaches_root x : omap_get x fa = Some x -> reaches fa 0 x x
| reaches_step k x y r : omap_get x fa = Some y -> y <> x -> reaches fa k y r -> reaches fa (S k) x r.

Lemma reaches_det fa k x r k' r' : reaches fa k x r -> reaches fa k' x r' -> k' = k /\ r' = r.
Proof.
  intros H. revert k' r'. induction H as [x Hx|k x y r Hx Hne H IH]; intros k' r' H'.
  - inversion H'; [done|]. congruence.
  - inversion H'; [congruence|]. subst.
    assert (y0 = y) as -> by congruence. destruct (IH _ _ H2). naive_solver.
Qed.
Lemma reaches_is_root fa k x r : reaches fa k x r -> omap_get r fa = Some r.
Proof. by induction 1. Qed.
Lemma reaches_key fa k x r : reaches fa k x r -> x ∈ fa.*1.
Proof. intros H. destruct H as [? H|???? H]; by eapply omap_get_Some_key. Qed.

Lemma reaches_path fa k x r :
  reaches fa k x r -> exists L, length L = S k /\ NoDup L /\
    forall z, z ∈ L -> exists j, j <= k /\ reaches fa j z r.
Proof.
  induction 1 as [x Hx|k x y r Hx Hne H IH].
  - exists [x]. split; [done|]. split; [apply NoDup_singleton|].
    intros z ->%elem_of_list_singleton. exists 0. split; [done|]. by constructor.
  - destruct IH as (L&Hl&Hnd&HL). exists (x :: L). split; [cbn; lia|].
    assert (reaches fa (S k) x r) as Hx' by by econstructor.
    split.
    + constructor; [|done]. intros Hin. destruct (HL x Hin) as (j&Hj&Hr).
      destruct (reaches_det _ _ _ _ _ _ Hx' Hr). lia.
    + intros z [->|Hz]%elem_of_cons; [eauto|]. destruct (HL z Hz) as (j&?&?). exists j. split; [lia|done].
Qed.
Lemma reaches_bound fa k x r : reaches fa k x r -> S k <= length fa.
Proof.
  intros H. destruct (reaches_path _ _ _ _ H) as (L&Hl&Hnd&HL).
  rewrite <- Hl, <- (fmap_length fst fa). apply submseteq_length, NoDup_submseteq; [done|].
  intros z Hz. destruct (HL z Hz) as (j&_&Hr). by eapply reaches_key.
Qed.

Lemma fa_root_spec fa k x r fuel : reaches fa k x r -> k < fuel -> fa_root fuel fa x = Ok r.
Proof.
  intros H. revert fuel. induction H as [x Hx|k x y r Hx Hne H IH]; intros [|fuel] Hf; try lia; cbn; rewrite Hx.
  - by rewrite decide_True.
  - rewrite decide_False by done. apply IH. lia.
Qed.
Lemma fa_chase_spec fa k x y r fuel :
  reaches fa k x r -> omap_get x fa = Some y -> k < fuel -> fa_chase fuel fa x y = Ok r.
Proof.
  intros H. revert y fuel. induction H as [x Hx|k x y r Hx Hne H IH]; intros y' [|fuel] Hy Hf; try lia; cbn.
  - rewrite decide_True; [done|congruence].
  - assert (y' = y) as -> by congruence. rewrite decide_False by done.
    destruct (omap_get y fa) as [z|] eqn:Hz.
    + apply IH; [done|lia].
    + inversion H; congruence.
Qed.

Definition UF (fa : list (idx * idx)) : Prop :=
  NoDup fa.*1 /\ forall x, x ∈ fa.*1 -> exists k r, reaches fa k x r.

(** shortcutting a path keeps all roots *)
Lemma reaches_shortcut fa x r k w r' kx :
  reaches fa kx x r -> x <> r -> reaches fa k w r' -> exists k', reaches (omap_insert x r fa) k' w r'.
Proof.
  intros Hx Hne H. pose proof (reaches_is_root _ _ _ _ Hx) as Hr.
  induction H as [w Hw|k w y r' Hw Hwy H IH].
  - exists 0. constructor. rewrite omap_get_insert_ne; [done|]. intros <-.
    destruct Hne. assert (reaches fa 0 w w) as Hw' by by constructor.
    by destruct (reaches_det _ _ _ _ _ _ Hx Hw').
  - destruct (decide (w = x)) as [->|Hwx].
    + assert (r' = r) as ->.
      { assert (reaches fa (S k) x r') as Hx' by by econstructor.
        by destruct (reaches_det _ _ _ _ _ _ Hx Hx'). }
      exists 1. econstructor; [apply omap_get_insert_eq|done|]. constructor.
      by rewrite omap_get_insert_ne.
    + destruct IH as [k' IH]. exists (S k'). econstructor; [by rewrite omap_get_insert_ne|done|done].
Qed.

Lemma omap_insert_keys_in (x r : idx) fa : x ∈ fa.*1 -> forall w, w ∈ (omap_insert x r fa).*1 <-> w ∈ fa.*1.
Proof. intros Hx w. rewrite omap_insert_keys. naive_solver. Qed.

Lemma UF_shortcut fa x r kx : UF fa -> reaches fa kx x r -> x <> r -> UF (omap_insert x r fa).
Proof.
  intros [Hnd Hr] Hx Hne. split; [by apply omap_insert_NoDup|].
  intros w Hw. rewrite omap_insert_keys_in in Hw by by eapply reaches_key.
  destruct (Hr w Hw) as (k&r'&H). destruct (reaches_shortcut _ _ _ _ _ _ _ Hx Hne H). eauto.
Qed.

(** path compression terminates, keeps the keys and the roots *)
Lemma fa_compress_spec fa k x y fuel :
  UF fa -> reaches fa k x y -> k < fuel ->
  exists fa', fa_compress fuel fa x y = Ok fa' /\ UF fa' /\ length fa' = length fa /\
    (forall w, w ∈ fa'.*1 <-> w ∈ fa.*1) /\
    (forall w j r, reaches fa j w r -> exists j', reaches fa' j' w r).
Proof.
  revert fa x fuel. induction k as [|k IH]; intros fa x [|fuel] Huf H Hf; try lia; cbn.
  - inversion H; subst. rewrite H0. rewrite decide_True by done. exists fa. eauto 10.
  - inversion H as [|? ? z ? Hx Hne Hz]; subst. rewrite Hx. case_decide as Hzy; [exists fa; eauto 10|].
    assert (x <> y) as Hxy.
    { intros ->. apply Hne. pose proof (reaches_is_root _ _ _ _ H). congruence. }
    (* the rest of the path does not visit [x] *)
    assert (forall j w, reaches fa j w y -> j <= k -> reaches (omap_insert x y fa) j w y) as Hkeep.
    { intros j w Hw. induction Hw as [w Hw|j w v r Hw Hwv Hv IHv]; intros Hj.
      - constructor. rewrite omap_get_insert_ne; done.
      - assert (w <> x).
        { intros ->. assert (reaches fa (S j) x r) as Hx' by by econstructor.
          destruct (reaches_det _ _ _ _ _ _ H Hx'). lia. }
        econstructor; [by rewrite omap_get_insert_ne|done|]. apply IHv; [..|lia]; done. }
    destruct (IH (omap_insert x y fa) z fuel) as (fa'&Hc&Huf'&Hlen&Hkeys&Hr).
    + by eapply UF_shortcut.
    + apply Hkeep; [done|lia].
    + lia.
    + exists fa'. split; [done|]. split; [done|]. split.
      { rewrite Hlen. apply omap_insert_length_in. by eapply reaches_key. }
      split.
      { intros w. rewrite Hkeys. apply omap_insert_keys_in. by eapply reaches_key. }
      intros w j r Hw. destruct (reaches_shortcut _ _ _ _ _ _ _ H Hxy Hw) as [j' Hw']. by eapply Hr.
Qed.

(** ** Building the forest *)
Lemma fa_init_fold (reps fa : list (idx * idx)) :
  NoDup fa.*1 -> (forall x y, omap_get x fa = Some y -> y = x) ->
  let fa' := fold_left (fun fa '(old, new) => omap_entry new new (omap_entry old old fa)) reps fa in
  NoDup fa'.*1 /\ (forall x y, omap_get x fa' = Some y -> y = x) /\
  (forall x, x ∈ fa'.*1 <-> x ∈ fa.*1 \/ x ∈ reps.*1 \/ x ∈ reps.*2).
Proof.
  revert fa. induction reps as [|[o n] reps IH]; intros fa Hnd Hid; cbn.
  - split; [done|]. split; [done|]. intros x. rewrite !elem_of_nil. naive_solver.
  - destruct (IH (omap_entry n n (omap_entry o o fa))) as (H1&H2&H3).
    + by apply omap_entry_NoDup, omap_entry_NoDup.
    + intros x y. rewrite !omap_get_entry.
      destruct (omap_get o fa) as [p|] eqn:Ho, (omap_get n fa) as [q|] eqn:Hn;
        repeat case_decide; subst; cbn; naive_solver.
    + split; [done|]. split; [done|]. intros x. rewrite H3, !omap_entry_keys, !elem_of_cons. naive_solver.
Qed.

Lemma fa_init_spec reps :
  UF (fa_init reps) /\ (forall x, x ∈ (fa_init reps).*1 <-> x ∈ reps.*1 \/ x ∈ reps.*2) /\
  (forall x, x ∈ (fa_init reps).*1 -> omap_get x (fa_init reps) = Some x).
Proof.
  destruct (fa_init_fold reps []) as (H1&H2&H3); [constructor|done|]. cbn in H3.
  fold (fa_init reps) in H1, H2, H3.
  assert (forall x, x ∈ (fa_init reps).*1 -> omap_get x (fa_init reps) = Some x) as H4.
  { intros x Hx. apply omap_key_get in Hx as [y Hy]. rewrite Hy. f_equal. by apply H2. }
  split; [split; [done|]|].
  - intros x Hx. exists 0, x. constructor. by apply H4.
  - split; [|done]. intros x. rewrite H3, elem_of_nil. naive_solver.
Qed.

(** [fa] is the forest built from the prefix [pre] of [reps] *)
Record FA (pre reps fa : list (idx * idx)) : Prop := {
  fa_uf : UF fa;
  fa_keys : forall x, x ∈ fa.*1 <-> x ∈ reps.*1 \/ x ∈ reps.*2;
  fa_edge : forall x y, omap_get x fa = Some y -> redir_reach pre x y;
  fa_roots : forall x, omap_get x fa = Some x <-> x ∈ fa.*1 /\ x ∉ pre.*1;
  fa_ptrs : exists P, redir_ptrs pre P /\ forall x y, omap_get x fa = Some y -> y = default x (P !! x) }.

Lemma reaches_reach pre reps fa k x r : FA pre reps fa -> reaches fa k x r -> redir_reach pre x r.
Proof.
  intros HFA. induction 1 as [x Hx|k x y r Hx Hne H IH]; [constructor|].
  unfold redir_reach in *. etransitivity; [|exact IH]. by apply (fa_edge _ _ _ HFA).
Qed.
Lemma reaches_final pre reps fa k x r : FA pre reps fa -> reaches fa k x r -> redir_final pre x r.
Proof.
  intros HFA H. split; [by eapply reaches_reach|].
  apply (fa_roots _ _ _ HFA). by eapply reaches_is_root.
Qed.

Lemma reaches_leads P fa k x r : (forall x y, omap_get x fa = Some y -> y = default x (P !! x)) ->
  (forall x, omap_get x fa = Some x -> P !! x = None) -> reaches fa k x r -> leads P x r.
Proof.
  intros HP Hr. induction 1 as [x Hx|k x y r Hx Hne H IH]; [by apply leads_refl, Hr|].
  eapply leads_step; [|exact IH]. pose proof (HP _ _ Hx) as Hy. destruct (P !! x) as [y'|]; cbn in Hy; [by subst|done].
Qed.
Lemma FA_leads pre reps fa P k x r : FA pre reps fa -> redir_ptrs pre P -> reaches fa k x r -> leads P x r.
Proof.
  intros HFA HP. destruct (fa_ptrs _ _ _ HFA) as (P'&HP'&Hg). rewrite (ptrs_det _ _ _ HP HP') in *.
  apply reaches_leads; [done|]. intros y Hy. apply (ptrs_none _ _ _ HP'). by apply (fa_roots _ _ _ HFA).
Qed.

Lemma redir_reach_sub pre post x y : redir_reach pre x y -> redir_reach (pre ++ post) x y.
Proof. apply rtc_subrel. intros a b ?. rewrite elem_of_app. auto. Qed.

(** redirecting a node to a root keeps the forest *)
Lemma UF_link fa old new k kk x :
  UF fa -> old ∈ fa.*1 -> reaches fa k new x -> x <> old -> reaches fa kk x x ->
  UF (omap_insert old x fa).
Proof.
  intros [Hnd Hr] Hold Hx Hne Hxx. split; [by apply omap_insert_NoDup|].
  assert (reaches (omap_insert old x fa) 0 x x) as Hroot.
  { constructor. rewrite omap_get_insert_ne by done. by eapply reaches_is_root. }
  assert (forall j w r, reaches fa j w r -> exists j' r', reaches (omap_insert old x fa) j' w r') as Hgen.
  { induction 1 as [w Hw|j w y r Hw Hwy H IH].
    - destruct (decide (w = old)) as [->|Hwo].
      + exists 1, x. econstructor; [apply omap_get_insert_eq|done|done].
      + exists 0, w. constructor. by rewrite omap_get_insert_ne.
    - destruct (decide (w = old)) as [->|Hwo].
      + exists 1, x. econstructor; [apply omap_get_insert_eq|done|done].
      + destruct IH as (j'&r'&IH). exists (S j'), r'. econstructor; [by rewrite omap_get_insert_ne|done|done]. }
  intros w Hw. rewrite omap_insert_keys_in in Hw by done.
  destruct (Hr w Hw) as (j&r&H). by eapply Hgen.
Qed.

Lemma fa_build_gen post pre fa reps :
  reps = pre ++ post -> FA pre reps fa ->
  match fa_build post fa with
  | Ok fa' => FA reps reps fa'
  | Err p => p = PLoop /\ redir_loop reps /\ redir_bad reps
  end.
Proof.
  revert pre fa. induction post as [|[old new] post IH]; intros pre fa Heq HFA; cbn [fa_build].
  - rewrite app_nil_r in Heq. by subst.
  - assert ((old, new) ∈ reps) as Hin by (rewrite Heq, elem_of_app, elem_of_cons; auto).
    assert (old ∈ fa.*1) as Hold.
    { apply (fa_keys _ _ _ HFA). left. apply elem_of_list_fmap. by exists (old, new). }
    assert (new ∈ fa.*1) as Hnew.
    { apply (fa_keys _ _ _ HFA). right. apply elem_of_list_fmap. by exists (old, new). }
    destruct (fa_uf _ _ _ HFA) as [Hnd Hreach].
    destruct (Hreach new Hnew) as (k&x&Hx).
    pose proof (reaches_bound _ _ _ _ Hx) as Hk.
    rewrite (fa_root_spec _ _ _ _ _ Hx) by lia.
    pose proof (reaches_reach _ _ _ _ _ _ HFA Hx) as Hreps.
    case_decide as Hxo.
    + destruct (fa_ptrs _ _ _ HFA) as (P&HP&_). pose proof (FA_leads _ _ _ _ _ _ _ HFA HP Hx) as Hlx. split; [done|]. subst x. split.
      * exists old. apply tc_rtc_r with new; [by apply tc_once|]. rewrite Heq. by apply redir_reach_sub.
      * intros [P' HP']. rewrite Heq in HP'. change ((old, new) :: post) with ([(old, new)] ++ post) in HP'. rewrite app_assoc in HP'.
        apply ptrs_prefix in HP' as [P1 HP1]. apply ptrs_snoc_inv in HP1 as (P0&z&HP0&Hl0&Hne&_).
        rewrite (ptrs_det _ _ _ HP0 HP) in Hl0. by rewrite (leads_det _ _ _ _ Hl0 Hlx) in Hne.
    + destruct (omap_key_get fa old Hold) as [v Hv]. rewrite Hv.
      pose proof (reaches_is_root _ _ _ _ Hx) as Hxr.
      apply (IH (pre ++ [(old, new)])); [by rewrite <- app_assoc|].
      split.
      * eapply UF_link; [apply HFA|done|exact Hx|done|]. by constructor.
      * intros w. rewrite omap_insert_keys_in by done. apply HFA.
      * intros w y. rewrite omap_get_insert. case_decide as Hw.
        -- intros [= <-]. subst w. apply rtc_l with new.
           ++ rewrite elem_of_app, elem_of_list_singleton. auto.
           ++ by apply redir_reach_sub.
        -- intros Hy. by apply redir_reach_sub, (fa_edge _ _ _ HFA).
      * intros w. rewrite omap_insert_keys_in by done. rewrite fmap_app, elem_of_app. cbn.
        rewrite elem_of_list_singleton, omap_get_insert.
        case_decide as Hw; [subst; naive_solver|]. rewrite (fa_roots _ _ _ HFA). naive_solver.
      * destruct (fa_ptrs _ _ _ HFA) as (P&HP&Hg). pose proof (FA_leads _ _ _ _ _ _ _ HFA HP Hx) as Hlx.
        exists (<[old := x]> P). split; [by constructor|]. intros w y. rewrite omap_get_insert. case_decide as Hw.
        -- intros [= <-]. subst w. by rewrite lookup_insert.
        -- intros Hy. rewrite lookup_insert_ne by done. by apply Hg.
Qed.

Lemma fa_build_spec reps :
  match fa_build reps (fa_init reps) with
  | Ok fa => FA reps reps fa
  | Err p => p = PLoop /\ redir_loop reps /\ redir_bad reps
  end.
Proof.
  destruct (fa_init_spec reps) as (H1&H2&H3).
  apply (fa_build_gen reps []); [done|]. split; [done|done|..].
  - intros x y Hy. assert (y = x) as ->; [|constructor].
    apply omap_get_Some_key in Hy as Hk. apply H3 in Hk. congruence.
  - intros x. rewrite elem_of_nil. split; [|naive_solver].
    intros Hx. split; [by eapply omap_get_Some_key|auto].
  - exists ∅. split; [constructor|]. intros x y Hy. rewrite lookup_empty. cbn.
    apply omap_get_Some_key in Hy as Hk. apply H3 in Hk. congruence.
Qed.

(** with distinct sources following the list is deterministic *)
Lemma redir_step_det (reps : list (idx * idx)) x y z :
  NoDup reps.*1 -> (x, y) ∈ reps -> (x, z) ∈ reps -> y = z.
Proof. intros Hnd Hy Hz. apply omap_get_iff in Hy, Hz; [|done..]. congruence. Qed.
Lemma redir_final_det reps x z z' :
  NoDup reps.*1 -> redir_final reps x z -> redir_final reps x z' -> z = z'.
Proof.
  intros Hnd [Hz Hn]. revert z'. induction Hz as [x|x y z Hxy Hz IH]; intros z' [Hz' Hn'].
  - inversion Hz' as [|? y ? Hxy]; [done|]. subst. destruct Hn. apply elem_of_list_fmap. by exists (x, y).
  - inversion Hz' as [|? y' ? Hxy' Hz'']; subst.
    + destruct Hn'. apply elem_of_list_fmap. by exists (z', y).
    + rewrite (redir_step_det _ _ _ _ Hnd Hxy' Hxy) in Hz''. apply IH; [done|]. by split.
Qed.
Lemma redir_final_no_loop reps x z :
  NoDup reps.*1 -> redir_final reps x z -> ~ tc (fun a b => (a, b) ∈ reps) x x.
Proof.
  intros Hnd [Hz Hn]. induction Hz as [x|x y z Hxy Hz IH]; intros Htc.
  - destruct Hn. inversion Htc as [? y Hxy|? y ? Hxy _]; subst; apply elem_of_list_fmap; [by exists (x, x)|by exists (x, y)].
  - apply IH; [done|]. inversion Htc as [? y' Hxx|? y' ? Hxy' Hy]; subst.
    + rewrite (redir_step_det _ _ _ _ Hnd Hxy Hxx). by apply tc_once.
    + rewrite (redir_step_det _ _ _ _ Hnd Hxy Hxy'). by eapply tc_r.
Qed.
Lemma FA_no_loop reps fa : NoDup reps.*1 -> FA reps reps fa -> ~ redir_loop reps.
Proof.
  intros Hnd HFA (x&Htc). assert (x ∈ fa.*1) as Hx.
  { apply (fa_keys _ _ _ HFA). left.
    inversion Htc as [? y Hxy|? y ? Hxy _]; subst; apply elem_of_list_fmap; [by exists (x, x)|by exists (x, y)]. }
  destruct (fa_uf _ _ _ HFA) as [_ Hr]. destruct (Hr x Hx) as (k&r&Hk).
  eapply redir_final_no_loop; [exact Hnd| |exact Htc]. by eapply reaches_final.
Qed.
Lemma fa_build_loop reps :
  NoDup reps.*1 -> (fa_build reps (fa_init reps) = Err PLoop <-> redir_loop reps).
Proof.
  intros Hnd. pose proof (fa_build_spec reps) as H.
  destruct (fa_build reps (fa_init reps)) as [fa|p].
  - split; [done|]. intros Hl. by eapply FA_no_loop in Hl.
  - destruct H as (->&Hl&_). done.
Qed.
(** exactly the lists without pointers are rejected *)
Lemma fa_build_err reps : (exists p, fa_build reps (fa_init reps) = Err p) <-> redir_bad reps.
Proof.
  pose proof (fa_build_spec reps) as H. destruct (fa_build reps (fa_init reps)) as [fa|p].
  - split; [by intros [? ?]|]. intros Hn. destruct Hn. destruct (fa_ptrs _ _ _ H) as (P&HP&_). by exists P.
  - split; [naive_solver|]. intros _. by exists p.
Qed.

Lemma redir_bad_loop reps : redir_bad reps -> redir_loop reps.
Proof.
  intros Hb. pose proof (fa_build_spec reps) as H. destruct (fa_build reps (fa_init reps)) as [fa|p]; [|apply H].
  destruct Hb. destruct (fa_ptrs _ _ _ H) as (P&HP&_). by exists P.
Qed.

(** ** The whole redirect phase *)
Section phase.
  Context {D : Type} (E : env).
  Implicit Types (g : graph D).

  Record redirecteds g g' r' K0 (res : list (idx * idx)) : Prop := {
    rds_wf : WF E g';
    rds_ctx : g_ctx g' = g_ctx g;
    rds_disp : forall j, arena_dispatch (g_nodes g') j = arena_dispatch (g_nodes g) j;
    rds_get : forall i, graph_get g' i = node_redirects res <$> graph_get g i;
    rds_lc : LC E r' K0 (glink g');
    rds_has : forall y, hasback g' y <-> hasback g y \/ y ∈ res.*2 }.

  Lemma redirecteds_cons g g1 g' r1 r' K0 old z res :
    redirected E g g1 r1 K0 old z -> redirecteds g1 g' r' K0 res -> redirecteds g g' r' K0 ((old, z) :: res).
  Proof.
    intros Hrd Hrds. split.
    - apply Hrds.
    - rewrite (rds_ctx _ _ _ _ _ Hrds). apply Hrd.
    - intros j. rewrite (rds_disp _ _ _ _ _ Hrds). apply Hrd.
    - intros i. rewrite (rds_get _ _ _ _ _ Hrds), (rd_get _ _ _ _ _ _ _ Hrd).
      by destruct (graph_get g i).
    - apply Hrds.
    - intros y. rewrite (rds_has _ _ _ _ _ Hrds), (rd_has _ _ _ _ _ _ _ Hrd). cbn.
      rewrite elem_of_cons. naive_solver.
  Qed.

  Lemma redirect_loop_wp reps post fa g r K0 P :
    redir_ptrs reps P -> UF fa ->
    (forall x, x ∈ fa.*1 <-> x ∈ reps.*1 \/ x ∈ reps.*2) ->
    (forall k x z, reaches fa k x z -> leads P x z) ->
    (forall o n, (o, n) ∈ post -> (o, n) ∈ reps /\ o <> 0%N) ->
    WF E g -> LC E r K0 (glink g) ->
    wp (redirect_loop (D:=D) post fa) (g, r)
      (fun _ '(g', r') => exists res,
         Forall2 (fun on oz => oz.1 = on.1 /\ leads P on.2 oz.2) post res /\
         (forall o, o ∈ post.*1 -> hasback g o) /\ redirecteds g g' r' K0 res)
      (fun p '(g', r') => p = PUnwrap /\ (exists o, o ∈ post.*1 /\ ~ hasback g o) /\
         exists res, redirecteds g g' r' K0 res).
  Proof.
    intros HP. revert fa g r. induction post as [|[old new] post IH]; intros fa g r Huf Hkeys Hfin Hpost Hwf HLC;
      cbn [redirect_loop].
    - apply wp_ret. exists []. split; [done|]. split; [by inversion 1|]. split; try done.
      + intros i. by destruct (graph_get g i).
      + intros y. rewrite elem_of_nil. naive_solver.
    - destruct (Hpost old new) as [Hin Ho]; [left|].
      assert (new ∈ fa.*1) as Hnew.
      { apply Hkeys. right. apply elem_of_list_fmap. by exists (old, new). }
      assert (old ∈ reps.*1) as Hold.
      { apply elem_of_list_fmap. by exists (old, new). }
      destruct Huf as [Hnd Hreach]. destruct (Hreach new Hnew) as (k&z&Hz).
      pose proof (reaches_bound _ _ _ _ Hz) as Hk.
      pose proof (Hfin _ _ _ Hz) as Hlz. destruct (leads_final _ _ _ _ HP Hlz) as [Hrz Hzn].
      apply wp_bind. destruct (omap_key_get fa new Hnew) as [y0 Hy0]. rewrite Hy0. apply wp_ret.
      apply wp_bind. rewrite (fa_chase_spec _ _ _ _ _ _ Hz Hy0) by lia. apply wp_ret.
      apply wp_bind. eapply wp_mono; [apply (redirect_links_wp E g r K0 old z); try done|..]; cbn beta.
      { intros ->. done. }
      2:{ intros p [g' r'] (->&Hn&[= -> ->]). split; [done|]. split; [exists old; split; [left|done]|].
          exists []. split; try done; [intros i; by destruct (graph_get g i)|].
          intros y. rewrite elem_of_nil. naive_solver. }
      intros _ [g1 r1] [Hhold Hrd]. apply wp_bind.
      destruct (fa_compress_spec fa k new z (S (length fa))) as (fa'&Hc&Huf'&Hlen&Hkeys'&Hr'); [by split|done|lia|].
      rewrite Hc. apply wp_ret.
      eapply wp_mono; [apply (IH fa' g1 r1)|..]; cbn beta; try done.
      + intros x. by rewrite Hkeys'.
      + intros j x w Hw. destruct (Hreach x) as (j0&w0&Hw0).
        { apply Hkeys'. by eapply reaches_key. }
        destruct (Hr' _ _ _ Hw0) as [j1 Hw1]. destruct (reaches_det _ _ _ _ _ _ Hw Hw1) as [_ ->]. by eapply Hfin.
      + intros o n Hon. apply Hpost. by right.
      + apply Hrd.
      + apply Hrd.
      + intros _ [g' r'] (res&Hres&Hhas&Hrds). exists ((old, z) :: res).
        split; [constructor; [|done]; done|]. split.
        { intros o [->|Hoin]%elem_of_cons; [done|].
          destruct (proj1 (rd_has _ _ _ _ _ _ _ Hrd o) (Hhas o Hoin)) as [?| ->]; [done|].
          destruct Hzn. apply elem_of_list_fmap in Hoin as ([o n]&->&Hon). apply elem_of_list_fmap.
          exists (o, n). split; [done|]. apply Hpost. by right. }
        by eapply redirecteds_cons.
      + intros p [g' r'] (->&(o&Hoin&Hn)&res&Hrds). split; [done|]. split.
        * exists o. split; [by right|].
          intros Hh. apply Hn. apply (rd_has _ _ _ _ _ _ _ Hrd). by left.
        * exists ((old, z) :: res). by eapply redirecteds_cons.
  Qed.

  Lemma redirect_links_vec_wp reps g r K0 :
    (forall o, o ∈ reps.*1 -> o <> 0%N) ->
    WF E g -> LC E r K0 (glink g) ->
    wp (redirect_links_vec (D:=D) reps) (g, r)
      (fun _ '(g', r') => exists res, redir_resolved reps res /\
         (forall o, o ∈ reps.*1 -> hasback g o) /\ redirecteds g g' r' K0 res)
      (fun p '(g', r') => (p = PLoop /\ redir_loop reps /\ redir_bad reps /\ g' = g /\ r' = r) \/
         (p = PUnwrap /\ (exists o, o ∈ reps.*1 /\ ~ hasback g o) /\ exists res, redirecteds g g' r' K0 res)).
  Proof.
    intros Hz Hwf HLC. unfold redirect_links_vec. apply wp_bind.
    pose proof (fa_build_spec reps) as Hb.
    destruct (fa_build reps (fa_init reps)) as [fa|p]; cbn [liftM]; [|apply wp_panic; left; naive_solver].
    destruct (fa_ptrs _ _ _ Hb) as (P&HP&_).
    apply wp_ret. eapply wp_mono; [apply (redirect_loop_wp reps reps fa g r K0 P)|..]; cbn beta; try done.
    - apply Hb.
    - apply Hb.
    - intros k x z. by apply (FA_leads _ _ _ _ _ _ _ Hb HP).
    - intros o n Hon. split; [done|]. apply Hz, elem_of_list_fmap. by exists (o, n).
    - intros _ [g' r'] (res&Hres&Hh&Hrds). exists res. split; [by exists P|]. done.
    - intros p [g' r'] HH. by right.
  Qed.
End phase.
