(** * Redirect lists with repeated sources *)
From Verif Require Export Spec.

Lemma tc_sub {A} (R1 R2 : A -> A -> Prop) x y : (forall a b, R1 a b -> R2 a b) -> tc R1 x y -> tc R2 x y.
Proof. intros Hs. induction 1; [by apply tc_once, Hs|]. eapply tc_l; [by apply Hs|done]. Qed.
Lemma leads_det P x z z' : leads P x z -> leads P x z' -> z = z'.
Proof.
  intros [Hz Hn]. revert z'. induction Hz as [x|x y z Hxy Hz IH]; intros z' [Hz' Hn'].
  - inversion Hz' as [|? y ? Hxy]; [done|]. congruence.
  - inversion Hz' as [|? y' ? Hxy' Hz'']; subst; [congruence|]. assert (y' = y) as -> by congruence. by apply IH.
Qed.
Lemma leads_refl P x : P !! x = None -> leads P x x.
Proof. intros H. split; [apply rtc_refl|done]. Qed.
Lemma leads_step P x y z : P !! x = Some y -> leads P y z -> leads P x z.
Proof. intros Hx [Hy Hz]. split; [by eapply rtc_l|done]. Qed.
Lemma leads_inv P x z : leads P x z -> (P !! x = None /\ z = x) \/ exists y, P !! x = Some y /\ leads P y z.
Proof. intros [Hx Hz]. inversion Hx as [|? y ? Hxy Hy]; subst; [by left|]. right. exists y. done. Qed.

Lemma ptrs_snoc_inv reps o n P' : redir_ptrs (reps ++ [(o, n)]) P' ->
  exists P z, redir_ptrs reps P /\ leads P n z /\ z <> o /\ P' = <[o := z]> P.
Proof.
  intros H. inversion H as [Heq|reps0 P o0 n0 z Hp Hl Hne Heq]; subst.
  - by destruct reps.
  - apply app_inj_tail in Heq as [-> [= -> ->]]. exists P, z. done.
Qed.
Lemma ptrs_det reps P P' : redir_ptrs reps P -> redir_ptrs reps P' -> P = P'.
Proof.
  intros H. revert P'. induction H as [|reps P o n z Hp IH Hl Hne]; intros P' H'.
  - inversion H' as [|? ? ? ? ? ? ? ? Heq]; [done|]. by destruct reps.
  - apply ptrs_snoc_inv in H' as (P1&z1&Hp1&Hl1&_&->). rewrite <- (IH _ Hp1) in Hl1 |- *. by rewrite (leads_det _ _ _ _ Hl Hl1).
Qed.
Lemma ptrs_prefix pre post P : redir_ptrs (pre ++ post) P -> exists P0, redir_ptrs pre P0.
Proof.
  revert P. induction post as [|[o n] post IH] using rev_ind; intros P H; [rewrite app_nil_r in H; by exists P|].
  rewrite app_assoc in H. apply ptrs_snoc_inv in H as (P0&_&H&_). by eapply IH.
Qed.
Lemma ptrs_dom reps P x : redir_ptrs reps P -> is_Some (P !! x) <-> x ∈ reps.*1.
Proof.
  intros H. revert x. induction H as [|reps P o n z Hp IH Hl Hne]; intros x.
  - rewrite lookup_empty, elem_of_nil. split; [by intros [? ?]|done].
  - rewrite fmap_app, elem_of_app, <- IH. cbn. rewrite elem_of_list_singleton. destruct (decide (x = o)) as [->|Hx].
    + rewrite lookup_insert. split; [by right|by eexists].
    + rewrite lookup_insert_ne by done. naive_solver.
Qed.
Lemma ptrs_none reps P x : redir_ptrs reps P -> P !! x = None <-> x ∉ reps.*1.
Proof. intros H. rewrite <- (ptrs_dom _ _ x H). by rewrite eq_None_not_Some. Qed.
(** nothing leads in circles *)
Lemma ptrs_total reps P x : redir_ptrs reps P -> exists z, leads P x z.
Proof.
  intros H. revert x. induction H as [|reps P o n z Hp IH Hl Hne]; intros x; [exists x; by apply leads_refl|].
  assert (leads (<[o:=z]> P) z z) as Hz by (apply leads_refl; rewrite lookup_insert_ne by done; apply Hl).
  assert (leads (<[o:=z]> P) o z) as Ho by (eapply leads_step; [apply lookup_insert|done]).
  destruct (IH x) as [y [Hy Hn]]. induction Hy as [y|x x1 y Hx Hy IHy].
  - destruct (decide (y = o)) as [->|Hyo]; [by exists z|]. exists y. apply leads_refl. by rewrite lookup_insert_ne.
  - destruct (decide (x = o)) as [->|Hxo]; [by exists z|]. destruct (IHy Hn) as [w Hw]. exists w.
    eapply leads_step; [|done]. by rewrite lookup_insert_ne.
Qed.
Lemma ptrs_edge reps P a b : redir_ptrs reps P -> P !! a = Some b -> tc (fun a b => (a, b) ∈ reps) a b.
Proof.
  intros H. revert a b. induction H as [|reps P o n z Hp IH [Hl _] Hne]; intros a b; [by rewrite lookup_empty|].
  assert (forall x y, tc (fun a b => (a, b) ∈ reps) x y -> tc (fun a b => (a, b) ∈ reps ++ [(o, n)]) x y) as Hsub.
  { intros x y. apply tc_sub. intros ? ? ?. apply elem_of_app. by left. }
  destruct (decide (a = o)) as [->|Ha].
  - rewrite lookup_insert. intros [= <-]. apply tc_rtc_r with n; [apply tc_once, elem_of_app; right; left|].
    revert Hl. generalize n at 1 3. intros n0 Hl. clear -Hl IH Hsub. induction Hl as [|x y z Hxy _ IHl]; [done|]. etransitivity; [|exact IHl]. apply tc_rtc. apply Hsub, IH, Hxy.
  - rewrite lookup_insert_ne by done. intros Hb. by apply Hsub, IH.
Qed.
Lemma leads_final reps P x z : redir_ptrs reps P -> leads P x z -> redir_final reps x z.
Proof.
  intros H [Hl Hz]. split; [|by apply (ptrs_none _ _ _ H)]. unfold redir_reach. clear Hz.
  induction Hl as [|x y z Hxy _ IHl]; [done|]. etransitivity; [|exact IHl]. apply tc_rtc. by eapply ptrs_edge.
Qed.

(** Without a loop there are pointers, also with repeated sources. *)
Lemma no_loop_ptrs reps : ~ redir_loop reps -> exists P, redir_ptrs reps P.
Proof.
  induction reps as [|[o n] reps IH] using rev_ind; intros Hl; [eexists; constructor|].
  destruct IH as [P HP].
  { intros [x Hx]. apply Hl. exists x. eapply tc_sub; [|exact Hx]. intros ? ? ?. apply elem_of_app. by left. }
  destruct (ptrs_total _ _ n HP) as [z Hz]. exists (<[o := z]> P). constructor; [done|done|]. intros ->. apply Hl. exists o.
  apply tc_rtc_r with n; [apply tc_once, elem_of_app; right; left|].
  destruct (leads_final _ _ _ _ HP Hz) as [Hr _]. eapply rtc_subrel; [|exact Hr]. intros ? ? ?. apply elem_of_app. by left.
Qed.

(** ** Distinct sources: the pointers follow the list *)
Lemma redir_step_unique (reps : list (idx * idx)) x y z : NoDup reps.*1 -> (x, y) ∈ reps -> (x, z) ∈ reps -> y = z.
Proof.
  induction reps as [|[o w] reps IH]; [by intros _ ?%elem_of_nil|]. cbn. intros [Hni Hnd]%NoDup_cons. rewrite !elem_of_cons.
  intros [Hb|Hb] [Hc|Hc]; simplify_eq; try done; [| |by apply IH].
  - destruct Hni. apply elem_of_list_fmap. by eexists (_, _).
  - destruct Hni. apply elem_of_list_fmap. by eexists (_, _).
Qed.
Lemma ptrs_no_loop reps P : NoDup reps.*1 -> redir_ptrs reps P -> ~ redir_loop reps.
Proof.
  intros Hnd HP [x Hx]. set (R := fun a b : idx => (a, b) ∈ reps) in *.
  assert (forall a b, tc R a a -> R a b -> tc R b b) as Hstep.
  { intros a b Ha Hab. assert (rtc R b a) as Hba.
    { inversion Ha as [? ? Ha1|? a' ? Ha1 Ha2]; subst.
      - rewrite (redir_step_unique _ _ _ _ Hnd Hab Ha1). done.
      - rewrite (redir_step_unique _ _ _ _ Hnd Hab Ha1). by apply tc_rtc. }
    eapply tc_rtc_l; [done|]. by constructor. }
  destruct (ptrs_total _ _ x HP) as [z Hz]. apply (leads_final _ _ _ _ HP) in Hz as [Hz Hn].
  assert (tc R z z) as Hzz by (clear Hn; induction Hz; [done|]; eauto).
  apply Hn. assert (exists w, R z w) as [w Hw] by (inversion Hzz; subst; eauto). apply elem_of_list_fmap. by exists (z, w).
Qed.
Theorem ptrs_distinct reps : NoDup reps.*1 ->
  ((exists P, redir_ptrs reps P) <-> ~ redir_loop reps) /\
  forall P x z, redir_ptrs reps P -> leads P x z <-> redir_final reps x z.
Proof.
  intros Hnd. split; [split; [intros [P HP]; by eapply ptrs_no_loop|apply no_loop_ptrs]|].
  intros P x z HP. split; [by apply leads_final|]. intros Hf. destruct (ptrs_total _ _ x HP) as [z' Hz'].
  assert (z' = z) as ->; [|done]. apply (leads_final _ _ _ _ HP) in Hz'. clear -Hnd Hf Hz'.
  destruct Hf as [Hz Hn]. revert z' Hz'. induction Hz as [x|x y z Hxy Hz IH]; intros z' [Hz' Hn'].
  - inversion Hz' as [|? y ? Hxy]; [done|]. subst. destruct Hn. apply elem_of_list_fmap. by exists (x, y).
  - inversion Hz' as [|? y' ? Hxy' Hz'']; subst.
    + destruct Hn'. apply elem_of_list_fmap. by exists (z', y).
    + rewrite (redir_step_unique _ _ _ _ Hnd Hxy' Hxy) in Hz''. apply IH; [done|]. by split.
Qed.

Lemma loop_bad reps : NoDup reps.*1 -> redir_loop reps -> redir_bad reps.
Proof. intros Hnd Hl [P HP]. by apply (ptrs_no_loop _ _ Hnd HP). Qed.

Lemma redir_ptrs_dec reps : (exists P, redir_ptrs reps P) \/ redir_bad reps.
Proof.
  induction reps as [|[old new] reps [[P HP]|Hn]] using rev_ind.
  - left. exists ∅. constructor.
  - destruct (ptrs_total _ _ new HP) as [z Hz]. destruct (decide (z = old)) as [->|Hne].
    + right. intros [P' HP']. apply ptrs_snoc_inv in HP' as (P2&z&HP2&Hz2&Hne&_).
      rewrite <- (ptrs_det _ _ _ HP HP2) in Hz2. apply Hne. by eapply leads_det.
    + left. exists (<[old := z]> P). by constructor.
  - right. intros [P' HP']. apply ptrs_snoc_inv in HP' as (P2&z&HP2&_). apply Hn. by exists P2.
Qed.
(** the first call that redirects an index to itself *)
Lemma bad_culprit reps : redir_bad reps ->
  exists pre P old new post, reps = pre ++ (old, new) :: post /\ redir_ptrs pre P /\ leads P new old.
Proof.
  induction reps as [|[old new] reps IH] using rev_ind; intros Hb.
  - destruct Hb. exists ∅. constructor.
  - destruct (redir_ptrs_dec reps) as [[P HP]|Hn].
    + destruct (ptrs_total _ _ new HP) as [z Hz]. destruct (decide (z = old)) as [->|Hne].
      * by exists reps, P, old, new, [].
      * destruct Hb. exists (<[old := z]> P). by constructor.
    + destruct (IH Hn) as (pre&P&o&n&post&->&HP&Hl). exists pre, P, o, n, (post ++ [(old, new)]).
      by rewrite <- app_assoc.
Qed.

(** ** Resolved lists *)
Lemma redir_resolved_det reps res res' : redir_resolved reps res -> redir_resolved reps res' -> res = res'.
Proof.
  intros (P&HP&H) (P'&HP'&H'). rewrite <- (ptrs_det _ _ _ HP HP') in H'. clear HP HP' P'.
  revert res' H'. induction H as [|[o w] [o1 z1] L1 res1 [Ho Hf] _ IH]; intros res' HL'; inversion HL' as [|? [o2 z2] ? ? [Ho2 Hf2] ?]; subst; [done|].
  cbn in *. subst. f_equal; [|by apply IH]. f_equal. by eapply leads_det.
Qed.
Lemma resolved_finals reps res : redir_resolved reps res ->
  Forall2 (fun on oz => oz.1 = on.1 /\ redir_final reps on.2 oz.2) reps res.
Proof. intros (P&HP&H). eapply Forall2_impl; [exact H|]. intros on oz [? ?]. split; [done|]. by eapply leads_final. Qed.
Lemma resolved_exists reps : (exists P, redir_ptrs reps P) -> exists res, redir_resolved reps res.
Proof.
  intros [P HP]. assert (forall L, exists res : list (idx * idx), Forall2 (fun on oz => oz.1 = on.1 /\ leads P on.2 oz.2) L res) as H.
  { induction L as [|[o n] L [res IH]]; [by exists []|]. destruct (ptrs_total _ _ n HP) as [z Hz]. exists ((o, z) :: res). by constructor. }
  destruct (H reps) as [res Hres]. exists res, P. done.
Qed.
Lemma resolved_nil res : redir_resolved [] res -> res = [].
Proof. intros (P&_&H). by apply Forall2_nil_inv_l in H. Qed.
(** with distinct sources: every target is replaced by its final destination *)
Lemma resolved_distinct reps res : NoDup reps.*1 ->
  Forall2 (fun on oz => oz.1 = on.1 /\ redir_final reps on.2 oz.2) reps res -> ~ redir_loop reps -> redir_resolved reps res.
Proof.
  intros Hnd H Hl. destruct (no_loop_ptrs _ Hl) as [P HP]. exists P. split; [done|]. eapply Forall2_impl; [exact H|].
  intros on oz [? ?]. split; [done|]. by apply (proj2 (ptrs_distinct _ Hnd) P).
Qed.

(** ** Destinations *)
Lemma first_split (reps : list (idx * idx)) y pre new post pre' new' post' :
  reps = pre ++ (y, new) :: post -> reps = pre' ++ (y, new') :: post' -> y ∉ pre.*1 -> y ∉ pre'.*1 -> new = new'.
Proof.
  intros -> H. revert pre' H. induction pre as [|[a b] pre IH]; intros [|[a' b'] pre'] H Hn Hn'; cbn in *.
  - by injection H as ->.
  - injection H as -> -> _. destruct Hn'. left.
  - injection H as -> -> _. destruct Hn. left.
  - injection H as -> -> H. eapply IH; [exact H| |]; intros ?; [apply Hn|apply Hn']; by right.
Qed.
Lemma redir_dest_det reps y z z' : redir_dest reps y z -> redir_dest reps y z' -> z = z'.
Proof.
  intros [[Hn ->]|(pre&new&post&P&Hs&Hp&HP&Hl)] [[Hn' ->]|(pre'&new'&post'&P'&Hs'&Hp'&HP'&Hl')]; [done| | |].
  - destruct Hn. rewrite Hs', fmap_app. apply elem_of_app. right. left.
  - destruct Hn'. rewrite Hs, fmap_app. apply elem_of_app. right. left.
  - rewrite <- (ptrs_det _ _ _ HP HP') in Hl'. rewrite <- (first_split _ _ _ _ _ _ _ _ Hs Hs' Hp Hp') in Hl'. by eapply leads_det.
Qed.
Lemma redir_dest_final reps y z : redir_dest reps y z -> redir_final reps y z.
Proof.
  intros [[Hn ->]|(pre&new&post&P&Hs&Hp&HP&Hl)]; [by split; [apply rtc_refl|]|].
  destruct (leads_final _ _ _ _ HP Hl) as [Hr Hz]. split; [|done]. eapply rtc_l; [|exact Hr]. cbn. rewrite Hs.
  apply elem_of_app. right. left.
Qed.
Lemma redir_dest_exists reps y : (exists P, redir_ptrs reps P) -> exists z, redir_dest reps y z.
Proof.
  intros [P HP]. destruct (decide (y ∈ reps.*1)) as [Hy|Hn]; [|exists y; by left].
  assert (exists pre new post, reps = pre ++ (y, new) :: post /\ y ∉ pre.*1) as (pre&new&post&Hs&Hp).
  { clear HP. induction reps as [|[a b] reps IH]; [by apply elem_of_nil in Hy|]. destruct (decide (y = a)) as [->|Hne].
    - exists [], b, reps. split; [done|]. by intros ?%elem_of_nil.
    - apply elem_of_cons in Hy as [Hy|Hy]; [done|]. destruct (IH Hy) as (pre&new&post&->&Hp). exists ((a, b) :: pre), new, post.
      split; [done|]. cbn. by intros [?|?]%elem_of_cons. }
  destruct (ptrs_total _ _ new HP) as [z Hz]. exists z. right. by exists pre, new, post, P.
Qed.
(** with distinct sources: the end of the chain *)
Theorem redir_dest_distinct reps : NoDup reps.*1 -> ~ redir_loop reps ->
  forall y z, redir_dest reps y z <-> redir_final reps y z.
Proof.
  intros Hnd Hl y z. split; [apply redir_dest_final|]. intros Hf. pose proof (no_loop_ptrs _ Hl) as HP.
  destruct (redir_dest_exists reps y HP) as [z' Hz']. destruct HP as [P HP].
  apply (proj2 (proj2 (ptrs_distinct _ Hnd) P y z HP)) in Hf.
  pose proof (proj2 (proj2 (ptrs_distinct _ Hnd) P y z' HP) (redir_dest_final _ _ _ Hz')) as Hf'.
  by rewrite (leads_det _ _ _ _ Hf Hf').
Qed.
