(** * Programs under different link types *)
From stdpp Require Export gmap.
From Verif Require Export Fault Stops Release Cut MachineAll.

(** the same enum with other [link_type!] declarations *)
Definition retype (E : env) (chk : nat -> link -> bool) : env := Env (e_kinds E) (e_opp E) chk (e_ho E) (e_dbg E).

Section types.
  Context {D : Type} (E : env) (chk : nat -> link -> bool).
  Implicit Types (g : graph D) (t : trans D) (w : world (D:=D)) (o : op (D:=D)).
  Let E' := retype E chk.
  Context (Hlax : forall v l, e_chk E v l = true -> chk v l = true).

  Lemma retype_do_commit t g : do_commit E' t g = do_commit E t g.
  Proof using. reflexivity. Qed.
  Lemma retype_check r g : match check_link_type (D:=D) E r g with
    | Done g' _ => check_link_type E' r g = Done g' tt
    | Panicked p g' => g' = g /\ p = PLinkType /\ (check_link_type E' r g = Done g tt \/ check_link_type E' r g = Panicked PLinkType g) end.
  Proof using Hlax.
    pose proof (check_link_type_spec E r g) as H1. pose proof (check_link_type_spec E' r g) as H2.
    destruct (check_link_type E r g) as [g1 []|p g1], (check_link_type E' r g) as [g2 []|p2 g2].
    - destruct H1 as [-> _], H2 as [-> _]. done.
    - destruct H1 as [-> H1], H2 as (_&_&x&y&l&ny&Ha&Hy&Hf). pose proof (Hlax _ _ (H1 x y l ny Ha Hy)) as Hc. cbn in Hf. congruence.
    - destruct H1 as (->&->&_), H2 as [-> _]. auto.
    - destruct H1 as (->&->&_), H2 as (->&->&_). auto.
  Qed.
  (** a commit does the same, or stops because of the types of [E] after it has done it *)
  Lemma retype_commit t g : commit E t g = commit E' t g \/ exists g' r, do_commit E t g = Done g' r /\ commit E t g = Panicked PLinkType g' /\ commit E' t g = Done g' tt.
  Proof using Hlax.
    unfold commit, bindM. rewrite retype_do_commit. destruct (do_commit E t g) as [g' r|p g']; [|by left]. pose proof (retype_check r g') as H.
    destruct (check_link_type E r g') as [g1 []|p g1]; [by left|]. destruct H as (->&->&[-> | ->]); [right|by left]. by exists g', r.
  Qed.

  (** no closure has stopped a commit that went as far as the types *)
  Lemma done_no_fault t g g' r p (T : Prop) : WF E g -> (T -> gtyped g) -> trans_ok E T g t -> do_commit E t g = Done g' r -> p <> PUnwrap ->
    ~ guard_fails E g t /\ ~ commit_fault t p (gmap_of g).
  Proof using.
    intros Hwf Hty Hok Hd Hp. pose proof (do_commit_spec E T g t Hwf Hty Hok) as Hs. rewrite Hd in Hs. destruct Hs as (Hg&g1&m1&Hc).
    split; [done|]. destruct (cm_spec _ _ _ _ _ _ _ _ Hc) as (m2&m3&m4&m5&(res&Hres&->)&Hm&Hu&_). change (x_mut (trans_txn t)) with (t_mut t) in Hm. change (x_upd (trans_txn t)) with (t_upd t) in Hu.
    intros (m0&(res'&Hres'&->)&Hf). assert (res' = res) as -> by by eapply redir_resolved_det. destruct Hf as [Hf|(mm&Hm'&Hf)].
    - destruct Hf as (pre&i&f&post&mi&n&Heq&Hpre&Hi&[[n' Hf]|(n'&_&Hf&_)]); [|done]. rewrite Heq in Hm. pose proof (sp_mutates_app pre ((i, f) :: post) (amap (t_inc t) ∪ (node_redirects res <$> gmap_of g))) as Ha. rewrite Hpre in Ha. cbn [sp_mutates] in Ha. rewrite Hi, Hf in Ha. assert (Some m3 = None) as ?; [|done]. by etransitivity; [symmetry; exact Hm|exact Ha].
    - assert (mm = m3) as -> by (assert (Some mm = Some m3) as [= ->]; [etransitivity; [symmetry; exact Hm'|exact Hm]|done]).
      destruct Hf as (pre&i&f&post&mi&n&Heq&Hpre&Hi&[Hf|(n'&_&Hf&_)]); [|done]. rewrite Heq in Hu. pose proof (sp_updates_app pre ((i, f) :: post) m3) as Ha. rewrite Hpre in Ha. cbn [sp_updates] in Ha. rewrite Hi, Hf in Ha. assert (Some m4 = None) as ?; [|done]. by etransitivity; [symmetry; exact Hu|exact Ha].
  Qed.

  (** ** One call *)
  (** what was a commit stopped by the types is a commit that succeeds *)
  Definition eased o o' : Prop := o' = o \/ exists kg k, o = OCommitPanic kg k PLinkType /\ o' = OCommit kg k.
  Definition stopped o o' : Prop :=
    o' = o \/ exists kg k, (o = OCommit kg k \/ exists c, o = OCommitChecked kg k c) /\ o' = OCommitPanic kg k PLinkType.

  Lemma step_retype T w o w' : step E T w o w' -> (exists o', eased o o' /\ step E' T w o' w').
  Proof using Hlax.
    intros Hs.
    destruct Hs as [u|k c u cnt Hc|k c u cnt Hc|k n c u cnt t cnt' t' i Hk Hc Hn Hlt Hi|k d c u cnt t cnt' t' i Hk Hc Hlt Hi
      |k c u cnt t cnt' t' i Hk Hc Hlt Hi|k i n c t t' Hk Hn Hf|k i n c t t' Hk Hn Hin Hf|k i c t Hk|k i f c t t' Hk Hf Hm|k i f c t t' Hk Hf Hm
      |k o z c t Hk Hz|k o z c t Hk Hz|k kg c t g t' Hk Hg Hm|k|kg|kg k c t g g' Hk Hg Hm|kg k chk0 c t g g' Hk Hg Hm|kg k p c t g g' Hk Hg Hm Hgd Hfl
      |kg c0 g c u cnt cnt' g' Hg Hc Hlt Hsw|kg s cnt g Hall Hd].
    19: {destruct (retype_commit t g) as [Heq|(g2&r&_&Hp&Hd)].
      - eexists. split; [by left|]. eapply st_commit_panic; [done|done|by rewrite <- Heq|done|done].
      - rewrite Hp in Hm. injection Hm as <- <-. exists (OCommit kg k). split; [right; by eauto|]. by eapply st_commit. }
    all: eexists; (split; [by left|]).
    - constructor.
    - exact (st_new_graph E' T w k c u cnt Hc).
    - exact (st_new_trans E' T w k c u cnt Hc).
    - by eapply st_insert.
    - by eapply st_alloc.
    - by eapply st_alloc_untyped.
    - by eapply st_fill.
    - by eapply st_fill_untyped.
    - by eapply st_remove.
    - by eapply st_mutate.
    - by eapply st_update.
    - by eapply st_redirect.
    - by eapply st_redirect_all.
    - by eapply st_merge.
    - by constructor.
    - by constructor.
    - eapply st_commit; [done..|]. destruct (retype_commit t g) as [<-|(g2&r&_&Hp&_)]; [done|congruence].
    - eapply st_commit_checked; [done..|]. revert Hm. unfold commit_checked, bindM. rewrite retype_do_commit.
      destruct (do_commit E t g) as [g1 r|p g1]; [|done]. pose proof (retype_check r g1) as H.
      destruct (check_link_type E r g1) as [g2 []|p g2]; [|done]. by rewrite H.
    - eapply st_switch; [done..|]. revert Hsw. unfold switch_context. 
      change (switch_insert E' (arena_items (g_nodes g)) [] (cnt, arena_new E')) with (switch_insert E (arena_items (g_nodes g)) [] (cnt, arena_new E)).
      destruct (switch_insert E _ _ _) as [[c1 a] m|p [c1 a]]; [|done]. destruct (switch_relabel _ _ _) as [a1 []|]; [|done].
      change (rebuild E' u a1) with (rebuild E u a1). destruct (rebuild E u a1) as [[g1 r] []|]; [|done].
      pose proof (retype_check r g1) as H. destruct (check_link_type E r g1) as [g2 []|]; [|done]. by rewrite H.
    - by eapply st_deser.
  Qed.

  Lemma step_strict T w o w' : reachable E' T w -> step E' T w o w' -> (forall kg c, o <> OSwitch kg c) -> exists o', stopped o o' /\ step E T w o' w'.
  Proof using Hlax.
    intros Hr Hs Hns. pose proof (reachable_inv E' T w Hr) as Hinv.
    assert (forall k kg c t g g' r, w_trans w !! k = Some (c, t) -> w_graphs w !! kg = Some (c, g) -> do_commit E t g = Done g' r ->
      commit E t g = Panicked PLinkType g' -> step E T w (OCommitPanic kg k PLinkType) (set_g (del_t w k) kg (c, g'))) as Hstop.
    { intros k kg c t g g' r Hk Hg Hd Hc. destruct (inv_trans_ok E' T w kg k c g t Hinv Hg Hk) as (Hwf&Hty&Hok&_).
      assert (~ guard_fails E g t /\ ~ commit_fault t PLinkType (gmap_of g)) as [? ?].
      { apply (done_no_fault t g g' r PLinkType T); [|done| |done|done]; [by destruct Hwf|by destruct Hok]. }
      by eapply st_commit_panic. }
    destruct Hs as [u|k c u cnt Hc|k c u cnt Hc|k n c u cnt t cnt' t' i Hk Hc Hn Hlt Hi|k d c u cnt t cnt' t' i Hk Hc Hlt Hi
      |k c u cnt t cnt' t' i Hk Hc Hlt Hi|k i n c t t' Hk Hn Hf|k i n c t t' Hk Hn Hin Hf|k i c t Hk|k i f c t t' Hk Hf Hm|k i f c t t' Hk Hf Hm
      |k o z c t Hk Hz|k o z c t Hk Hz|k kg c t g t' Hk Hg Hm|k|kg|kg k c t g g' Hk Hg Hm|kg k chk0 c t g g' Hk Hg Hm|kg k p c t g g' Hk Hg Hm Hgd Hfl
      |kg c0 g c u cnt cnt' g' Hg Hc Hlt Hsw|kg s cnt g Hall Hd].
    17: { destruct (retype_commit t g) as [Heq|(g2&r&Hd&Hp&Hd')].
      - eexists. split; [by left|]. eapply st_commit; [done..|]. by rewrite Heq.
      - assert (g2 = g') as -> by (rewrite Hm in Hd'; congruence). eexists. split; [right; exists kg, k; split; [by left|done]|]. by eapply Hstop. }
    17: { revert Hm. unfold commit_checked, bindM. rewrite retype_do_commit. destruct (do_commit E t g) as [g1 r|p g1] eqn:Hd; [|done].
      pose proof (retype_check r g1) as H. destruct (check_link_type E r g1) as [g2 []|p g2] eqn:Hck.
      - rewrite H. intros Hm. eexists. split; [by left|]. eapply st_commit_checked; [done..|]. unfold commit_checked, bindM. by rewrite Hd, Hck.
      - destruct H as (->&->&[-> | ->]); [|done]. cbn. destruct (check_change g1 r chk0) as [[|]|]; try done. intros [= <-].
        eexists. split; [right; exists kg, k; split; [right; by eexists|done]|]. eapply Hstop; [done|done|done|]. unfold commit, bindM. by rewrite Hd. }
    17: { eexists. split; [by left|]. destruct (retype_commit t g) as [Heq|(g2&r&_&_&Hd)]; [|congruence].
      eapply st_commit_panic; [done|done|by rewrite Heq|done|done]. }
    17: { by destruct (Hns kg c). }
    all: eexists; (split; [by left|]).
    - constructor.
    - exact (st_new_graph E T w k c u cnt Hc).
    - exact (st_new_trans E T w k c u cnt Hc).
    - by eapply st_insert.
    - by eapply st_alloc.
    - by eapply st_alloc_untyped.
    - by eapply st_fill.
    - by eapply st_fill_untyped.
    - by eapply st_remove.
    - by eapply st_mutate.
    - by eapply st_update.
    - by eapply st_redirect.
    - by eapply st_redirect_all.
    - by eapply st_merge.
    - by constructor.
    - by constructor.
    - by eapply st_deser.
  Qed.

  (** ** Programs *)
  Theorem final_laxer T os w : runs E T os w -> exists os', Forall2 eased os os' /\ runs E' T os' w.
  Proof using Hlax.
    induction 1 as [|os w o w' _ (os'&HF&Hr) Hs]; [exists []; split; constructor|]. destruct (step_retype T w o w' Hs) as (o'&Ho&Hs').
    exists (os' ++ [o']). split; [apply Forall2_app; [done|constructor; [done|constructor]]|by econstructor].
  Qed.
  Theorem final_stricter T os w : runs E' T os w -> no_switch os -> exists os', Forall2 stopped os os' /\ runs E T os' w.
  Proof using Hlax.
    induction 1 as [|os w o w' Hr0 IH Hs]; intros Hn; [exists []; split; constructor|].
    destruct IH as (os'&HF&Hr). { intros kg c Hin. apply (Hn kg c), elem_of_app. by left. }
    destruct (step_strict T w o w' (runs_reachable E' T os w Hr0) Hs) as (o'&Ho&Hs').
    { intros kg c ->. apply (Hn kg c), elem_of_app. right. left. }
    exists (os' ++ [o']). split; [apply Forall2_app; [done|constructor; [done|constructor]]|by econstructor].
  Qed.
End types.

(** ** Without link types *)
Definition untyped (E : env) : env := retype E (fun _ _ => true).

Section untyped.
  Context {D : Type} (E : env).
  Context (Hbf : bidi_fields E).
  Implicit Types (g : graph D) (t : trans D) (w : world (D:=D)) (o : op (D:=D)).
  Let U := untyped E.

  (** why the phases of a commit stop *)
  Lemma phases_stop (T : Prop) t g p g' : WF E g -> (T -> gtyped g) -> trans_ok E T g t -> do_commit E t g = Panicked p g' ->
    guard_fails E g t \/ (exists m', commit_stops (trans_txn t) p (gmap_of g) m') \/ commit_left E t p (gmap_of g) g' \/
    exists g1 r, bidi_panics E (D:=D) (lc_rems r) (lc_adds r) g1 p.
  Proof using.
    intros Hwf Hty Hok Hd. apply (guard_cases E g t); intros Hg; [by left|right].
    rewrite (do_commit_unfold E g t Hg) in Hd. revert Hd. set (prog := (run! commit_body E t; _)).
    assert (wp prog (g, lcr_new) (fun _ _ => True) (fun p '(g', _) => (exists m', commit_stops (trans_txn t) p (gmap_of g) m') \/
      commit_left E t p (gmap_of g) g' \/ exists g1 r, bidi_panics E (D:=D) (lc_rems r) (lc_adds r) g1 p)) as Hwp.
    { apply wp_bind. eapply wp_mono;
        [apply wp_and; [apply (commit_body_wp E T g t (gmap_of g)); try done; by apply (gmap_of_abs E)
                       |apply (commit_body_stops E T g t (gmap_of g)); try done; by apply (gmap_of_abs E)]|..]; cbn beta.
      2:{ intros q [g1 r1] [_ [(m'&_&Hm')|Hft]]; [left; by exists m'|right; by left]. }
      intros _ [g1 r1] [(m1&Hsp&Hst) _]. apply wp_bind, wp_get, wp_bind.
      eapply wp_mono; [apply apply_bidirectional_links_wp; apply Hst|..]; cbn beta.
      - intros _ [g2 r2] _. by apply wp_ret.
      - intros q [g2 r2] (Hb&_). right. right. by eexists _, _. }
    unfold wp in Hwp. destruct (prog (g, lcr_new)) as [[g1 r1] r|q [g1 r1]]; [done|]. by intros [= -> ->].
  Qed.

  Lemma untyped_no_panic (T : Prop) t g p g' : WF E g -> (T -> gtyped g) -> trans_ok E T g t ->
    commit U t g = Panicked p g' -> ~ guard_fails E g t -> ~ commit_fault t p (gmap_of g) -> p <> PLinkType.
  Proof using Hbf.
    intros Hwf Hty Hok Hc Hg Hf ->. unfold commit, bindM in Hc. destruct (do_commit U t g) as [g1 r|q g1] eqn:Hd.
    { pose proof (check_link_type_spec U r g1) as Hk. rewrite Hc in Hk. by destruct Hk as (_&_&x&y&l&ny&_&_&Hk). }
    injection Hc as -> ->. change (do_commit U t g) with (do_commit E t g) in Hd.
    assert (forall l k, k ∈ e_opp E l -> ~ badkind E k) as Hnb.
    { intros l k Hk. destruct (Hbf l k Hk) as [_ H]. unfold badkind. destruct H as [-> |[sk ->]]; naive_solver. }
    destruct (phases_stop T t g PLinkType g' Hwf Hty Hok Hd) as [?|[[m' Hst]|[Hcl|(g1&r&Hb)]]]; [done|..].
    - destruct Hst as [Hr|(m1&_&[Hm|(m2&_&[Hu|(m3&_&[Hr|(m4&_&Hr)])])])].
      + by destruct Hr as [[? _]|[? _]].
      + by destruct Hm as (?&?&?&?&_&_&_&?).
      + by destruct Hu as (?&?&?&?&_&_&_&?).
      + by destruct Hr as [[? _]|[? _]].
      + by destruct Hr as (?&?&?&_&_&_&?).
    - apply Hf. destruct Hcl as (m1&Hm1&Hcl). exists m1. split; [done|]. destruct Hcl as [Hcl|(m2&Hm2&Hcl)].
      + left. destruct Hcl as (pre&x&f&post&mi&n&n'&k&?&?&?&_&_&[[? _]|(_&?&_)]); [|done]. exists pre, x, f, post, mi, n. eauto 10.
      + right. exists m2. split; [done|]. destruct Hcl as (pre&x&f&post&mi&n&?&?&?&[[? _]|(?&?&_&?&_)]); [|done]. exists pre, x, f, post, mi, n. eauto 10.
    - destruct Hb as [(x&y&l&k&_&Hk&Hb)|(x&y&l&ny&_&_&_&[(?&_)|(k&Hm&[Hb|[? _]])])]; [by eapply Hnb|done| |done].
      eapply (Hnb l k); [|done]. assert (k ∈ match_bd ny (e_opp E l)) as Hin by (rewrite Hm; left).
      unfold match_bd in Hin. by apply elem_of_list_filter in Hin as [_ ?].
  Qed.

  (** the calls of a program that catches the panics of link types, as calls without them *)
  Definition uncaught o : op (D:=D) := match o with OCommitPanic kg k PLinkType => OCommit kg k | _ => o end.
  Definition any_type_op o : Prop := any_op E o \/ exists kg k, o = OCommitPanic kg k PLinkType.

  Lemma step_untyped (T : Prop) w o w' : reachable U T w -> step E T w o w' -> any_type_op o -> step U T w (uncaught o) w'.
  Proof using Hbf.
    intros Hr Hs Ho. destruct (step_retype E (fun _ _ => true) (fun _ _ _ => eq_refl) T w o w' Hs) as (o'&[-> |(kg&k&->&->)]&Hs'); [|done].
    destruct Ho as [Ho|(kg&k&->)]; [by destruct o|]. exfalso. pose proof (reachable_inv U T w Hr) as Hinv.
    inversion Hs' as [| | | | | | | | | | | | | | | | | |? ? ? c t g g' Hk Hg Hm Hgd Hfl| |]. subst.
    destruct (inv_trans_ok U T w kg k c g t Hinv Hg Hk) as (Hwf&Hty&Hok&_).
    eapply (untyped_no_panic T t g PLinkType g'); [by destruct Hwf|done|by destruct Hok|done|done|done|done].
  Qed.

  Theorem final_untyped (T : Prop) os w : runs E T os w -> Forall any_type_op os -> runs U T (uncaught <$> os) w.
  Proof using Hbf.
    induction 1 as [|os w o w' _ IH Hs]; intros Ha; [constructor|]. apply Forall_app in Ha as [Ha Ho]. specialize (IH Ha).
    rewrite fmap_app. econstructor; [done|]. apply step_untyped; [by eapply runs_reachable|done|by inversion Ho].
  Qed.

  Context (Hdb : e_dbg E = true) (Hone : forall l v, length (opposites_on E l v) <= 1).
  Theorem final_untyped_machine (T : Prop) os w : T -> runs E T os w -> Forall any_type_op os ->
    exists a s, cruns U T (uncaught <$> os) a s /\ same_contents U T w a /\
      forall kg c g, w_graphs w !! kg = Some (c, g) -> (graph_iter g).*1 = order_of U s kg.
  Proof using Hbf Hdb Hone.
    intros HT Hr Ha. destruct (final_runs_all (D:=D) U T) with (os := uncaught <$> os) (w := w) as (a&s&Hc&Hs&Ho&_); [done|done|done|done|done|by apply final_untyped| |by exists a, s].
    apply Forall_fmap. eapply Forall_impl; [done|]. intros o [Ho|(kg&k&->)]; [|exact I]. by destruct o.
  Qed.
End untyped.
