(** * Debug and release builds *)
From Verif Require Export Sim BidiFinal.
(** the same program compiled without debug assertions *)
Definition release (E : env) : env := Env (e_kinds E) (e_opp E) (e_chk E) (e_ho E) false.
Section release.
  Context {D : Type} (E : env).
  Lemma do_commit_release (t : trans D) g : ~ guard_fails E g t -> do_commit (release E) t g = do_commit E t g.
  Proof.
    intros Hg. unfold do_commit. cbn [e_dbg release]. rewrite !andb_false_l. unfold guard_fails in Hg.
    destruct (e_dbg E); [|done]. rewrite !andb_true_l.
    destruct (N.eqb_spec (t_ctx t) (g_ctx g)) as [Hc|Hc]; [|naive_solver]. cbn [negb].
    destruct (bool_decide_reflect (t_alloc t = [])) as [Ha|Ha]; [|naive_solver]. done.
  Qed.
  Lemma do_commit_guarded (t : trans D) g g' r : do_commit E t g = Done g' r -> ~ guard_fails E g t.
  Proof.
    unfold do_commit, guard_fails. intros H [Hd Hg]. rewrite Hd in H. cbn [andb] in H. revert H.
    destruct (N.eqb_spec (t_ctx t) (g_ctx g)) as [Hc|Hc]; [|done]. cbn [negb].
    destruct (bool_decide_reflect (t_alloc t = [])) as [Ha|Ha]; [|done]. naive_solver.
  Qed.
  Lemma commit_release (t : trans D) g : ~ guard_fails E g t -> commit (release E) t g = commit E t g.
  Proof. intros Hg. unfold commit, bindM. by rewrite do_commit_release. Qed.
  Lemma commit_checked_release (t : trans D) c g : ~ guard_fails E g t -> commit_checked (release E) t c g = commit_checked E t c g.
  Proof. intros Hg. unfold commit_checked, bindM. by rewrite do_commit_release. Qed.
  Lemma commit_guarded (t : trans D) g g' : commit E t g = Done g' tt -> ~ guard_fails E g t.
  Proof. unfold commit, bindM. destruct (do_commit E t g) eqn:Hd; [|done]. intros _. by eapply do_commit_guarded. Qed.
  Lemma commit_checked_guarded (t : trans D) c g g' : commit_checked E t c g = Done g' tt -> ~ guard_fails E g t.
  Proof. unfold commit_checked, bindM. destruct (do_commit E t g) eqn:Hd; [|done]. intros _. by eapply do_commit_guarded. Qed.

  Lemma step_release T w o w' : step (D:=D) E T w o w' -> step (release E) T w o w'.
  Proof.
    intros Hs.
    destruct Hs as [u|k c u cnt Hc|k c u cnt Hc|k n c u cnt t cnt' t' i Hk Hc Hn Hlt Hi|k d c u cnt t cnt' t' i Hk Hc Hlt Hi
      |k c u cnt t cnt' t' i Hk Hc Hlt Hi|k i n c t t' Hk Hn Hf|k i n c t t' Hk Hn Hin Hf|k i c t Hk|k i f c t t' Hk Hf Hm|k i f c t t' Hk Hf Hm
      |k o z c t Hk Hz|k o z c t Hk Hz|k kg c t g t' Hk Hg Hm|k|kg|kg k c t g g' Hk Hg Hm|kg k chk c t g g' Hk Hg Hm|kg k p c t g g' Hk Hg Hm Hgd Hfl
      |kg c0 g c u cnt cnt' g' Hg Hc Hlt Hsw|kg s cnt g Hall Hd].
    - constructor.
    - exact (st_new_graph (release E) T w k c u cnt Hc).
    - exact (st_new_trans (release E) T w k c u cnt Hc).
    - eapply st_insert; [done..|]. rewrite <- Hi. unfold trans_insert. by rewrite (arena_insert_dbg E (release E)).
    - eapply st_alloc; [done..|]. rewrite <- Hi. unfold trans_alloc. by rewrite (arena_alloc_dbg E (release E)).
    - eapply st_alloc_untyped; [done..|]. rewrite <- Hi. unfold trans_alloc_untyped, arena_alloc_untyped.
      by rewrite (proj1 (dist_alloc_dbg (e_dbg E) false cnt Hlt)).
    - by eapply st_fill.
    - by eapply st_fill_untyped.
    - by eapply st_remove.
    - by eapply st_mutate.
    - by eapply st_update.
    - by eapply st_redirect.
    - by eapply st_redirect_all.
    - by eapply st_merge.
    - by constructor.
    - by constructor.
    - eapply st_commit; [done..|]. rewrite commit_release; [done|]. by eapply commit_guarded.
    - eapply st_commit_checked; [done..|]. rewrite commit_checked_release; [done|]. by eapply commit_checked_guarded.
    - eapply st_commit_panic; [done..| | |done]; [by rewrite commit_release|]. by intros [? _].
    - eapply st_switch; [done..|]. rewrite <- Hsw. unfold switch_context.
      change (arena_new (release E)) with (arena_new (D:=D) E). rewrite <- (switch_insert_dbg E (release E)); done.
    - by eapply st_deser.
  Qed.
  Lemma runs_release T os w : runs (D:=D) E T os w -> runs (release E) T os w.
  Proof. induction 1; [constructor|]. econstructor; [done|]. by apply step_release. Qed.

  (** the only difference: a commit of a transaction with unfilled reservations *)
  Definition op_commits (o : op (D:=D)) (k : nat) : Prop :=
    (exists kg, o = OCommit kg k) \/ (exists kg chk, o = OCommitChecked kg k chk) \/ exists kg p, o = OCommitPanic kg k p.
  Lemma step_debug T w lg o w' : lreach E T w lg -> step (release E) T w o w' ->
    step E T w o w' \/ exists k s, op_commits o k /\ ts_run ts_empty (lg k) = Some s /\ ts_res s <> ∅.
  Proof.
    intros Hr Hs.
    assert (forall kg k c t g, w_trans w !! k = Some (c, t) -> w_graphs w !! kg = Some (c, g) ->
      ~ guard_fails E g t \/ exists s, ts_run ts_empty (lg k) = Some s /\ ts_res s <> ∅) as Hgd.
    { intros kg k c t g Hk Hg. assert (pair_log E T g t (lg k)) as Hp by by exists w, lg, kg, k, c.
      destruct (pair_log_rep E T g t (lg k) Hp) as (s&Hrun&_). destruct (decide (ts_res s = ∅)) as [He|Hne]; [left|right; eauto].
      rewrite (final_guard E T g t s); [by intros [_ ?]|]. by exists (lg k). }
    destruct Hs as [u|k c u cnt Hc|k c u cnt Hc|k n c u cnt t cnt' t' i Hk Hc Hn Hlt Hi|k d c u cnt t cnt' t' i Hk Hc Hlt Hi
      |k c u cnt t cnt' t' i Hk Hc Hlt Hi|k i n c t t' Hk Hn Hf|k i n c t t' Hk Hn Hin Hf|k i c t Hk|k i f c t t' Hk Hf Hm|k i f c t t' Hk Hf Hm
      |k o z c t Hk Hz|k o z c t Hk Hz|k kg c t g t' Hk Hg Hm|k|kg|kg k c t g g' Hk Hg Hm|kg k chk c t g g' Hk Hg Hm|kg k p c t g g' Hk Hg Hm Hf Hfl
      |kg c0 g c u cnt cnt' g' Hg Hc Hlt Hsw|kg s cnt g Hall Hd].
    17-19: destruct (Hgd kg k c t g Hk Hg) as [Hnf|(s&Hres)]; [left|right; exists k, s; split; [unfold op_commits; eauto 6|done]].
    all: try left.
    - constructor.
    - exact (st_new_graph E T w k c u cnt Hc).
    - exact (st_new_trans E T w k c u cnt Hc).
    - eapply st_insert; [done..|]. rewrite <- Hi. unfold trans_insert. by rewrite (arena_insert_dbg E (release E)).
    - eapply st_alloc; [done..|]. rewrite <- Hi. unfold trans_alloc. by rewrite (arena_alloc_dbg E (release E)).
    - eapply st_alloc_untyped; [done..|]. rewrite <- Hi. unfold trans_alloc_untyped, arena_alloc_untyped.
      by rewrite (proj1 (dist_alloc_dbg (e_dbg E) false cnt Hlt)).
    - by eapply st_fill.
    - by eapply st_fill_untyped.
    - by eapply st_remove.
    - by eapply st_mutate.
    - by eapply st_update.
    - by eapply st_redirect.
    - by eapply st_redirect_all.
    - by eapply st_merge.
    - by constructor.
    - by constructor.
    - eapply st_commit; [done..|]. by rewrite <- commit_release.
    - eapply st_commit_checked; [done..|]. by rewrite <- commit_checked_release.
    - eapply st_commit_panic; [done..| |done|done]. by rewrite <- commit_release.
    - eapply st_switch; [done..|]. rewrite <- Hsw. unfold switch_context.
      change (arena_new (release E)) with (arena_new (D:=D) E). rewrite <- (switch_insert_dbg E (release E)); done.
    - by eapply st_deser.
  Qed.
End release.
