(** * Programs that mix contexts

    In [World.step] a transaction is committed to, and merges, graphs of the context object it
    was created from.  Here the program is free to hand any transaction to any graph; the call
    goes through if the code lets it. *)
From stdpp Require Export gmap.
From Verif Require Export WorldInv OrderHist.

(** [Context::default], typed_graph.rs:866-870: the id is the nil UUID.  [Context::new]
    (typed_graph.rs:873-878) draws a random one: [ONewCtx] takes any. *)
Definition ctx_default_id : N := 0%N.

Section mixing.
  Context {D : Type} (E : env) (T : Prop).

  Inductive free_step (w : world (D:=D)) : op (D:=D) -> world (D:=D) -> Prop :=
  | fs_step o w' : step E T w o w' -> free_step w o w'
  | fs_merge k kg c c' t g t' : w_trans w !! k = Some (c, t) -> w_graphs w !! kg = Some (c', g) ->
      trans_merge g t = Done t' tt ->
      free_step w (OMerge k kg) (del_g (set_t w k (c, t')) kg)
  | fs_commit kg k c c' t g g' : w_trans w !! k = Some (c, t) -> w_graphs w !! kg = Some (c', g) ->
      commit E t g = Done g' tt ->
      free_step w (OCommit kg k) (set_g (del_t w k) kg (c', g'))
  | fs_commit_checked kg k chk c c' t g g' : w_trans w !! k = Some (c, t) -> w_graphs w !! kg = Some (c', g) ->
      commit_checked E t chk g = Done g' tt ->
      free_step w (OCommitChecked kg k chk) (set_g (del_t w k) kg (c', g'))
  | fs_commit_panic kg k p c c' t g g' : w_trans w !! k = Some (c, t) -> w_graphs w !! kg = Some (c', g) ->
      commit E t g = Panicked p g' -> ~ guard_fails E g t -> ~ commit_fault t p (gmap_of g) ->
      free_step w (OCommitPanic kg k p) (set_g (del_t w k) kg (c', g')).

  Inductive free_runs : list (op (D:=D)) -> world (D:=D) -> Prop :=
  | fr_nil : free_runs [] world_new
  | fr_snoc os w o w' : free_runs os w -> free_step w o w' -> free_runs (os ++ [o]) w'.

  Lemma runs_free os w : runs E T os w -> free_runs os w.
  Proof. induction 1; [constructor|]. econstructor; [done|by constructor]. Qed.

  (** the ids of the contexts *)
  Definition ctx_ids (w : world (D:=D)) : list N := (w_ctx w).*1.

  Lemma ids_insert (l : list (N * idx)) c u cnt cnt' : l !! c = Some (u, cnt) -> (<[c := (u, cnt')]> l).*1 = l.*1.
  Proof.
    intros H. rewrite list_fmap_insert. cbn. apply list_insert_id. by rewrite list_lookup_fmap, H.
  Qed.
  Lemma step_ids w o w' : step E T w o w' -> ctx_ids w `prefix_of` ctx_ids w'.
  Proof.
    intros H. destruct H; unfold ctx_ids, set_cnt, set_t, set_g, del_t, del_g; cbn [w_ctx]; try done;
      try (by erewrite ids_insert); rewrite fmap_app; by apply prefix_app_r.
  Qed.
  Lemma free_ids w o w' : free_step w o w' -> ctx_ids w `prefix_of` ctx_ids w'.
  Proof. intros H. destruct H; [by eapply step_ids|done..]. Qed.

  Lemma same_id_same w kg k c c' t g : reachable E T w -> NoDup (ctx_ids w) ->
    w_trans w !! k = Some (c, t) -> w_graphs w !! kg = Some (c', g) -> t_ctx t = g_ctx g -> c' = c.
  Proof.
    intros Hr Hnd Ht Hg He. pose proof (reachable_inv E T w Hr) as Hi.
    destruct (iv_trans _ _ _ Hi k c t Ht) as (_&cnt&H1). destruct (iv_graph _ _ _ Hi kg c' g Hg) as (_&_&cnt'&H2).
    eapply NoDup_lookup; [exact Hnd| |]; unfold ctx_ids; rewrite list_lookup_fmap.
    - by rewrite H2.
    - rewrite H1. cbn. by rewrite He.
  Qed.
  Lemma merge_same_id (g : graph D) t t' : trans_merge g t = Done t' tt -> t_ctx t = g_ctx g.
  Proof. unfold trans_merge. destruct (t_ctx t =? g_ctx g)%N eqn:He; [|done]. intros _. by apply N.eqb_eq. Qed.
  Lemma do_commit_same_id (g : graph D) t o : e_dbg E = true -> do_commit E t g = o ->
    t_ctx t = g_ctx g \/ o = Panicked PCtxMismatch g.
  Proof.
    intros Hd <-. unfold do_commit. rewrite Hd. destruct (t_ctx t =? g_ctx g)%N eqn:He; [left; by apply N.eqb_eq|by right].
  Qed.
  Lemma commit_same_id (g : graph D) t g' : e_dbg E = true -> commit E t g = Done g' tt -> t_ctx t = g_ctx g.
  Proof.
    intros Hd H. destruct (do_commit_same_id g t _ Hd eq_refl) as [?|Hp]; [done|]. unfold commit, bindM in H. by rewrite Hp in H.
  Qed.
  Lemma checked_same_id (g : graph D) t chk g' : e_dbg E = true -> commit_checked E t chk g = Done g' tt -> t_ctx t = g_ctx g.
  Proof.
    intros Hd H. destruct (do_commit_same_id g t _ Hd eq_refl) as [?|Hp]; [done|]. unfold commit_checked, bindM in H. by rewrite Hp in H.
  Qed.
  Lemma guard_same_id (g : graph D) t : e_dbg E = true -> ~ guard_fails E g t -> t_ctx t = g_ctx g.
  Proof.
    intros Hd H. destruct (decide (t_ctx t = g_ctx g)) as [|Hne]; [done|]. destruct H. unfold guard_fails. tauto.
  Qed.

  Context (Hdb : e_dbg E = true).
  Lemma free_step_step w o w' : reachable E T w -> NoDup (ctx_ids w) -> free_step w o w' -> step E T w o w'.
  Proof using Hdb.
    intros Hr Hnd H. destruct H as [? ? H|? ? c c' ? ? ? Ht Hg H|? ? c c' ? ? ? Ht Hg H|? ? ? c c' ? ? ? Ht Hg H|? ? ? c c' ? ? ? Ht Hg H Hgf Hcf]; [done|..];
      (assert (c' = c) as ->; [refine (same_id_same w _ _ c c' _ _ Hr Hnd Ht Hg _)|]).
    - by eapply merge_same_id. - by econstructor.
    - by eapply commit_same_id. - by econstructor.
    - by eapply checked_same_id. - by econstructor.
    - by eapply guard_same_id. - by econstructor.
  Qed.
  Lemma final_free_runs os w : free_runs os w -> NoDup (ctx_ids w) -> runs E T os w.
  Proof using Hdb.
    induction 1 as [|os w o w' Hr IH Hs]; intros Hnd; [constructor|].
    assert (NoDup (ctx_ids w)) as Hnd1. { destruct (free_ids w o w' Hs) as [l Hl]. rewrite Hl in Hnd. by apply NoDup_app in Hnd as [? _]. }
    specialize (IH Hnd1). refine (runs_snoc E T os w o w' IH _). apply free_step_step; [by eapply runs_reachable|done|done].
  Qed.
End mixing.
