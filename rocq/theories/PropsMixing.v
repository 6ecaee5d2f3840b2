(** * Transactions and graphs of different contexts: C91 *)
From stdpp Require Export gmap.
From Verif Require Import Mixing Sim ExHist ExTrans PropsOrder.

(** ** C91 *)
(** The rule that a transaction is used with graphs of its own context, which the other theorems
    take for granted ([runs]), is enforced by a debug build: [free_runs] are the programs that
    hand any transaction to any graph, and go on if the call returns.  If the ids of the
    contexts are different -- those of [Context::new] are random UUIDs -- no call of the program
    has mixed two contexts. *)
Theorem C91_enforced_partial : forall {D} (E : env) (T : Prop) (os : list (op (D:=D))) w,
  e_dbg E = true -> free_runs E T os w -> NoDup (w_ctx w).*1 -> runs E T os w.
Proof. intros D E T os w Hd. exact (final_free_runs E T Hd os w). Qed.
Print Assumptions C91_enforced_partial.

(** One call: it returns only if the transaction and the graph are of one context. *)
Theorem C91_accepted_partial : forall {D} (E : env) (T : Prop) (w : world (D:=D)) k c t kg c' g,
  e_dbg E = true -> reachable E T w -> NoDup (w_ctx w).*1 -> w_trans w !! k = Some (c, t) -> w_graphs w !! kg = Some (c', g) ->
  ((exists g', commit E t g = Done g' tt) \/ (exists chk g', commit_checked E t chk g = Done g' tt) -> c' = c) /\
  (c' <> c -> commit E t g = Panicked PCtxMismatch g).
Proof.
  intros D E T w k c t kg c' g Hd Hr Hnd Ht Hg. split.
  - intros [[g' H]|(chk&g'&H)]; (eapply (same_id_same E T w kg k); [exact Hr|exact Hnd|exact Ht|exact Hg|]).
    + exact (commit_same_id E g t g' Hd H).
    + exact (checked_same_id E g t chk g' Hd H).
  - intros Hne. destruct (do_commit_same_id E g t _ Hd eq_refl) as [He|Hp].
    + destruct Hne. exact (same_id_same E T w kg k c c' t g Hr Hnd Ht Hg He).
    + unfold commit, bindM. by rewrite Hp.
Qed.
Print Assumptions C91_accepted_partial.

(** [merge] makes sure of it in every build. *)
Theorem C91_merge_partial : forall {D} (E : env) (T : Prop) (w : world (D:=D)) k c t kg c' g t',
  reachable E T w -> NoDup (w_ctx w).*1 -> w_trans w !! k = Some (c, t) -> w_graphs w !! kg = Some (c', g) ->
  trans_merge g t = Done t' tt -> c' = c.
Proof.
  intros D E T w k c t kg c' g t' Hr Hnd Ht Hg Hm. exact (same_id_same E T w kg k c c' t g Hr Hnd Ht Hg (merge_same_id g t t' Hm)).
Qed.
Print Assumptions C91_merge_partial.

(** The same program with contexts of different ids: it is a free program, and the commit of the
    transaction of the second context to the graph of the first one panics. *)
Definition e91d : list opn :=
  [ONewCtx 7; ONewCtx 8; ONewGraph 0 0; ONewTrans 0 0; OInsert 0 (nA 0 [] [] 2) 1; OCommit 0 0; ONewTrans 1 1; OInsert 1 (nB 0 [] 3) 1]%N.
Example C91_case : exists w t g, free_runs E0 True e91d w /\ NoDup (w_ctx w).*1 /\
  w_trans w !! 1 = Some (1, t) /\ w_graphs w !! 0 = Some (0, g) /\ graph_len g = 1 /\
  commit E0 t g = Panicked PCtxMismatch g /\ trans_merge g t = Panicked PCtxMismatch t.
Proof.
  exists (rw E0 e91d), (default (trans_new E0 0) (snd <$> w_trans (rw E0 e91d) !! 1)), (default (graph_new E0 0) (snd <$> w_graphs (rw E0 e91d) !! 0)).
  split; [apply runs_free, run_runs; [sides|vm_compute; reflexivity]|]. split; [apply (bool_decide_unpack _); vm_compute; exact I|].
  split; [vm_compute; reflexivity|]. split; [vm_compute; reflexivity|]. split; [vm_compute; reflexivity|]. split; vm_compute; reflexivity.
Qed.

(** Without the condition it is false: all contexts made by [Context::default()] have the nil
    UUID as their id.  Here a debug build lets a transaction of the second one replace node 1 of
    a graph of the first one. *)
Definition e91 : list opn :=
  [ONewCtx ctx_default_id; ONewCtx ctx_default_id; ONewGraph 0 0; ONewTrans 0 0; OInsert 0 (nA 0 [] [] 2) 1; OCommit 0 0;
   ONewTrans 1 1; OInsert 1 (nB 0 [] 3) 1]%N.
Definition w91 : world (D:=nat) := the_w (run_lw E0 e91).
Definition g91 : graph nat := default (graph_new E0 0) (snd <$> w_graphs w91 !! 0).
Definition t91 : trans nat := default (trans_new E0 0) (snd <$> w_trans w91 !! 1).
Definition g91' : graph nat := match commit E0 t91 g91 with Done g' _ => g' | Panicked _ g' => g' end.
Theorem C91_default_contexts_refuted : exists (os : list opn) w k c t kg c' g w' g',
  e_dbg E0 = true /\ runs E0 True os w /\ w_trans w !! k = Some (c, t) /\ w_graphs w !! kg = Some (c', g) /\ c <> c' /\
  free_runs E0 True (os ++ [OCommit kg k]) w' /\ w_graphs w' !! kg = Some (c', g') /\
  graph_get g 1%N = Some (nA 0 [] [] 2)%N /\ graph_get g' 1%N = Some (nB 0 [] 3).
Proof.
  exists e91, w91, 1, 1, t91, 0, 0, g91, (set_g (del_t w91 1) 0 (0, g91')), g91'.
  assert (w_trans w91 !! 1 = Some (1, t91)) as Ht by (vm_compute; reflexivity).
  assert (w_graphs w91 !! 0 = Some (0, g91)) as Hg by (vm_compute; reflexivity).
  assert (runs E0 True e91 w91) as Hr. { apply run_runs; [sides|]. vm_compute. reflexivity. }
  split; [reflexivity|]. split; [exact Hr|]. split; [exact Ht|]. split; [exact Hg|]. split; [discriminate|].
  split. { apply (fr_snoc E0 True e91 w91); [exact (runs_free E0 True e91 w91 Hr)|].
    eapply (fs_commit E0 True w91 0 1 1 0 t91 g91 g91' Ht Hg). vm_compute. reflexivity. }
  split; [apply lookup_insert|]. split; computes.
Qed.
Print Assumptions C91_default_contexts_refuted.
