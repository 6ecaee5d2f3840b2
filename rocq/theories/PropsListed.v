(** * Exactly when a commit succeeds: C74 *)
From Verif Require Import Known ExTrans PropsBidi PropsFindings PropsExact PropsOrder.

(** ** C74 *)
(** [known E T g B]: a new graph knows no index; a commit adds the inserted indices, every
    index the inserted nodes refer to and the final destination of every redirection, and
    forgets the removed ones; switching the context or deserializing builds a graph that
    knows the indices of its nodes and those they refer to.  Every graph of a program without
    caught panics has such a set, and only one. *)
Theorem C74_known_indices :
  forall {D} (E : env) (T : Prop) os (w : world (D:=D)) lg kg c g,
  lruns E T os w lg -> no_caught_panic os -> w_graphs w !! kg = Some (c, g) ->
  (exists B, known E T g B) /\
  (forall B B', known E T g B -> known E T g B' -> forall y, B y <-> B' y) /\
  (forall B, known E T g B -> forall i n, graph_get g i = Some n -> B i /\ forall y, refers n y -> B y).
Proof.
  intros D E T os w lg kg c g Hr Hnp Hg. split; [by eapply runs_known|]. split.
  - intros B B' HB HB' y. by rewrite <- (known_listed E T g B HB), <- (known_listed E T g B' HB').
  - assert (graph_of E T g) as Hgo. { exists w, kg, c. split; [by eapply runs_reachable, lruns_runs|done]. }
    intros B HB i n Hi. split; [by eapply known_nodes; [done|done|exists n]|]. intros y. by eapply known_refs.
Qed.
Print Assumptions C74_known_indices.

(** A commit succeeds exactly if: in a debug build every reserved index was filled; the
    redirections have no loop and start at known indices; every closure meets its node, does
    not panic and leaves no reference to an index that is unknown at that point; every removed
    node exists; and no link is added that conflicts with the opposite of another or violates a
    link type.  This needs that no variant has two opposites of one link. *)
Theorem C74_commit_succeeds_iff :
  forall {D} (E : env) (T : Prop) (g : graph D) (t : trans D) (s : tspec D) m B,
  history E T g t s -> bidi_fields E -> (forall v l, e_chk E v l = false -> nonvec E l) ->
  (forall l v, length (opposites_on E l v) <= 1) -> nodes_are g m -> known E T g B ->
  (exists g', commit E t g = Done g' tt) <->
  (e_dbg E = false \/ ts_res s = ∅) /\ commit_listed (ts_txn s) m B /\
  forall m', sp_commit (ts_txn s) m m' -> no_conflict E g m' /\ added_typed E g m'.
Proof. intros. by apply (known_commit_iff E T). Qed.
Print Assumptions C74_commit_succeeds_iff.

Theorem C74_plain_commit_succeeds_iff :
  forall {D} (E : env) (T : Prop) (g : graph D) (t : trans D) (s : tspec D) m B,
  history E T g t s -> (forall l, e_opp E l = []) -> (forall v l, e_chk E v l = true) -> nodes_are g m -> known E T g B ->
  (exists g', commit E t g = Done g' tt) <-> (e_dbg E = false \/ ts_res s = ∅) /\ commit_listed (ts_txn s) m B.
Proof. intros. by apply (known_commit_plain E T). Qed.
Print Assumptions C74_plain_commit_succeeds_iff.

(** Node 1 refers to index 50, which no node has.  A closure may write 50 again, but not 60. *)
Definition e74 (y : idx) : list opn :=
  [ONewCtx 7; ONewGraph 0 0; ONewTrans 0 0; OInsert 0 (nA 50 [] [] 1) 1; OCommit 0 0; ONewTrans 1 0; OMutate 1 1 (relink 0 [] [y])]%N.
Example C74_case :
  exists B, known E0 True (kg E0 (e74 50) 1) B /\ kg E0 (e74 60) 1 = kg E0 (e74 50) 1 /\ B 1%N /\ B 50%N /\ ~ B 60%N /\
  history E0 True (kg E0 (e74 50) 1) (kt E0 (e74 50) 1) (ks E0 (e74 50) 1) /\
  history E0 True (kg E0 (e74 50) 1) (kt E0 (e74 60) 1) (ks E0 (e74 60) 1) /\
  commit_listed (ts_txn (ks E0 (e74 50) 1)) (gmap_of (kg E0 (e74 50) 1)) B /\
  ~ commit_listed (ts_txn (ks E0 (e74 60) 1)) (gmap_of (kg E0 (e74 50) 1)) B /\
  (exists g', commit E0 (kt E0 (e74 50) 1) (kg E0 (e74 50) 1) = Done g' tt) /\
  ~ (exists g', commit E0 (kt E0 (e74 60) 1) (kg E0 (e74 50) 1) = Done g' tt).
Proof.
  assert (history E0 True (kg E0 (e74 50) 1) (kt E0 (e74 50) 1) (ks E0 (e74 50) 1)) as H1 by hist.
  assert (kg E0 (e74 60) 1 = kg E0 (e74 50) 1) as Heq by computes.
  assert (history E0 True (kg E0 (e74 50) 1) (kt E0 (e74 60) 1) (ks E0 (e74 60) 1)) as H2 by (rewrite <- Heq; hist).
  assert (runs E0 True (e74 50) (rw E0 (e74 50))) as Hr by (apply run_runs; [unfold e74; sides|computes]).
  destruct (runs_lruns E0 True _ _ Hr (or_introl eq_refl)) as [lg Hl].
  assert (w_graphs (rw E0 (e74 50)) !! 0 = Some (0, kg E0 (e74 50) 1)) as Hg by computes.
  assert (no_caught_panic (e74 50)) as Hnp by (apply npb_sound; computes).
  destruct (runs_known E0 True _ _ _ Hl Hnp _ _ _ Hg) as [B HB]. pose proof (known_listed E0 True _ B HB) as HBl.
  assert (nodes_are (kg E0 (e74 50) 1) (gmap_of (kg E0 (e74 50) 1))) as Hn by exact (history_nodes E0 True _ _ _ H1).
  assert (exists g', commit E0 (kt E0 (e74 50) 1) (kg E0 (e74 50) 1) = Done g' tt) as Hc1 by (eexists; computes).
  assert (~ exists g', commit E0 (kt E0 (e74 60) 1) (kg E0 (e74 50) 1) = Done g' tt) as Hc2 by (intros [g' Hg']; revert Hg'; vm_compute; discriminate).
  assert (ts_res (ks E0 (e74 60) 1) = ∅) as Hres by (apply (proj1 (map_to_list_empty_iff _)); computes).
  exists B. split; [exact HB|]. split; [exact Heq|].
  split; [apply HBl; vm_compute; eexists; reflexivity|]. split; [apply HBl; vm_compute; eexists; reflexivity|].
  split; [intros Hb; apply HBl in Hb; revert Hb; vm_compute; intros [? ?]; discriminate|].
  split; [exact H1|]. split; [exact H2|].
  pose proof (C74_plain_commit_succeeds_iff E0 True _ _ _ _ B H1 (fun _ => eq_refl) (fun _ _ => eq_refl) Hn HB) as [I1 _].
  pose proof (C74_plain_commit_succeeds_iff E0 True _ _ _ _ B H2 (fun _ => eq_refl) (fun _ _ => eq_refl) Hn HB) as [_ I2].
  split; [exact (proj2 (I1 Hc1))|]. split; [intros Hx; apply Hc2, I2; split; [right; exact Hres|exact Hx]|]. split; [exact Hc1|exact Hc2].
Qed.

(** A case with bidirectional links and link types: [bops] of C53 meets the conditions. *)
Example C74_case2 :
  exists B, known E1 True (hg E1 bops) B /\ history E1 True (hg E1 bops) (ht E1 bops) (hs E1 bops) /\ bidi_fields E1 /\
  (forall v l, e_chk E1 v l = false -> nonvec E1 l) /\ (forall l v, length (opposites_on E1 l v) <= 1) /\
  nodes_are (hg E1 bops) (gmap_of (hg E1 bops)) /\ commit_listed (ts_txn (hs E1 bops)) (gmap_of (hg E1 bops)) B.
Proof.
  assert (runs E1 True bops (rw E1 bops)) as Hr by (apply run_runs; [unfold bops; sides|computes]).
  destruct (runs_lruns E1 True _ _ Hr (or_introl eq_refl)) as [lg Hl].
  assert (w_graphs (rw E1 bops) !! 0 = Some (0, hg E1 bops)) as Hg by computes.
  assert (no_caught_panic bops) as Hnp by (apply npb_sound; computes).
  destruct (runs_known E1 True _ _ _ Hl Hnp _ _ _ Hg) as [B HB].
  assert (nodes_are (hg E1 bops) (gmap_of (hg E1 bops))) as Hn by exact (history_nodes E1 True _ _ _ (bops_hist True)).
  exists B. split; [exact HB|]. split; [exact (bops_hist True)|]. split; [apply E1_fields|]. split; [apply E1_checks|]. split; [apply E1_one|].
  split; [exact Hn|].
  pose proof (C74_commit_succeeds_iff E1 True _ _ _ _ B (bops_hist True) E1_fields E1_checks E1_one Hn HB) as [I1 _].
  exact (proj1 (proj2 (I1 (ex_intro _ _ bops_commit)))).
Qed.
