(** * Hidden state of a graph: C52, using the known indices of C74 *)
From stdpp Require Export gmap.
From Verif Require Import PropsSucc SameSucc PropsExact PropsListed ExHist PropsFindings PropsBidi PropsOrder.

(** ** C52 *)
(** Two graphs with the same nodes and the same known indices (C74): a transaction succeeds on
    both or on neither, and with the same result.  So the indices a graph knows besides its
    nodes are the only hidden state. *)
Theorem C52_known_partial :
  forall {D} (E : env) (T : Prop) (g1 g2 : graph D) t1 t2 s1 s2 m B1 B2,
  bidi_fields E -> (forall v l, e_chk E v l = false -> nonvec E l) -> (forall l v, length (opposites_on E l v) <= 1) ->
  history E T g1 t1 s1 -> history E T g2 t2 s2 -> ts_txn s1 = ts_txn s2 -> e_dbg E = false \/ ts_res s1 = ∅ -> e_dbg E = false \/ ts_res s2 = ∅ ->
  nodes_are g1 m -> nodes_are g2 m -> known E T g1 B1 -> known E T g2 B2 -> (forall y, B1 y <-> B2 y) ->
  (exists g1' g2', commit E t1 g1 = Done g1' tt /\ commit E t2 g2 = Done g2' tt /\
     forall i, option_Forall2 (same_node E) (graph_get g1' i) (graph_get g2' i)) \/
  ((forall g1', commit E t1 g1 <> Done g1' tt) /\ (forall g2', commit E t2 g2 <> Done g2' tt)).
Proof.
  intros D E T g1 g2 t1 t2 s1 s2 m B1 B2 Hbf Hck Hone H1 H2 Htx Hr1 Hr2 Hm1 Hm2 HB1 HB2 HB.
  assert ((exists g1', commit E t1 g1 = Done g1' tt) <-> (exists g2', commit E t2 g2 = Done g2' tt)) as Hiff.
  { rewrite (C74_commit_succeeds_iff E T g1 t1 s1 m B1 H1 Hbf Hck Hone Hm1 HB1).
    rewrite (C74_commit_succeeds_iff E T g2 t2 s2 m B2 H2 Hbf Hck Hone Hm2 HB2). rewrite <- Htx.
    assert (forall ga gb m', nodes_are ga m -> nodes_are gb m -> no_conflict E ga m' /\ added_typed E ga m' -> no_conflict E gb m' /\ added_typed E gb m') as Hcf.
    { intros ga gb m' Ha Hb. apply (conflict_alike E E eq_refl ltac:(done) ltac:(done) Hone).
      - intros i. rewrite <- Ha, <- Hb. destruct (m !! i); constructor. apply alike_refl.
      - intros i. destruct (m' !! i); constructor. apply alike_refl. }
    split; intros (_&Hl&Hc); (split; [done|]); (split; [revert Hl; apply commit_listed_ext; intros y; apply HB|]); intros m' Hm'; (eapply Hcf; [| |by apply Hc]; done). }
  destruct (commit E t1 g1) as [g1' []|p1 g1'] eqn:Hc1, (commit E t2 g2) as [g2' []|p2 g2'] eqn:Hc2.
  - left. exists g1', g2'. split; [done|]. split; [done|].
    eapply (final_deterministic E E T T g1 g2 t1 t2 s1 s2); try done; [|by intros i; rewrite <- Hm1, <- Hm2].
    intros l k Hk. split; by eapply Hbf.
  - destruct (proj1 Hiff) as [? ?]; [by eexists|done].
  - destruct (proj2 Hiff) as [? ?]; [by eexists|done].
  - right. done.
Qed.
Print Assumptions C52_known_partial.

Lemma listed_keys (g1 g2 : graph nat) :
  let sub (l1 l2 : list N) := forallb (fun k => bool_decide (k ∈ l2)) l1 in
  sub (g_back g1).*1 (g_back g2).*1 && sub (g_back g2).*1 (g_back g1).*1 = true -> forall y, listed g1 y <-> listed g2 y.
Proof.
  intros sub [Ha Hb]%andb_true_iff y.
  assert (forall ga gb : graph nat, sub (g_back ga).*1 (g_back gb).*1 = true -> listed ga y -> listed gb y) as H.
  { intros ga gb Hs [v Hv]. apply omap_get_Some_key in Hv. unfold sub in Hs. rewrite forallb_forall in Hs.
    specialize (Hs y (proj1 (elem_of_list_In _ _) Hv)). apply bool_decide_eq_true in Hs.
    destruct (omap_get y (g_back gb)) eqn:Hy; [by eexists|]. by apply omap_get_None in Hy. }
  split; by apply H.
Qed.
(** In the first history the node that came and went linked to 9 and 8, in the second to 8 and
    9; the transaction sets a link to 9. *)
Definition e52k (a b : idx) : list opn := e52 (nA a [b] [] 3)%N.
Example C52_known_case :
  history E0 True (kg E0 (e52k 9 8) 2) (kt E0 (e52k 9 8) 2) (ks E0 (e52k 9 8) 2) /\
  history E0 True (kg E0 (e52k 8 9) 2) (kt E0 (e52k 8 9) 2) (ks E0 (e52k 8 9) 2) /\
  ts_txn (ks E0 (e52k 9 8) 2) = ts_txn (ks E0 (e52k 8 9) 2) /\
  (exists B1 B2, known E0 True (kg E0 (e52k 9 8) 2) B1 /\ known E0 True (kg E0 (e52k 8 9) 2) B2 /\ (forall y, B1 y <-> B2 y) /\ B1 9%N) /\
  gmap_of (kg E0 (e52k 9 8) 2) = gmap_of (kg E0 (e52k 8 9) 2) /\ kg E0 (e52k 9 8) 2 <> kg E0 (e52k 8 9) 2 /\
  exists g', commit E0 (kt E0 (e52k 9 8) 2) (kg E0 (e52k 9 8) 2) = Done g' tt.
Proof.
  split; [hist|]. split; [hist|]. split; [computes|]. split.
  2: { split; [computes|]. split; [vm_compute; discriminate|]. eexists. computes. }
  assert (forall a b, bool_decide (NoDup [b]) = true -> runs E0 True (e52k a b) (rw E0 (e52k a b)) ->
    w_graphs (rw E0 (e52k a b)) !! 0 = Some (0, kg E0 (e52k a b) 2) -> no_caught_panic (e52k a b) ->
    exists B, known E0 True (kg E0 (e52k a b) 2) B) as Hex.
  { intros a b _ Hr Hg Hnp. destruct (runs_lruns E0 True _ _ Hr (or_introl eq_refl)) as [lg Hl].
    exact (runs_known E0 True _ _ _ Hl Hnp _ _ _ Hg). }
  destruct (Hex 9 8)%N as [B1 HB1]; [done|apply run_runs; [unfold e52k, e52; sides|computes]|computes|apply npb_sound; computes|].
  destruct (Hex 8 9)%N as [B2 HB2]; [done|apply run_runs; [unfold e52k, e52; sides|computes]|computes|apply npb_sound; computes|].
  pose proof (known_listed E0 True _ B1 HB1) as H1. pose proof (known_listed E0 True _ B2 HB2) as H2.
  exists B1, B2. split; [exact HB1|]. split; [exact HB2|]. split; [|apply H1; vm_compute; eexists; reflexivity].
  intros y. rewrite <- H1, <- H2. revert y. apply listed_keys. computes.
Qed.
