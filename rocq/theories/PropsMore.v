(** * Property theorems: what remains of refuted properties *)
From Coq Require Import Sorting.Sorted.
From Verif Require Import OrderHist Hist Grouped ExHist Decide PropsGraph PropsBidi GraphFinal DecideSchema PropsSchema PropsFindings PropsOrder.

Lemma order_of_graph {D} E T (g : graph D) : graph_of E T g -> (graph_iter g).*1 = concat (korder (g_nodes g) <$> seq 0 (length (e_kinds E))).
Proof.
  intros Hg. destruct (graph_of_ok E T g Hg) as [Hwf _].
  destruct (items_seq E (g_nodes g) (wf_arena _ _ Hwf) (length (e_kinds E))) as [Hi|]; [|lia].
  rewrite take_ge in Hi by (destruct (wf_arena _ _ Hwf) as (_&->&_); done).
  unfold graph_iter, arena_items. rewrite Hi. generalize (seq 0 (length (e_kinds E))). intros l.
  induction l as [|d l IH]; [done|]. cbn. rewrite fmap_app, IH. done.
Qed.
Lemma concat_seqs {A B} (f : nat -> A) (k : nat -> list B) nv :
  concat ((fun d => f <$> seq (length (concat (k <$> seq 0 d))) (length (k d))) <$> seq 0 nv) = f <$> seq 0 (length (concat (k <$> seq 0 nv))).
Proof.
  induction nv as [|nv IH]; [done|]. rewrite seq_S. cbn [Nat.add]. rewrite !fmap_app, !concat_app, IH, app_length. cbn. rewrite !app_nil_r, seq_app. cbn. by rewrite fmap_app.
Qed.

(** ** C17 *)
(** The documented order does hold for a graph that was just switched to another context:
    it is renumbered in the order in which it is listed. *)
Theorem C17_after_switch_partial {D} (E : env) (w w' : world (D:=D)) kg c c' g' :
  reachable E True w -> step E True w (OSwitch kg c) w' -> w_graphs w' !! kg = Some (c', g') ->
  StronglySorted N.lt (graph_iter g').*1.
Proof.
  intros Hr Hs Hg'. assert (reachable E True w') as Hr' by by econstructor.
  rewrite (order_of_graph E True g') by by exists w', kg, c'. apply (reachable_inv E True) in Hr.
  inversion Hs as [| | | | | | | | | | | | | | | | | | |kg0 c0 g c1 u cnt cnt' g1 Hg Hc Hroom Hsw|]; subst.
  cbn in Hg'. rewrite lookup_insert in Hg'. injection Hg' as <- ->.
  destruct (iv_graph _ _ _ Hr kg c0 g Hg) as (Hwf&Hty&_). destruct (switch_order E g u cnt cnt' g' Hwf (Hty I) Hroom Hsw) as [_ Ho].
  assert (korder (g_nodes g') <$> seq 0 (length (e_kinds E)) = (fun d => newix cnt <$> seq (length (concat (korder (g_nodes g) <$> seq 0 d))) (length (korder (g_nodes g) d))) <$> seq 0 (length (e_kinds E))) as ->.
  { apply list_fmap_ext. intros i d _. apply Ho. }
  rewrite concat_seqs.
  assert (forall b n, StronglySorted N.lt (newix cnt <$> seq b n)) as H; [|apply H].
  intros b n. revert b. induction n as [|n IH]; intros b; cbn; constructor; [apply IH|].
  apply Forall_forall. intros x Hx. apply elem_of_list_fmap in Hx as (k&->&Hk%elem_of_seq). unfold newix. lia.
Qed.
Print Assumptions C17_after_switch_partial.

(** [e61] switches graph 1 (listed 2, 3, 1) to a context that has handed out 7 indices *)
Example C17_case : exists w w' c', reachable E0 True w /\ step E0 True w (OSwitch 1 0) w' /\ w_graphs w' !! 1 = Some (c', rgr E0 (take (length e61 - 4) e61) 1) /\
  (graph_iter (rgr E0 (take (length e61 - 5) e61) 1)).*1 = [2; 3; 1]%N /\ (graph_iter (rgr E0 (take (length e61 - 4) e61) 1)).*1 = [8; 9; 10]%N.
Proof.
  exists (rw E0 (take (length e61 - 5) e61)), (rw E0 (take (length e61 - 4) e61)), 0. split; [|split; [apply exec_step; [exact I|computes]|split; [computes|split; computes]]].
  apply (runs_reachable E0 True (take (length e61 - 5) e61)), run_runs; [apply Forall_take, e61_side; reflexivity|computes].
Qed.

(** ** C25 *)
(** In a schema without Vec links, whose bidirectional declarations agree with the link
    types, and without variant changes, every link is checked. *)
Theorem C25_all_links_partial {D} (E : env) (g : graph D) t s g' :
  (forall l, nonvec E l) -> (forall l k, k ∈ e_opp E l -> e_chk E (l_var l) k = true) ->
  history E True g t s -> no_early g s -> all_typed E g -> commit E t g = Done g' tt -> all_typed E g'.
Proof.
  intros Hv Hb Hh Hne Ha Hc. assert (links_typed E g') as H.
  { eapply (C24_link_types_kept E g t s); [done|by intros l k _|done|done| |done]. intros x y nx ny l Hx Hl _ Hy. exact (Ha x y nx ny l Hx Hl Hy). }
  intros x y nx ny l Hx Hl. by eapply (H x y nx ny l).
Qed.
Print Assumptions C25_all_links_partial.
(** the schema of the examples without [A.items] *)
Definition EV : env := Env [[KDirect; KSet SBTree]; [KDirect; KSet SHash]] opp1 chk1 (fun _ l => l) true.
Definition vA (nxt : idx) (peers : list idx) (d : nat) : node nat := Node 0 [LDirect nxt; LSet SBTree peers] [("n"%string, d)].
(** A3.next moves from 1 to 2, A4 is new *)
Definition v_set (nxt : idx) : mut_fn nat := fun n => Done (match nlinks n with _ :: ls => Node (nvar n) (LDirect nxt :: ls) (ndata n) | [] => n end) tt.
Definition e25p : list opn :=
  [ONewCtx 7; ONewGraph 0 0; ONewTrans 0 0; OInsert 0 (nB 0 [] 1) 1; OInsert 0 (nB 0 [] 2) 2; OInsert 0 (vA 1 [] 3) 3; OCommit 0 0;
   ONewTrans 1 0; OMutate 1 3 (v_set 2); OInsert 1 (vA 2 [3] 4) 4]%N.
Lemma v_set_ok E T nxt : Forall (fun ks => ks !! 0 = Some KDirect) (e_kinds E) -> mut_ok E T (v_set nxt).
Proof.
  intros HE n n' (ks&Hk&Hf) [= <-]. pose proof (Forall_lookup_1 _ _ _ _ HE Hk) as Hd. cbn in Hd.
  destruct (nlinks n) as [|a ls] eqn:El; [split; [|done]; exists ks; by rewrite El|].
  split; [|done]. exists ks. split; [done|]. cbn. destruct ks as [|k ks]; [done|]. injection Hd as ->.
  inversion Hf; subst. constructor; [done|done].
Qed.
Example C25_case_partial :
  (forall l, nonvec EV l) /\ (forall l k, k ∈ e_opp EV l -> e_chk EV (l_var l) k = true) /\
  history EV True (kg EV e25p 1) (kt EV e25p 1) (ks EV e25p 1) /\ no_early (kg EV e25p 1) (ks EV e25p 1) /\ all_typed EV (kg EV e25p 1) /\
  commit EV (kt EV e25p 1) (kg EV e25p 1) = Done (kc EV e25p 1) tt /\
  graph_get (kc EV e25p 1) 2 = Some (nB 0 [4; 3] 2)%N /\ e_chk EV 0 (Link 0 0) = false.
Proof.
  assert (forall l, nonvec EV l) as Hv.
  { intros [v f]. unfold nonvec. cbn. destruct v as [|[|v]]; [..|done]; destruct f as [|[|f]]; done. }
  assert (history EV True (kg EV e25p 1) (kt EV e25p 1) (ks EV e25p 1)) as Hh.
  { apply run_hist_pick; [|vm_compute; eexists; reflexivity].
    repeat (constructor; [first [exact I|apply v_set_ok; repeat constructor]|]); constructor. }
  split; [exact Hv|]. split; [intros l k [[-> ->]|[-> ->]]%opp1_inv; computes|]. split; [exact Hh|].
  split; [apply (no_earlyb_sound EV); [by eapply hist_wf|computes]|].
  split; [|split; [computes|split; computes]].
  assert (links_typed EV (kg EV e25p 1)) as Ht by (apply (links_typedb_sound EV); [by eapply hist_wf|computes]).
  intros x y nx ny l Hx Hl Hy. exact (Ht x y nx ny l Hx Hl (Hv l) Hy).
Qed.

(** ** C50 *)
(** With two [#[group]] attributes on one field, the link A.x has the declared opposite B.z
    and is listed without it. *)
Theorem C50_two_attributes_refuted : exists s (n : node nat) l ys m,
  let E := env_of cap s (fun _ l => l) true in
  accepted cap s /\ groups_apart s /\ bidi_spelled s /\ node_ok E n /\
  iter_links E n l = Ok ys /\ declares s l m /\ (ys, []) ∈ get_bidi_links cap s E n /\
  forall ys' ms, (ys', ms) ∈ get_bidi_links cap s E n -> m ∉ ms.
Proof.
  exists S2, (Node 0 [LDirect 5%N; LDirect 6%N] []), (Link 0 0), [5%N], (Link 1 0).
  cbv zeta. split; [apply acceptedb_sound; computes|]. split; [apply groups_apartb_sound; computes|].
  split; [apply bidi_spelledb_sound; computes|]. split; [exists [KDirect; KDirect]; split; [computes|repeat constructor]|]. split; [computes|].
  split; [apply declaresb_iff; computes|].
  assert (get_bidi_links cap S2 (env_of cap S2 (fun _ l => l) true) (Node 0 [LDirect 5%N; LDirect 6%N] [] : node nat) = [([5%N], [])]) as Heq by computes.
  rewrite Heq. split; [left|]. intros ys' ms [= -> ->]%elem_of_list_singleton. by apply not_elem_of_nil.
Qed.
Print Assumptions C50_two_attributes_refuted.
