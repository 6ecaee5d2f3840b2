(** * Property theorems: caught panics of transaction calls (C65) *)
From Verif Require Import Caught ExHist Examples Exec PropsFindings.

(** ** What the panicking call leaves.  [holds_spec t s]: pending reservations, own nodes
    and queues of transaction [t] are those of [s]; [ts_own s m] is [s] with the own nodes [m]. *)
(** fill_back: nothing has changed, or the index had a node, and the new one has replaced it *)
Theorem C65_fill_back :
  forall {D} (t : trans D) s i n p t', holds_spec t s -> trans_fill_back i n t = Panicked p t' ->
  (t' = t /\ (p = PFillMissing \/ p = PFillType)) \/
  (p = PFillOccupied /\ is_Some (ts_new s !! i) /\ holds_spec t' (ts_own s (<[i := n]> (ts_new s)))).
Proof.
  intros D t s i n p t' Hs Hp. apply fill_back_panic in Hp as [(->&[(_&->)|(d&_&_&->)])|(n0&Hg&_&->&->)]; [by left; auto..|].
  right. split; [done|]. split; [|by eapply holds_set]. destruct Hs as (_&H&_). rewrite H. by eexists.
Qed.
Print Assumptions C65_fill_back.
(** fill_back_untyped on a pending reservation does not panic *)
Theorem C65_fill_back_untyped :
  forall {D} (E : env) T (t : trans D) s i n p t', ctrans_of E T t -> holds_spec t s -> node_ok E n -> is_Some (ts_res s !! i) ->
  trans_fill_back_untyped i n t <> Panicked p t'.
Proof.
  intros D E T t s i n p t' (w&k&c&Hr&Hk) Hs Hn Hi. apply (fill_untyped_no_panic E T); [|done|by apply Hs].
  by apply (iv_trans _ _ _ (creach_inv E T w Hr) k c t).
Qed.
Print Assumptions C65_fill_back_untyped.
(** mutate: the closure has run on a node of the transaction, which is as it left it *)
Theorem C65_mutate :
  forall {D} (t : trans D) s i f p t', holds_spec t s -> trans_mutate i f t = Panicked p t' ->
  exists n n', ts_new s !! i = Some n /\ f n = Panicked p n' /\ holds_spec t' (ts_own s (<[i := n']> (ts_new s))).
Proof.
  intros D t s i f p t' Hs Hp. apply mutate_panic in Hp as (n&n'&Hg&Hf&->). exists n, n'.
  split; [|split; [done|by eapply holds_set]]. destruct Hs as (_&H&_). by rewrite H.
Qed.
Print Assumptions C65_mutate.
(** update: the closure has run on a node of the transaction, which is lost *)
Theorem C65_update :
  forall {D} (E : env) T (t : trans D) s i f p t', ctrans_of E T t -> holds_spec t s -> trans_update i f t = Panicked p t' ->
  exists n, ts_new s !! i = Some n /\ f n = Err p /\ holds_spec t' (ts_own s (delete i (ts_new s))).
Proof.
  intros D E T t s i f p t' (w&k&c&Hr&Hk) Hs Hp. apply update_panic in Hp as (n&d&Hd&Hg&Hf&->). exists n.
  split; [destruct Hs as (_&H&_); by rewrite H|]. split; [done|]. apply (holds_drop E); [|done|done].
  apply (iv_trans _ _ _ (creach_inv E T w Hr) k c t Hk).
Qed.
Print Assumptions C65_update.
(** merge: the contexts differ, the transaction has not changed *)
Theorem C65_merge :
  forall {D} (t : trans D) g p t', trans_merge g t = Panicked p t' -> t' = t /\ t_ctx t <> g_ctx g /\ p = PCtxMismatch.
Proof. intros D t g p t'. apply merge_panic. Qed.
Print Assumptions C65_merge.

(** ** The program goes on: [creach] are the worlds of programs that may catch such panics
    anywhere, any number of times.  Every graph is consistent, ... *)
Theorem C65_graphs_consistent :
  forall {D} (E : env) T (g : graph D), cgraph_of E T g ->
  (forall y x src, y <> 0%N ->
    (exists b, omap_get y (g_back g) = Some b /\ (x, src) ∈ b) <->
    (exists n, graph_get g x = Some n /\ (y, src) ∈ iter_sources E n)) /\
  (no_empty_in_sets g -> check_backlinks E g = true) /\
  (forall i n, (i, n) ∈ graph_iter g <-> graph_get g i = Some n) /\ NoDup (graph_iter g).*1 /\
  graph_len g = length (graph_iter g) /\ graph_get g 0%N = None.
Proof.
  intros D E T g (w&kg&c&Hr&Hg). destruct (iv_graph _ _ _ (creach_inv E T w Hr) kg c g Hg) as (Hwf&_). split.
  { intros y x src Hy. split.
    - intros Hb. destruct (wf_b3 _ _ Hwf y x src Hy Hb) as (n&Hx&Hs). exists n. by rewrite elem_iter_sources.
    - intros (n&Hx&Hs). rewrite elem_iter_sources in Hs. exact (wf_b2 _ _ Hwf x n src y Hx Hs). }
  split; [by apply check_backlinks_ok|]. split; [intros i n; symmetry; apply (arena_get_items E), Hwf|].
  split; [apply (arena_items_NoDup E), Hwf|]. split; [apply arena_len_items|apply Hwf].
Qed.
Print Assumptions C65_graphs_consistent.
(** ... no index is in two places (nodes and reservations of the same context), ... *)
Definition place_has {D} (w : world (D:=D)) (h : nat + nat) (c : nat) (i : idx) : Prop :=
  match h with
  | inl k => exists g, w_graphs w !! k = Some (c, g) /\ is_Some (graph_get g i)
  | inr k => exists t, w_trans w !! k = Some (c, t) /\ (is_Some (arena_get (t_inc t) i) \/ i ∈ t_alloc t)
  end.
Theorem C65_one_place :
  forall {D} (E : env) T (w : world (D:=D)) h h' c i, creach E T w -> place_has w h c i -> place_has w h' c i -> h = h'.
Proof.
  intros D E T w h h' c i Hr.
  assert (forall h, place_has w h c i -> owns w h c i) as Hp.
  { intros [k|k]; cbn.
    - intros (g&Hg&n&Hn). exists g. split; [done|]. by eapply arena_get_dispatch.
    - intros (t&Ht&[[n Hn]|Hi]); exists t; (split; [done|]); [left; by eapply arena_get_dispatch|by right]. }
  intros H1 H2. by apply (iv_disj _ _ _ (creach_inv E T w Hr) h h' c i); apply Hp.
Qed.
Print Assumptions C65_one_place.
(** ... and a commit does what the transaction holds (C03). *)
Theorem C65_commit_refines_spec :
  forall {D} (E : env) T (g : graph D) t s g', cpair_of E T g t -> holds_spec t s -> commit E t g = Done g' tt ->
  exists m m', nodes_are g m /\ sp_commit (ts_txn s) m m' /\ holds_nonbidi E g' m'.
Proof. intros D E T g t s g'. apply cpair_refines. Qed.
Print Assumptions C65_commit_refines_spec.

(** ** A program that catches five panics.  [crun] runs the calls and goes on after panics. *)
Section crun.
  Context {D : Type} (E : env).
  Notation left_t m w k := (ex_trans w k (fun c t => match m t with Panicked _ t' => Some (set_t w k (c, t')) | _ => None end)).
  Definition cexec (w : world (D:=D)) (o : op) : option world :=
    match exec E w o with
    | Some w' => Some w'
    | None =>
      match o with
      | OFill k i n => gate (node_okb E n) (left_t (trans_fill_back i n) w k)
      | OMutate k i f => left_t (trans_mutate i f) w k
      | OUpdate k i f => left_t (trans_update i f) w k
      | OMerge k kg => ex_trans w k (fun c t => ex_graph w kg (fun c' g =>
          match trans_merge g t with Panicked _ t' => Some (del_g (set_t w k (c, t')) kg) | _ => None end))
      | _ => None
      end
    end.
  Definition cside T (o : op (D:=D)) : Prop :=
    op_side E T o /\ match o with OMutate _ _ f => mut_left_ok E T f | _ => True end.
  Lemma cexec_cstep T w o w' : cside T o -> cexec w o = Some w' -> cstep E T w w'.
  Proof.
    intros [H1 H2]. unfold cexec. destruct (exec E w o) as [w1|] eqn:He.
    { intros [= <-]. eapply cs_step. by apply exec_step. }
    destruct o; try done; unfold ex_trans, ex_graph, gate; cbn in H1, H2.
    - destruct (node_okb E n) eqn:Hn; [|done]. destruct (w_trans w !! k) as [[c t]|] eqn:Ht; [|done].
      destruct (trans_fill_back i n t) as [|p t'] eqn:Hf; [done|]. intros [= <-]. eapply cs_fill; [done|by apply node_okb_sound|done].
    - destruct (w_trans w !! k) as [[c t]|] eqn:Ht; [|done].
      destruct (trans_mutate i f t) as [|p t'] eqn:Hf; [done|]. intros [= <-]. by eapply cs_mutate.
    - destruct (w_trans w !! k) as [[c t]|] eqn:Ht; [|done].
      destruct (trans_update i f t) as [|p t'] eqn:Hf; [done|]. intros [= <-]. by eapply cs_update.
    - destruct (w_trans w !! k) as [[c t]|] eqn:Ht; [|done]. destruct (w_graphs w !! kg) as [[c' g]|] eqn:Hg; [|done].
      destruct (trans_merge g t) as [|p t'] eqn:Hf; [done|]. intros [= <-]. by eapply cs_merge.
  Qed.
  Fixpoint crun (w : world) (os : list op) : option world :=
    match os with [] => Some w | o :: os' => match cexec w o with Some w' => crun w' os' | None => None end end.
  Lemma crun_creach T w os w' : creach E T w -> Forall (cside T) os -> crun w os = Some w' -> creach E T w'.
  Proof.
    intros Hr Hs. revert w Hr. induction Hs as [|o os Ho _ IH]; intros w Hr; cbn; [by intros [= <-]|].
    destruct (cexec w o) as [w1|] eqn:He; [|done]. apply IH. eapply cr_step; [done|]. by eapply cexec_cstep.
  Qed.
End crun.

(** closures that edit the node, then panic *)
Definition half_mut : mut_fn nat := fun n => Panicked PTypeMacro (bump n).
Definition fail_upd : upd_fn nat := fun _ => Err PTypeMacro.
Lemma half_mut_ok E T : mut_ok E T half_mut /\ mut_left_ok E T half_mut.
Proof. split; [by intros n n'|]. intros n p n' Hok [= _ <-]. done. Qed.
Lemma fail_upd_ok E T : upd_ok E T fail_upd.
Proof. by intros n n'. Qed.
(** nodes 5, 6, 7 are new; 5 is filled again, 6 is mutated, 7 is updated, 2 filled (unknown),
    a graph of another context is merged: five panics *)
Definition e65 : list opn :=
  setup ++ [ONewCtx 9; ONewGraph 1 1; ONewTrans 1 0;
    OInsert 1 (nA 1 [] [] 5) 5; OInsert 1 (nA 5 [] [] 6) 6; OInsert 1 (nB 0 [] 7) 7; OMutate 1 2 bump_mut;
    OFill 1 5 (nA 2 [] [] 55); OMutate 1 6 half_mut; OUpdate 1 7 fail_upd; OFill 1 2 (nA 0 [] [] 8); OMerge 1 1]%N.
Definition w65 : world := default world_new (crun E0 world_new e65).
Definition t65 : trans nat := match w_trans w65 !! 1 with Some (_, t) => t | None => trans_new E0 0%N end.
Definition g65 : graph nat := match w_graphs w65 !! 0 with Some (_, g) => g | None => graph_new E0 0%N end.
Definition g65' : graph nat := done_g (commit E0 t65 g65).
Lemma w65_creach : creach E0 True w65.
Proof.
  assert (is_Some (crun E0 world_new e65)) as [w Hw] by (vm_compute; by eexists).
  unfold w65. rewrite Hw. eapply crun_creach; [constructor| |exact Hw].
  unfold e65, setup. repeat (constructor; [split; [first [exact I|apply bump_mut_ok|apply half_mut_ok|apply fail_upd_ok]|
    first [exact I|apply half_mut_ok|by intros n p n']]|]). constructor.
Qed.
Example C65_case :
  cpair_of E0 True g65 t65 /\
  arena_get (t_inc t65) 5%N = Some (nA 2 [] [] 55)%N /\ arena_get (t_inc t65) 6%N = Some (nA 5 [] [] 106)%N /\
  arena_get (t_inc t65) 7%N = None /\ t_alloc t65 = [] /\ w_graphs w65 !! 1 = None /\
  commit E0 t65 g65 = Done g65' tt /\ (graph_iter g65').*1 = [2; 3; 5; 6; 1; 4]%N /\
  graph_get g65' 5%N = Some (nA 2 [] [] 55)%N /\ check_backlinks E0 g65' = true.
Proof.
  split; [exists w65, 0, 1, 0; split; [apply w65_creach|]; split; computes|].
  split; [computes|]. split; [computes|]. split; [computes|]. split; [computes|]. split; [decides|].
  split; [computes|]. split; [computes|]. split; computes.
Qed.
Definition done_t (o : out (trans nat) unit) : trans nat := match o with Done t _ => t | Panicked _ t => t end.
(** a panicking call does change the transaction: the lost node 7 is neither new nor
    reserved, the commit does not complain; it can be filled like a reservation, though *)
Example C65_lost_refilled :
  let t := done_t (trans_fill_back 7%N (nB 0 [] 77)%N t65) in
  trans_fill_back 7%N (nB 0 [] 77)%N t65 = Done t tt /\ arena_get (t_inc t) 7%N = Some (nB 0 [] 77)%N.
Proof. cbv zeta. split; computes. Qed.
