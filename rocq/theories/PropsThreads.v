(** * Parts of a program that work on different graphs and transactions: C94 *)
From stdpp Require Export gmap.
From Verif Require Import Threads ExHist ExTrans PropsOrder.

(** ** C94 *)
(** A clone of a context shares its counter (`/repo/src/id_distributer.rs:5-7`,
    `/repo/src/typed_graph.rs:866-870`), graphs and transactions are owned.  Take the graphs
    [G] and the transactions [K] of one part of a program, and contexts [C] whose indices only
    this part uses up.  [parted]: every call either makes a context, or names only graphs and
    transactions of this part (and switches graphs to contexts of [C] only), or names none of
    them (and opens no transaction on, and switches no graph to, a context of [C]).

    What is in the graphs and transactions of the part is decided by its own calls and what
    they returned, whatever other calls are made in between. *)
Theorem C94_own_calls_decide :
  forall {D} (E : env) (T : Prop) (G K C : nat -> bool) (os1 os2 : list (op (D:=D))) w1 w2,
  runs E T os1 w1 -> runs E T os2 w2 -> Forall (parted G K C) os1 -> Forall (parted G K C) os2 ->
  filter (fun o => ours G K o = true) os1 = filter (fun o => ours G K o = true) os2 ->
  (forall kg, G kg = true -> w_graphs w1 !! kg = w_graphs w2 !! kg) /\
  (forall k, K k = true -> w_trans w1 !! k = w_trans w2 !! k) /\
  (forall c, C c = true -> w_ctx w1 !! c = w_ctx w2 !! c).
Proof. intros D E T G K C os1 os2 w1 w2 H1 H2 P1 P2 He. destruct (final_parts E T G K C os1 w1 H1 P1 os2 w2 H2 P2 He) as [_ V2 V3 V4]. done. Qed.
Print Assumptions C94_own_calls_decide.

(** So are the calls it can make: the next call of the part returns normally (or panics with
    the given panic, for [OCommitPanic]) after one of the programs iff it does after the other.
    The only calls for which the rest of the program matters are those that return a new index. *)
Theorem C94_same_calls_return :
  forall {D} (E : env) (T : Prop) (G K C : nat -> bool) (os1 os2 : list (op (D:=D))) w1 w2 o,
  runs E T os1 w1 -> runs E T os2 w2 -> Forall (parted G K C) os1 -> Forall (parted G K C) os2 ->
  filter (fun o => ours G K o = true) os1 = filter (fun o => ours G K o = true) os2 ->
  (forall kg, kg ∈ graphs_named o -> G kg = true) -> (forall k, k ∈ trans_named o -> K k = true) ->
  (forall kg c, o = OSwitch kg c -> C c = true) -> makes_ctx o = false -> returns_index o = false ->
  (exists w', step E T w1 o w') <-> exists w', step E T w2 o w'.
Proof. intros D E T G K C os1 os2 w1 w2 o H1 H2 P1 P2 He HG HK. by apply (final_parts_calls E T G K C os1 w1 os2 w2). Qed.
Print Assumptions C94_same_calls_return.

(** If the parts do not share contexts either, the order in which their calls alternate does
    not matter at all.  [G], [K] and [C] now say to which of any number of parts a graph, a transaction and
    a context belong; [in_part]: all that a call names belongs to one part, its [part_of].  Every
    interleaving of the calls of the parts is possible if one is, the calls return the same
    indices, and all contexts, graphs and transactions end up the same. *)
Theorem C94_interleavings :
  forall {D} (E : env) (T : Prop) (G K C : nat -> nat) (pre os os' : list (op (D:=D))) w,
  Forall (fun o => makes_ctx o = true \/ in_part G K C o) pre -> Forall (in_part G K C) os -> Forall (in_part G K C) os' ->
  (forall p, filter (fun o => part_of G K o = p) os = filter (fun o => part_of G K o = p) os') ->
  runs E T (pre ++ os) w <-> runs E T (pre ++ os') w.
Proof. intros. by apply (final_many E T G K C). Qed.
Print Assumptions C94_interleavings.

(** Two calls that name different graphs and transactions and use up indices of different
    contexts can be exchanged anywhere in a program. *)
Theorem C94_exchange :
  forall {D} (E : env) (T : Prop) (x y : op (D:=D)) w w1 w2,
  step E T w x w1 -> step E T w1 y w2 -> makes_ctx x = false -> makes_ctx y = false ->
  (forall kg, kg ∈ graphs_named x -> kg ∉ graphs_named y) -> (forall k, k ∈ trans_named x -> k ∉ trans_named y) ->
  (forall c, draws w x c -> ~ draws w y c) ->
  exists w1', step E T w y w1' /\ step E T w1' x w2.
Proof. intros D E T x y w w1 w2 Hx Hy Hmx Hmy HG HK HC. by apply (step_swap E T w x y w1 w2). Qed.
Print Assumptions C94_exchange.

(** *** The premises *)
Definition new_on {D} (o : op (D:=D)) : list nat := match o with ONewTrans _ c => [c] | _ => [] end.
Definition switch_to {D} (o : op (D:=D)) : list nat := match o with OSwitch _ c => [c] | _ => [] end.
Definition noneb (f : nat -> bool) (l : list nat) : bool := forallb (fun x => negb (f x)) l.
Definition partedb {D} (G K C : nat -> bool) (o : op (D:=D)) : bool :=
  makes_ctx o || (forallb G (graphs_named o) && forallb K (trans_named o) && forallb C (switch_to o))
  || (noneb G (graphs_named o) && noneb K (trans_named o) && noneb C (switch_to o) && noneb C (new_on o)).
Definition in_partb {D} (G K C : nat -> nat) (o : op (D:=D)) : bool :=
  let q := part_of G K o in
  negb (makes_ctx o) && forallb (fun kg => G kg =? q) (graphs_named o) && forallb (fun k => K k =? q) (trans_named o)
  && forallb (fun c => C c =? q) (new_on o) && forallb (fun c => C c =? q) (switch_to o).
Lemma allb (f : nat -> bool) l : forallb f l = true -> forall x, x ∈ l -> f x = true.
Proof. rewrite forallb_forall. intros H x Hx. by apply H, elem_of_list_In. Qed.
Lemma noneb_all f l : noneb f l = true -> forall x, x ∈ l -> f x = false.
Proof. unfold noneb. rewrite forallb_forall. intros H x Hx%elem_of_list_In%H. by apply negb_true_iff. Qed.
Lemma partedb_sound {D} G K C (os : list (op (D:=D))) : forallb (partedb G K C) os = true -> Forall (parted G K C) os.
Proof.
  intros H. apply Forall_forall. intros o Ho. rewrite forallb_forall in H. apply elem_of_list_In, H in Ho.
  unfold partedb in Ho. rewrite !orb_true_iff, !andb_true_iff in Ho. destruct Ho as [[Ho|[[H1 H2] H3]]|[[[H1 H2] H3] H4]]; [by left|right; left|right; right].
  - split; [split; by apply allb|]. intros k c ->; cbn in *; by rewrite andb_true_r in *.
  - split; [split; by apply noneb_all|]. split; intros k c ->; [apply (noneb_all C _ H4)|apply (noneb_all C _ H3)]; left.
Qed.
Lemma in_partb_sound {D} G K C (os : list (op (D:=D))) : forallb (in_partb G K C) os = true -> Forall (in_part G K C) os.
Proof.
  intros H. apply Forall_forall. intros o Ho. rewrite forallb_forall in H. apply elem_of_list_In, H in Ho.
  unfold in_partb in Ho. rewrite !andb_true_iff in Ho. destruct Ho as [[[[H1 H2] H3] H4] H5].
  split; [by apply negb_true_iff|]. repeat split; intros x; intros; apply Nat.eqb_eq;
    [by eapply (allb (fun kg => G kg =? _) _ H2)|by eapply (allb (fun k => K k =? _) _ H3)|eapply (allb (fun c => C c =? _) _ H4)|eapply (allb (fun c => C c =? _) _ H5)]; subst; left.
Qed.

(** One part works on graph 0 with the transactions 0 and 2.  Both parts use context 0.  The
    other part commits nodes to graph 1, or reserves an index and gives up: graph 0 is the same,
    and node 1 is updated by both. *)
Definition e94 : list opn :=
  [ONewCtx 7; ONewGraph 0 0; ONewGraph 1 0; ONewTrans 0 0; OInsert 0 (nB 0 [] 1) 1; ONewTrans 1 0; OInsert 1 (nA 0 [] [] 9) 2;
   OInsert 0 (nA 1 [] [] 3) 3; OCommit 1 1; OCommit 0 0; ONewTrans 3 0; OUpdate 3 2 bump_upd; ONewTrans 2 0; OUpdate 2 1 bump_upd; OCommit 1 3; OCommit 0 2]%N.
Definition e94o : list opn :=
  [ONewCtx 7; ONewGraph 0 0; ONewTrans 0 0; OInsert 0 (nB 0 [] 1) 1; ONewTrans 1 0; OAllocUntyped 1 2; OGiveUp 1;
   OInsert 0 (nA 1 [] [] 3) 3; OCommit 0 0; ONewTrans 2 0; OUpdate 2 1 bump_upd; OCommit 0 2]%N.
Definition G94 (kg : nat) : bool := kg =? 0.
Definition K94 (k : nat) : bool := Nat.even k.
Example C94_case : exists w1 w2,
  runs E0 True e94 w1 /\ runs E0 True e94o w2 /\ Forall (parted G94 K94 (fun _ => false)) e94 /\ Forall (parted G94 K94 (fun _ => false)) e94o /\
  filter (fun o => ours G94 K94 o = true) e94 = filter (fun o => ours G94 K94 o = true) e94o /\
  w_graphs w1 !! 0 = Some (0, rgr E0 e94 0) /\ w_graphs w2 !! 0 = Some (0, rgr E0 e94 0) /\
  (fun i => graph_get (rgr E0 e94 0) i) <$> [1; 2; 3]%N = [Some (nB 0 [] 101); None; Some (nA 1 [] [] 3)]%N /\
  w_graphs w1 !! 1 = Some (0, rgr E0 e94 1) /\ graph_get (rgr E0 e94 1) 2 = Some (nA 0 [] [] 109) /\ w_graphs w2 !! 1 = None.
Proof.
  exists (rw E0 e94), (rw E0 e94o).
  assert (runs E0 True e94 (rw E0 e94)) as H1. { apply run_runs; [unfold e94; sides|computes]. }
  assert (runs E0 True e94o (rw E0 e94o)) as H2. { apply run_runs; [unfold e94o; sides|computes]. }
  split; [exact H1|]. split; [exact H2|]. split; [apply partedb_sound; computes|]. split; [apply partedb_sound; computes|].
  split; [reflexivity|]. repeat (split; [vm_compute; reflexivity|]). vm_compute; reflexivity.
Qed.

(** With a context for each part, the calls may alternate in any way: three parts, whose graphs
    and contexts are 0, 1 and 2. *)
Definition p94 : list opn := [ONewCtx 7; ONewCtx 8; ONewCtx 9]%N.
Definition i94 : list opn :=
  [ONewGraph 0 0; ONewGraph 1 1; ONewTrans 0 0; OInsert 0 (nB 0 [] 1) 1; ONewTrans 2 2; ONewTrans 1 1; OInsert 1 (nA 0 [] [] 9) 1;
   OInsert 2 (nB 0 [] 4) 1; OInsert 0 (nA 1 [] [] 3) 2; OCommit 1 1; ONewTrans 4 1; OSwitch 1 1; OCommit 0 0; OUpdate 4 2 bump_upd; OCommit 1 4]%N.
Definition j94 : list opn :=
  [ONewTrans 2 2; ONewGraph 1 1; ONewTrans 1 1; OInsert 1 (nA 0 [] [] 9) 1; OCommit 1 1; ONewTrans 4 1; OSwitch 1 1; OUpdate 4 2 bump_upd; OInsert 2 (nB 0 [] 4) 1; OCommit 1 4;
   ONewGraph 0 0; ONewTrans 0 0; OInsert 0 (nB 0 [] 1) 1; OInsert 0 (nA 1 [] [] 3) 2; OCommit 0 0]%N.
Definition K94m (k : nat) : nat := k mod 3.
Example C94_interleaving_case :
  Forall (fun o => makes_ctx o = true \/ in_part id K94m id o) p94 /\ Forall (in_part id K94m id) i94 /\ Forall (in_part id K94m id) j94 /\
  (forall p, filter (fun o => part_of id K94m o = p) i94 = filter (fun o => part_of id K94m o = p) j94) /\ i94 <> j94 /\
  runs E0 True (p94 ++ i94) (rw E0 (p94 ++ i94)) /\
  (fun i => graph_get (rgr E0 (p94 ++ i94) 0) i) <$> [1; 2]%N = [Some (nB 0 [] 1); Some (nA 1 [] [] 3)]%N /\
  (fun i => graph_get (rgr E0 (p94 ++ i94) 1) i) <$> [1; 2]%N = [None; Some (nA 0 [] [] 109)]%N.
Proof.
  split; [repeat (constructor; [left; reflexivity|]); constructor|]. split; [apply in_partb_sound; computes|]. split; [apply in_partb_sound; computes|].
  split; [intros p; do 3 (destruct p as [|p]; [reflexivity|]); reflexivity|]. split; [discriminate|].
  split; [apply run_runs; [unfold p94, i94; cbn [app]; sides|computes]|]. split; computes.
Qed.
(** A shared context makes a difference: exchanged, the two insertions return each other's index. *)
Example C94_shared_context : exists w, runs E0 True ([ONewCtx 7; ONewTrans 0 0; ONewTrans 1 0] ++ [OInsert 0 (nB 0 [] 1) 1; OInsert 1 (nB 0 [] 2) 2])%N w /\
  forall w', ~ runs E0 True ([ONewCtx 7; ONewTrans 0 0; ONewTrans 1 0] ++ [OInsert 1 (nB 0 [] 2) 2; OInsert 0 (nB 0 [] 1) 1])%N w'.
Proof.
  eexists. split; [apply run_runs; [cbn [app]; sides|vm_compute; reflexivity]|]. intros w' H.
  change ([ONewCtx 7; ONewTrans 0 0; ONewTrans 1 0] ++ [OInsert 1 (nB 0 [] 2) 2; OInsert 0 (nB 0 [] 1) 1])%N
    with (((([ONewCtx 7] ++ [ONewTrans 0 0]) ++ [ONewTrans 1 0]) ++ [OInsert 1 (nB 0 [] 2) 2]) ++ [OInsert 0 (nB 0 [] 1) 1])%N in H.
  apply runs_snoc_inv in H as (w4&H&_). apply runs_snoc_inv in H as (w3&H&H4). apply runs_snoc_inv in H as (w2&H&H3).
  apply runs_snoc_inv in H as (w1&H&H2). change [ONewCtx 7] with ([] ++ [ONewCtx (D:=nat) 7]) in H. apply runs_snoc_inv in H as (w0&H&H1).
  assert (w0 = world_new) as -> by (inversion H as [|os ? ? ? ? ? He]; [done|by destruct os]).
  inversion H1; subst. inversion H2; subst. inversion H3; subst.
  inversion H4 as [| | |k9 n9 c9 u9 cnt9 t9 cntz tz i9 Hk Hc Hn Hlt Hi| | | | | | | | | | | | | | | | |]; subst. apply insert_ret in Hi; [|done].
  cbn in Hk. rewrite lookup_insert in Hk. injection Hk as <- <-. vm_compute in Hc. injection Hc as <- <-. vm_compute in Hi. discriminate Hi.
Qed.
