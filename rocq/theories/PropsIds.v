(** * Property theorems: index allocation *)
From Verif Require Import ExTrans IdThreads.

(** ** C01 *)
(** Threads that share a distributer: [es] is any interleaving of their [fetch_add]s and
    returns, starting with counter [c0]. *)
Theorem C01_threads_unique_nonempty :
  forall dbg c0 es s, dsteps dbg (DState c0 ∅) es s -> (c0 + fetches es < usize_mod)%N ->
  NoDup (returned es) /\ (forall i, i ∈ returned es -> i <> 0%N /\ (c0 < i)%N) /\ (forall th, DPanic th ∉ es).
Proof. intros. by eapply threads_unique. Qed.
Print Assumptions C01_threads_unique_nonempty.
Lemma dsteps_cons dbg s e s1 es s2 : dstep dbg s e s1 -> dsteps dbg s1 es s2 -> dsteps dbg s (e :: es) s2.
Proof.
  intros H1 Hd. induction Hd as [s1|s1 es s3 e' s2 Hd IH H2]; [apply (dss_snoc dbg s [] s); [apply dss_nil|done]|].
  apply (dss_snoc dbg s (e :: es) s3); [by apply IH|done].
Qed.
Example C01_case : exists s,
  dsteps true (DState 4 ∅) [DFetch 0; DFetch 1; DReturn 1 6; DFetch 2; DFetch 1; DReturn 0 5; DReturn 1 8; DReturn 2 7] s.
Proof.
  eexists.
  eapply dsteps_cons; [apply ds_fetch; computes|]. eapply dsteps_cons; [apply ds_fetch; computes|].
  eapply dsteps_cons; [apply (ds_return _ _ 1 5%N); [computes|by intros _]|].
  eapply dsteps_cons; [apply ds_fetch; computes|]. eapply dsteps_cons; [apply ds_fetch; computes|].
  eapply dsteps_cons; [apply (ds_return _ _ 0 4%N); [computes|by intros _]|].
  eapply dsteps_cons; [apply (ds_return _ _ 1 7%N); [computes|by intros _]|].
  eapply dsteps_cons; [apply (ds_return _ _ 2 6%N); [computes|by intros _]|]. apply dss_nil.
Qed.

(** The calls that return indices, in any history over any number of contexts, graphs
    and transactions: of two such calls on one context the later returns the larger
    index. *)
Theorem C01_calls_increasing :
  forall {D} (E : env) (T : Prop) (w w1 w2 w3 : world (D:=D)) o o' c i j,
  reachable E T w -> step E T w o w1 -> handed w o c i -> rtc (any_step E T) w1 w2 ->
  step E T w2 o' w3 -> handed w2 o' c j -> (0 < i < j)%N.
Proof. intros. by eapply handed_increasing. Qed.
Print Assumptions C01_calls_increasing.
(** and no graph or transaction of the context already uses the index *)
Theorem C01_calls_fresh :
  forall {D} (E : env) (T : Prop) (w w' : world (D:=D)) o c i h,
  reachable E T w -> step E T w o w' -> handed w o c i -> ~ holder_has w h c i.
Proof. intros. by eapply handed_not_held'. Qed.
Print Assumptions C01_calls_fresh.
Definition C01_ops : list opn := setup ++ [ONewTrans 1 0; ONewTrans 2 0]%N.
Definition C01_w (n : nat) : world := the_w (run_lw E0 (C01_ops ++ take n [OInsert 2 (nB 0 [] 6) 5; OGiveUp 2; OAlloc 1 1 6])%N).
Example C01_case_calls : reachable E0 True (C01_w 0) /\
  step E0 True (C01_w 0) (OInsert 2 (nB 0 [] 6) 5) (C01_w 1) /\ handed (C01_w 0) (OInsert 2 (nB 0 [] 6) 5) 0 5 /\
  rtc (any_step E0 True) (C01_w 1) (C01_w 2) /\
  step E0 True (C01_w 2) (OAlloc 1 1 6) (C01_w 3) /\ handed (C01_w 2) (OAlloc 1 1 6) 0 6.
Proof.
  split; [apply run_reach; [sides|runs]|].
  split; [apply (run_step E0 True (C01_ops ++ []) (OInsert 2 (nB 0 [] 6) 5)); [sides|exact I|runs]|].
  split; [eexists 2, _; split; [vm_compute; reflexivity|by left; eexists]|].
  split; [apply rtc_once; exists (OGiveUp 2); apply (run_step E0 True (C01_ops ++ [OInsert 2 (nB 0 [] 6) 5]%N) (OGiveUp 2)); [sides|exact I|runs]|].
  split; [apply (run_step E0 True (C01_ops ++ [OInsert 2 (nB 0 [] 6) 5; OGiveUp 2]%N) (OAlloc 1 1 6)); [sides|exact I|runs]|].
  eexists 1, _; split; [vm_compute; reflexivity|by right; left; eexists].
Qed.

(** ** C02 *)
(** One call *)
Theorem C02_one_call : forall dbg c, (c < usize_mod)%N ->
  dist_alloc dbg c =
    (if decide (c = usize_mod - 1)%N then (if dbg then Panicked POverflow 0%N else Done 0%N 0%N)
     else Done (c + 1)%N (c + 1)%N).
Proof. exact dist_alloc_cases. Qed.
Print Assumptions C02_one_call.
(** Any number of calls, in both builds; [None] is the panic. *)
Theorem C02_nth_call : forall dbg n c i, (c < usize_mod)%N -> i < n ->
  alloc_results dbg n c !! i = Some (let x := ((c + 1 + N.of_nat i) mod usize_mod)%N in
    if decide (x = 0%N) then (if dbg then None else Some 0%N) else Some x).
Proof. exact alloc_results_at. Qed.
Print Assumptions C02_nth_call.
Theorem C02_repeats_far_apart : forall dbg n c i j x, (c < usize_mod)%N -> i < j ->
  alloc_results dbg n c !! i = Some (Some x) -> alloc_results dbg n c !! j = Some (Some x) -> (usize_mod <= N.of_nat (j - i))%N.
Proof. exact alloc_results_repeat. Qed.
Print Assumptions C02_repeats_far_apart.
Example C02_case :
  alloc_results true 4 18446744073709551613 = [Some 18446744073709551614; Some 18446744073709551615; None; Some 1]%N /\
  alloc_results false 4 18446744073709551613 = [Some 18446744073709551614; Some 18446744073709551615; Some 0; Some 1]%N.
Proof. split; computes. Qed.
(** The same for any interleaving of threads. *)
Theorem C02_threads : forall dbg c0 es s, (c0 < usize_mod)%N -> dsteps dbg (DState c0 ∅) es s ->
  ((fetches es <= usize_mod)%N -> NoDup (returned es)) /\
  (dbg = true -> 0%N ∉ returned es) /\
  ((exists th, DPanic th ∈ es) \/ 0%N ∈ returned es -> (usize_mod <= c0 + fetches es)%N).
Proof. exact threads_limit. Qed.
Print Assumptions C02_threads.
Example C02_case_threads : dsteps true (DState (usize_mod - 1) ∅) [DFetch 3; DPanic 3]%N (DState 0 ∅) /\
  dsteps false (DState (usize_mod - 1) ∅) [DFetch 3; DReturn 3 0]%N (DState 0 ∅).
Proof. split; [exact (dstep_alone true (usize_mod - 1) 3 eq_refl)|exact (dstep_alone false (usize_mod - 1) 3 eq_refl)]. Qed.
