(** * The order of the calls on a transaction: C78 *)
From stdpp Require Export gmap.
From Verif Require Import Calls ExHist ExTrans.

(** Every call on a transaction is either carried out at once or kept for the commit. *)
Theorem C78_now_or_kept :
  forall {D} (E : env) (T : Prop) cnt (t : trans D) L (s : tspec D) a,
  open_trans E T cnt t L -> ts_run ts_empty L = Some s ->
  (acts t a /\ ~ keeps t a) \/ (keeps t a /\ ~ acts t a).
Proof.
  intros D E T cnt t L s a Ho Hs. destruct (open_rep E T cnt t L Ho) as (u&Hh).
  destruct (t_hist_rep E _ _ _ _ Hh) as (s0&_&Hr&_). by eapply acts_or_keeps.
Qed.
Print Assumptions C78_now_or_kept.

(** The kept calls can be made after all the others, and mixed in any way that leaves the
    calls of one kind in order: the transaction and the indices handed out are the same.
    Condition: at the end the transaction still does not hold the nodes they are about. *)
Theorem C78_kept_calls_last :
  forall {D} (E : env) (L now kept kept' : list (acall D)) s s' is,
  splits E L s now kept s' is -> (forall a, a ∈ kept -> keeps s'.2 a) -> same_kinds kept kept' ->
  ac_runs E L s s' is /\ ac_runs E (now ++ kept') s s' is.
Proof.
  intros D E L now kept kept' s s' is Hs Hk Hsk. split; [apply (splits_runs E _ _ _ _ _ _ Hs)|].
  by eapply calls_reorder.
Qed.
Print Assumptions C78_kept_calls_last.

(** Two sequences of calls with the same immediate calls and, kind by kind, the same kept
    calls leave the same transaction, whatever came in between; so their commits are equal. *)
Theorem C78_same_transaction :
  forall {D} (E : env) (L1 L2 now kept1 kept2 : list (acall D)) cnt t cnt1 t1 cnt2 t2 is js,
  splits E L1 (cnt, t) now kept1 (cnt1, t1) is -> splits E L2 (cnt, t) now kept2 (cnt2, t2) js ->
  same_kinds kept1 kept2 ->
  t1 = t2 /\ cnt1 = cnt2 /\ is = js /\ forall g, commit E t1 g = commit E t2 g.
Proof.
  intros D E L1 L2 now kept1 kept2 cnt t cnt1 t1 cnt2 t2 is js H1 H2 Hk.
  destruct (splits_unique E _ _ _ _ _ _ _ _ _ _ H1 H2 Hk) as [[= -> ->] ->]. done.
Qed.
Print Assumptions C78_same_transaction.

(** All kinds of calls, first mixed, then sorted by kind with the kinds in another order. *)
Definition e78 : list opn := setup ++ [ONewTrans 1 0]%N.
Definition e78_t : trans nat := ex_t E0 e78 1.
Definition e78_now : list (acall nat) := [ACall (CInsert (nA 1 [3] [3; 2] 5)); ACall (CAlloc 1); ACall (CFill 6 (nB 5 [2] 6)); ACall (CMutate 5 bump_mut)]%N.
Definition e78_kept : list (acall nat) :=
  [ACall (CRemove 1); ACall (CMutate 2 bump_mut); ACall (CRedirectAll 3 2); ACall (CUpdate 4 bump_upd);
   ACall (CRedirect 1 4); ACall (CMutate 3 (relink 4 [] [])); ACall (CRemove 4)]%N.
Definition e78_kept' : list (acall nat) :=
  [ACall (CRedirect 1 4); ACall (CUpdate 4 bump_upd); ACall (CMutate 2 bump_mut); ACall (CMutate 3 (relink 4 [] []));
   ACall (CRemove 1); ACall (CRemove 4); ACall (CRedirectAll 3 2)]%N.
Definition e78_calls : list (acall nat) :=
  [ACall (CRemove 1); ACall (CInsert (nA 1 [3] [3; 2] 5)); ACall (CMutate 2 bump_mut); ACall (CRedirectAll 3 2);
   ACall (CAlloc 1); ACall (CUpdate 4 bump_upd); ACall (CFill 6 (nB 5 [2] 6)); ACall (CRedirect 1 4);
   ACall (CMutate 3 (relink 4 [] [])); ACall (CMutate 5 bump_mut); ACall (CRemove 4)]%N.
Definition e78_end : idx * trans nat :=
  match sort_calls E0 e78_calls (4%N, e78_t) with Some (_, _, s, _) => s | None => (0%N, e78_t) end.
Example C78_case :
  open_trans E0 True 4 e78_t (ex_L E0 e78 1) /\
  splits E0 e78_calls (4%N, e78_t) e78_now e78_kept e78_end [5; 6]%N /\
  (forall a, a ∈ e78_kept -> keeps e78_end.2 a) /\ same_kinds e78_kept e78_kept' /\
  call_kind <$> e78_kept <> call_kind <$> e78_kept'.
Proof.
  split. { change 4%N with (ex_cnt E0 e78 1). apply run_open; [sides|computes]. }
  split; [apply sort_splits; computes|]. split.
  { intros a Ha. apply keepsb_sound. revert a Ha. apply Forall_forall. repeat (constructor; [computes|]). constructor. }
  split; [|discriminate].
  intros k. do 6 (destruct k as [|k]; [computes|]). computes.
Qed.

(** The condition is needed: index 5 is reserved when [mutate] is called on it, so the call is
    kept; called after the reservation is filled it is carried out at once. *)
Theorem C78_filled_later_differs :
  exists (t : trans nat) L (c : acall nat) (pre post : list (acall nat)) s1 s2,
  open_trans E0 True 4 t L /\ ac_runs E0 (pre ++ [c] ++ post) (4%N, t) s1 [5]%N /\
  ac_runs E0 (pre ++ post ++ [c]) (4%N, t) s2 [5]%N /\ s1 <> s2 /\
  (length (t_mut s1.2), length (t_mut s2.2)) = (1, 0).
Proof.
  exists e78_t, (ex_L E0 e78 1), (ACall (CMutate 5%N bump_mut)), [ACall (CAlloc 1)], [ACall (CFill 5%N (nB 1 [] 5)%N)].
  eexists; eexists. split; [apply C78_case|]. split; [eapply sort_runs; computes|].
  split; [eapply sort_runs; computes|]. split; [discriminate|computes].
Qed.
Print Assumptions C78_filled_later_differs.
