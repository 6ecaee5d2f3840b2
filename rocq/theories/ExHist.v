(** * Concrete histories with their logs, used by the examples beside the theorems *)
From Verif Require Export Examples ExecHist Owner.

Definition pick3_g (o : option (graph nat * trans nat * tspec nat)) : graph nat := match o with Some (g, _, _) => g | None => graph_new E0 0 end.
Definition pick3_t (o : option (graph nat * trans nat * tspec nat)) : trans nat := match o with Some (_, t, _) => t | None => trans_new E0 0 end.
Definition pick3_s (o : option (graph nat * trans nat * tspec nat)) : tspec nat := match o with Some (_, _, s) => s | None => ts_empty end.

Lemma run_hist_pick E T os kg k :
  Forall (op_side E T) os -> is_Some (run_hist E os kg k) ->
  history E T (pick3_g (run_hist E os kg k)) (pick3_t (run_hist E os kg k)) (pick3_s (run_hist E os kg k)).
Proof. intros Hs [[[g t] s] Hr]. eapply run_hist_history; [done|]. by rewrite Hr. Qed.

Definition busy_s : tspec nat := pick3_s (run_hist E0 busy 0 1).
Lemma busy_hist T : history E0 T busy_g busy_t busy_s.
Proof.
  assert (pick3_g (run_hist E0 busy 0 1) = busy_g) as <- by computes.
  assert (pick3_t (run_hist E0 busy 0 1) = busy_t) as <- by computes.
  apply run_hist_pick; [sides|]. vm_compute. eauto.
Qed.

(** decide a closed proposition by computation *)
Ltac decides := refine (proj1 (bool_decide_eq_true _) _); vm_compute; reflexivity.

Example busy_result : forall i, graph_get busy_g' i = (list_to_map
   [(2, nA 4 [4] [4; 0; 4] 102); (3, nA 2 [2; 4] [2] 3); (5, nA 0 [2] [2; 2] 105);
    (4, nB 0 [] 104); (6, nB 5 [2] 6)] : gmap N (node nat))%N !! i.
Proof.
  intros i. assert (gmap_of busy_g' = list_to_map
   [(2, nA 4 [4] [4; 0; 4] 102); (3, nA 2 [2; 4] [2] 3); (5, nA 0 [2] [2; 2] 105);
    (4, nB 0 [] 104); (6, nB 5 [2] 6)]%N) as <- by computes.
  rewrite (gmap_of_get E0); [done|]. destruct (history_ok E0 False _ _ _ (busy_hist False)) as (Hwf&Hty&Ht&_).
  by apply (commit_wf E0 False _ _ _ Hwf Hty Ht busy_commit).
Qed.

Definition pick3_L (o : option (graph nat * trans nat * list (tevent nat))) : list (tevent nat) := match o with Some (_, _, L) => L | None => [] end.
Definition busy_L : list (tevent nat) := pick3_L (run_log E0 busy 0 1).
Lemma busy_log T : pair_log E0 T busy_g busy_t busy_L.
Proof. apply (run_log_pair E0 T busy 0 1); [sides|]. vm_compute. reflexivity. Qed.

(** redirect loops: among redirect_links calls, among redirect_all_links calls *)
Definition loop1 : list opn := setup ++ [ONewTrans 1 0; ORedirect 1 1 2; ORedirect 1 2 3; ORedirect 1 3 1]%N.
Definition loop2 : list opn := setup ++ [ONewTrans 1 0; ORedirectAll 1 1 2; ORedirectAll 1 2 3; ORedirectAll 1 3 1]%N.
Definition loop_g (os : list opn) := pick3_g (run_hist E0 os 0 1).
Definition loop_t (os : list opn) := pick3_t (run_hist E0 os 0 1).
Definition loop_s (os : list opn) := pick3_s (run_hist E0 os 0 1).
