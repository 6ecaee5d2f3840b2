(** * Concrete open transactions, pairs of graphs and worlds for the examples *)
From Verif Require Export ExHist DecideValid.

Definition run_lw (E : env) (os : list opn) : option (world * (nat -> list (tevent nat))) := lrun E world_new (fun _ => []) os.
Definition the_w (o : option (world (D:=nat) * (nat -> list (tevent nat)))) : world := match o with Some (w, _) => w | None => world_new end.
Definition the_lg (o : option (world (D:=nat) * (nat -> list (tevent nat)))) : nat -> list (tevent nat) := match o with Some (_, lg) => lg | None => fun _ => [] end.
Lemma run_lw_lreach E T os : Forall (op_side E T) os -> is_Some (run_lw E os) -> lreach E T (the_w (run_lw E os)) (the_lg (run_lw E os)).
Proof. intros Hs [[w lg] Hr]. unfold run_lw in *. rewrite Hr. eapply lrun_lreach; [apply lr_new|done..]. Qed.

Definition ex_t (E : env) (os : list opn) (k : nat) : trans nat := match w_trans (the_w (run_lw E os)) !! k with Some (_, t) => t | None => trans_new E 0 end.
Definition ex_g (E : env) (os : list opn) (k : nat) : graph nat := match w_graphs (the_w (run_lw E os)) !! k with Some (_, g) => g | None => graph_new E 0 end.
Definition ex_L (E : env) (os : list opn) (k : nat) : list (tevent nat) := the_lg (run_lw E os) k.
Definition ex_c (o : option (nat * trans nat)) : nat := match o with Some (c, _) => c | None => 99 end.
Definition ex_cnt (E : env) (os : list opn) (k : nat) : idx :=
  match w_ctx (the_w (run_lw E os)) !! ex_c (w_trans (the_w (run_lw E os)) !! k) with Some (_, cnt) => cnt | None => 0%N end.
Definition ex_s (E : env) (os : list opn) (k : nat) : tspec nat := match ts_run ts_empty (ex_L E os k) with Some s => s | None => ts_empty end.

Lemma run_open E T os k : Forall (op_side E T) os ->
  match run_lw E os with
  | Some (w, lg) => match w_trans w !! k with
    | Some (c, t) => match w_ctx w !! c with Some _ => match ts_run ts_empty (lg k) with Some _ => true | None => false end | None => false end
    | None => false end
  | None => false end = true ->
  open_trans E T (ex_cnt E os k) (ex_t E os k) (ex_L E os k) /\ ts_run ts_empty (ex_L E os k) = Some (ex_s E os k).
Proof.
  intros Hs H. unfold ex_cnt, ex_t, ex_s, ex_L. destruct (run_lw E os) as [[w lg]|] eqn:Hr; [|done]. cbn in *.
  destruct (w_trans w !! k) as [[c t]|] eqn:Ht; [|done]. cbn. destruct (w_ctx w !! c) as [[u cnt]|] eqn:Hc; [|done].
  destruct (ts_run ts_empty (lg k)) as [s|] eqn:Hts; [|done]. split; [|done].
  exists w, lg, k, c, u. split; [|done]. unfold run_lw in Hr. eapply lrun_lreach; [apply lr_new|done..].
Qed.
Lemma run_two E T os kg kg2 k : Forall (op_side E T) os -> kg <> kg2 ->
  match run_lw E os with
  | Some (w, lg) => match w_graphs w !! kg, w_graphs w !! kg2, w_trans w !! k with
    | Some (c, _), Some (c2, _), Some (c3, _) => (c2 =? c) && (c3 =? c)
    | _, _, _ => false end
  | None => false end = true ->
  two_graphs E T (ex_g E os kg) (ex_g E os kg2) (ex_t E os k) (ex_L E os k).
Proof.
  intros Hs Hne H. unfold ex_g, ex_t, ex_L. destruct (run_lw E os) as [[w lg]|] eqn:Hr; [|done]. cbn in *.
  destruct (w_graphs w !! kg) as [[c g]|] eqn:Hg; [|done]. destruct (w_graphs w !! kg2) as [[c2 g2]|] eqn:Hg2; [|done].
  destruct (w_trans w !! k) as [[c3 t]|] eqn:Ht; [|done]. apply andb_true_iff in H as [H1 H2].
  apply Nat.eqb_eq in H1 as ->, H2 as ->.
  exists w, lg, kg, kg2, k, c. split; [|done]. unfold run_lw in Hr. eapply lrun_lreach; [apply lr_new|done..].
Qed.
Lemma run_reach E T os : Forall (op_side E T) os -> is_Some (run_lw E os) -> reachable E T (the_w (run_lw E os)).
Proof. intros Hs Hr. eapply lreach_reachable, run_lw_lreach; done. Qed.
Lemma run_step E T os o : Forall (op_side E T) os -> op_side E T o -> is_Some (run_lw E (os ++ [o])) ->
  step E T (the_w (run_lw E os)) o (the_w (run_lw E (os ++ [o]))).
Proof.
  intros Hs Ho. unfold run_lw. generalize (world_new (D:=nat)), (fun _ : nat => @nil (tevent nat)).
  induction Hs as [|o' os Ho' _ IH]; intros w lg; cbn.
  - destruct (cleanb E w o); [|by intros [? ?]]. destruct (exec E w o) as [w'|] eqn:He; [|by intros [? ?]].
    intros _. by apply exec_step.
  - destruct (cleanb E w o'); [|by intros [? ?]]. destruct (exec E w o') as [w'|] eqn:He; [|by intros [? ?]]. apply IH.
Qed.
Ltac runs := vm_compute; eexists; reflexivity.
