(** * Executable histories with the log of calls

    Runs a list of API calls and keeps, for every transaction, the user-level state
    its calls add up to; [run_hist_history] says that what comes out is a [history]. *)
From Verif Require Export Exec BidiFinal.

Section exech.
  Context {D : Type} (E : env).
  Notation world := (world (D:=D)).
  Notation op := (op (D:=D)).

  Definition tightb (g : graph D) : bool := forallb (fun kv => arena_contains (g_nodes g) kv.1) (a_disp (g_nodes g)).
  Definition cleanb (w : world) (o : op) : bool :=
    match o with
    | OMerge _ kg => match w_graphs w !! kg with Some (_, g) => e_dbg E || tightb g | None => true end
    | _ => true
    end.
  Lemma tightb_sound g : tightb g = true -> tight g.
  Proof.
    unfold tightb. rewrite forallb_forall. intros H i [d Hd]. apply arena_contains_get. apply (H (i, d)).
    by apply elem_of_list_In, omap_get_elem.
  Qed.
  Lemma cleanb_sound w o : cleanb w o = true -> clean_merge E w o.
  Proof.
    destruct o; cbn; try done. destruct (w_graphs w !! kg) as [[c0 g0]|]; intros H c1 g1 Heq Hd; try done.
    injection Heq as -> ->. rewrite Hd in H. by apply tightb_sound.
  Qed.

  Fixpoint lrun (w : world) (lg : nat -> list (tevent D)) (os : list op) : option (world * (nat -> list (tevent D))) :=
    match os with
    | [] => Some (w, lg)
    | o :: os' =>
      if cleanb w o then
        match exec E w o with Some w' => lrun w' (log_step w o lg) os' | None => None end
      else None
    end.
  Lemma lrun_lreach T w lg os w' lg' :
    lreach E T w lg -> Forall (op_side E T) os -> lrun w lg os = Some (w', lg') -> lreach E T w' lg'.
  Proof.
    intros Hr Hs. revert w lg Hr. induction Hs as [|o os Ho _ IH]; intros w lg Hr; cbn.
    - by intros [= <- <-].
    - destruct (cleanb w o) eqn:Hf; [|done]. destruct (exec E w o) as [w1|] eqn:He; [|done]. apply IH.
      econstructor; [done|by apply exec_step|by apply cleanb_sound].
  Qed.

  (** graph [kg], transaction [k] and what the calls on it add up to *)
  Definition run_hist (os : list op) (kg k : nat) : option (graph D * trans D * tspec D) :=
    match lrun world_new (fun _ => []) os with
    | Some (w, lg) =>
      ex_graph w kg (fun c g => ex_trans w k (fun c' t =>
        match ts_run ts_empty (lg k) with
        | Some s => gate (c' =? c) (Some (g, t, s))
        | None => None
        end))
    | None => None
    end.
  Lemma run_hist_history T os kg k g t s :
    Forall (op_side E T) os -> run_hist os kg k = Some (g, t, s) -> history E T g t s.
  Proof.
    intros Hs. unfold run_hist, ex_graph, ex_trans, gate.
    destruct (lrun world_new (fun _ => []) os) as [[w lg]|] eqn:Hr; [|done].
    destruct (w_graphs w !! kg) as [[c g0]|] eqn:Hg; [|done].
    destruct (w_trans w !! k) as [[c' t0]|] eqn:Ht; [|done].
    destruct (ts_run ts_empty (lg k)) as [s0|] eqn:Hrun; [|done].
    destruct (Nat.eqb_spec c' c) as [->|]; [|done]. intros [= <- <- <-].
    exists (lg k). split; [|done]. exists w, lg, kg, k, c. split; [|done].
    eapply lrun_lreach; [constructor|done..].
  Qed.
  (** the same with the calls themselves *)
  Definition run_log (os : list op) (kg k : nat) : option (graph D * trans D * list (tevent D)) :=
    match lrun world_new (fun _ => []) os with
    | Some (w, lg) => ex_graph w kg (fun c g => ex_trans w k (fun c' t => gate (c' =? c) (Some (g, t, lg k))))
    | None => None
    end.
  Lemma run_log_pair T os kg k g t L :
    Forall (op_side E T) os -> run_log os kg k = Some (g, t, L) -> pair_log E T g t L.
  Proof.
    intros Hs. unfold run_log, ex_graph, ex_trans, gate.
    destruct (lrun world_new (fun _ => []) os) as [[w lg]|] eqn:Hr; [|done].
    destruct (w_graphs w !! kg) as [[c g0]|] eqn:Hg; [|done].
    destruct (w_trans w !! k) as [[c' t0]|] eqn:Ht; [|done].
    destruct (Nat.eqb_spec c' c) as [->|]; [|done]. intros [= <- <- <-].
    exists w, lg, kg, k, c. split; [|done]. eapply lrun_lreach; [constructor|done..].
  Qed.
End exech.
