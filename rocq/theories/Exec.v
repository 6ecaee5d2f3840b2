(** * Executable histories

    A functional version of [step] used to build concrete reachable worlds for the
    examples and refutations; [exec_reachable] says that it only produces worlds
    [reachable] allows. *)
From Verif Require Export WorldInv.

Section exec.
  Context {D : Type} (E : env).
  Notation world := (world (D:=D)).
  Notation op := (op (D:=D)).

  Fixpoint incb (l : list idx) : bool :=
    match l with [] => true | x :: r => forallb (N.ltb x) r && incb r end.
  Lemma incb_sound l : incb l = true -> StronglySorted N.lt l.
  Proof.
    induction l as [|x r IH]; cbn; [constructor|]. intros [H1 H2]%andb_true_iff. constructor; [by apply IH|].
    apply Forall_forall. intros y Hy. rewrite forallb_forall in H1. apply N.ltb_lt, H1. by apply elem_of_list_In.
  Qed.
  Definition linkval_okb (k : lkind) (lv : linkval) : bool :=
    bool_decide (kind_of lv = k) && match lv with LSet k l => bool_decide (NoDup l) && match st_kind k with SBTree => incb l | _ => true end | _ => true end.
  Fixpoint links_okb (ks : list lkind) (ls : list linkval) : bool :=
    match ks, ls with
    | [], [] => true
    | k :: ks', l :: ls' => linkval_okb k l && links_okb ks' ls'
    | _, _ => false
    end.
  Definition node_okb (n : node D) : bool :=
    match e_kinds E !! nvar n with Some ks => links_okb ks (nlinks n) | None => false end.
  Lemma node_okb_sound n : node_okb n = true -> node_ok E n.
  Proof.
    unfold node_okb, node_ok. destruct (e_kinds E !! nvar n) as [ks|]; [|done]. intros H. exists ks. split; [done|].
    revert H. generalize (nlinks n). induction ks as [|k ks IH]; intros [|l ls]; cbn; try done.
    rewrite andb_true_iff. intros [H1 H2]. constructor; [|by apply IH].
    unfold linkval_okb in H1. apply andb_true_iff in H1 as [H1 H3]. apply bool_decide_eq_true in H1. split; [done|].
    destruct l; try done. apply andb_true_iff in H3 as [H3 H4]. apply bool_decide_eq_true in H3. split; [done|]. intros Hb.
    rewrite Hb in H4. by apply incb_sound.
  Qed.

  (** conditions that cannot be computed: closures are well-typed *)
  Definition op_side (T : Prop) (o : op) : Prop :=
    match o with
    | OMutate _ _ f => mut_ok E T f
    | OUpdate _ _ f => upd_ok E T f
    | _ => True
    end.

  Definition ex_trans (w : world) k {A} (f : nat -> trans D -> option A) : option A :=
    match w_trans w !! k with Some (c, t) => f c t | None => None end.
  Definition ex_graph (w : world) k {A} (f : nat -> graph D -> option A) : option A :=
    match w_graphs w !! k with Some (c, g) => f c g | None => None end.
  Definition ex_ctx (w : world) c {A} (f : N -> idx -> option A) : option A :=
    match w_ctx w !! c with Some (u, cnt) => f u cnt | None => None end.
  Definition gate {A} (b : bool) (x : option A) : option A := if b then x else None.
  Definition ex_alloc (w : world) k (m : M (idx * trans D) idx) (i : idx) : option world :=
    ex_trans w k (fun c t => ex_ctx w c (fun u cnt =>
      gate (cnt + 1 <? usize_mod)%N
        match m (cnt, t) with
        | Done (cnt', t') i' => gate (i' =? i)%N (Some (set_cnt (set_t w k (c, t')) c u cnt'))
        | _ => None
        end)).
  Definition ex_tm (w : world) k (m : M (trans D) unit) : option world :=
    ex_trans w k (fun c t => match m t with Done t' _ => Some (set_t w k (c, t')) | _ => None end).

  Definition exec (w : world) (o : op) : option world :=
    match o with
    | ONewCtx u => Some (World (w_ctx w ++ [(u, dist_new)]) (w_graphs w) (w_trans w))
    | ONewGraph k c => ex_ctx w c (fun u _ => Some (set_g w k (c, graph_new E u)))
    | ONewTrans k c => ex_ctx w c (fun u _ => Some (set_t w k (c, trans_new E u)))
    | OInsert k n i => gate (node_okb n) (ex_alloc w k (trans_insert E n) i)
    | OAlloc k d i => ex_alloc w k (trans_alloc E d) i
    | OAllocUntyped k i => ex_alloc w k (trans_alloc_untyped E) i
    | OFill k i n => gate (node_okb n) (ex_tm w k (trans_fill_back i n))
    | OFillUntyped k i n => gate (node_okb n)
        (ex_trans w k (fun c t => gate (bool_decide (i ∈ t_alloc t)) (ex_tm w k (trans_fill_back_untyped i n))))
    | ORemove k i => ex_trans w k (fun c t => Some (set_t w k (c, trans_remove i t)))
    | OMutate k i f => ex_tm w k (trans_mutate i f)
    | OUpdate k i f => ex_tm w k (trans_update i f)
    | ORedirect k o z => gate (negb (o =? 0)%N) (ex_trans w k (fun c t => Some (set_t w k (c, trans_redirect o z t))))
    | ORedirectAll k o z => gate (negb (o =? 0)%N) (ex_trans w k (fun c t => Some (set_t w k (c, trans_redirect_all o z t))))
    | OMerge k kg => ex_trans w k (fun c t => ex_graph w kg (fun c' g => gate (c' =? c)
        match trans_merge g t with Done t' _ => Some (del_g (set_t w k (c, t')) kg) | _ => None end))
    | OGiveUp k => Some (del_t w k)
    | ODropGraph kg => Some (del_g w kg)
    | OCommit kg k => ex_trans w k (fun c t => ex_graph w kg (fun c' g => gate (c' =? c)
        match commit E t g with Done g' _ => Some (set_g (del_t w k) kg (c, g')) | _ => None end))
    | OCommitChecked kg k chk => ex_trans w k (fun c t => ex_graph w kg (fun c' g => gate (c' =? c)
        match commit_checked E t chk g with Done g' _ => Some (set_g (del_t w k) kg (c, g')) | _ => None end))
    | OCommitPanic kg k p => ex_trans w k (fun c t => ex_graph w kg (fun c' g => gate (c' =? c)
        (gate (negb (e_dbg E && (negb (t_ctx t =? g_ctx g)%N || negb (bool_decide (t_alloc t = [])))))
        match t_mut t, t_upd t, commit E t g with
        | [], [], Panicked p' g' => gate (bool_decide (p' = p)) (Some (set_g (del_t w k) kg (c, g')))
        | _, _, _ => None
        end)))
    | OSwitch kg c => ex_graph w kg (fun c0 g => ex_ctx w c (fun u cnt =>
        gate (cnt + N.of_nat (length (graph_iter g)) <? usize_mod)%N
          match switch_context E g u cnt with Done cnt' g' => Some (set_cnt (set_g w kg (c, g')) c u cnt') | _ => None end))
    | ODeser kg s =>
        gate (forallb (fun '(i, n) => node_okb n && (0 <? i)%N && (i <? usize_mod)%N) (gs_nodes s))
          match deserialize_graph E s with
          | Ok (cnt, g) => Some (World (w_ctx w ++ [(gs_ctx s, cnt)]) (<[kg := (length (w_ctx w), g)]> (w_graphs w)) (w_trans w))
          | Err _ => None
          end
    end.

  Lemma exec_step T w o w' : op_side T o -> exec w o = Some w' -> step E T w o w'.
  Proof.
    intros Hs. destruct o; cbn [exec op_side] in *;
      unfold gate, ex_alloc, ex_tm, ex_trans, ex_graph, ex_ctx, gate; intros H.
    - injection H as <-. constructor.
    - destruct (w_ctx w !! c) as [[u cnt]|] eqn:Hc; [|done]. injection H as <-. by econstructor.
    - destruct (w_ctx w !! c) as [[u cnt]|] eqn:Hc; [|done]. injection H as <-. by econstructor.
    - destruct (node_okb n) eqn:Hn; [|done]. destruct (w_trans w !! k) as [[c t]|] eqn:Ht; [|done].
      destruct (w_ctx w !! c) as [[u cnt]|] eqn:Hc; [|done]. destruct (N.ltb_spec (cnt + 1) usize_mod); [|done].
      destruct (trans_insert E n (cnt, t)) as [[cnt' t'] i'|] eqn:Hm; [|done].
      destruct (N.eqb_spec i' i) as [->|]; [|done]. injection H as <-. apply node_okb_sound in Hn. by econstructor.
    - destruct (w_trans w !! k) as [[c t]|] eqn:Ht; [|done].
      destruct (w_ctx w !! c) as [[u cnt]|] eqn:Hc; [|done]. destruct (N.ltb_spec (cnt + 1) usize_mod); [|done].
      destruct (trans_alloc E d (cnt, t)) as [[cnt' t'] i'|] eqn:Hm; [|done].
      destruct (N.eqb_spec i' i) as [->|]; [|done]. injection H as <-. by econstructor.
    - destruct (w_trans w !! k) as [[c t]|] eqn:Ht; [|done].
      destruct (w_ctx w !! c) as [[u cnt]|] eqn:Hc; [|done]. destruct (N.ltb_spec (cnt + 1) usize_mod); [|done].
      destruct (trans_alloc_untyped E (cnt, t)) as [[cnt' t'] i'|] eqn:Hm; [|done].
      destruct (N.eqb_spec i' i) as [->|]; [|done]. injection H as <-. by econstructor.
    - destruct (node_okb n) eqn:Hn; [|done]. destruct (w_trans w !! k) as [[c t]|] eqn:Ht; [|done].
      destruct (trans_fill_back i n t) as [t' []|] eqn:Hm; [|done]. injection H as <-. apply node_okb_sound in Hn. by econstructor.
    - destruct (node_okb n) eqn:Hn; [|done]. destruct (w_trans w !! k) as [[c t]|] eqn:Ht; [|done].
      case_bool_decide; [|done].
      destruct (trans_fill_back_untyped i n t) as [t' []|] eqn:Hm; [|done]. injection H as <-. apply node_okb_sound in Hn. by econstructor.
    - destruct (w_trans w !! k) as [[c t]|] eqn:Ht; [|done]. injection H as <-. by econstructor.
    - destruct (w_trans w !! k) as [[c t]|] eqn:Ht; [|done].
      destruct (trans_mutate i f t) as [t' []|] eqn:Hm; [|done]. injection H as <-. by econstructor.
    - destruct (w_trans w !! k) as [[c t]|] eqn:Ht; [|done].
      destruct (trans_update i f t) as [t' []|] eqn:Hm; [|done]. injection H as <-. by econstructor.
    - destruct (N.eqb_spec o 0); [done|]. cbn in H. destruct (w_trans w !! k) as [[c t]|] eqn:Ht; [|done]. injection H as <-. by econstructor.
    - destruct (N.eqb_spec o 0); [done|]. cbn in H. destruct (w_trans w !! k) as [[c t]|] eqn:Ht; [|done]. injection H as <-. by econstructor.
    - destruct (w_trans w !! k) as [[c t]|] eqn:Ht; [|done]. destruct (w_graphs w !! kg) as [[c' g]|] eqn:Hg; [|done].
      destruct (Nat.eqb_spec c' c) as [->|]; [|done].
      destruct (trans_merge g t) as [t' []|] eqn:Hm; [|done]. injection H as <-. by econstructor.
    - injection H as <-. constructor.
    - injection H as <-. constructor.
    - destruct (w_trans w !! k) as [[c t]|] eqn:Ht; [|done]. destruct (w_graphs w !! kg) as [[c' g]|] eqn:Hg; [|done].
      destruct (Nat.eqb_spec c' c) as [->|]; [|done].
      destruct (commit E t g) as [g' []|] eqn:Hm; [|done]. injection H as <-. by econstructor.
    - destruct (w_trans w !! k) as [[c0 t]|] eqn:Ht; [|done]. destruct (w_graphs w !! kg) as [[c' g]|] eqn:Hg; [|done].
      destruct (Nat.eqb_spec c' c0) as [->|]; [|done].
      destruct (commit_checked E t c g) as [g' []|] eqn:Hm; [|done]. injection H as <-. by econstructor.
    - destruct (w_trans w !! k) as [[c0 t]|] eqn:Ht; [|done]. destruct (w_graphs w !! kg) as [[c' g]|] eqn:Hg; [|done].
      destruct (Nat.eqb_spec c' c0) as [->|]; [|done]. destruct (negb (e_dbg E && _)) eqn:Hgd; [|done].
      destruct (t_mut t) eqn:Hm; [|done]. destruct (t_upd t) eqn:Hu; [|done].
      destruct (commit E t g) as [|p' g'] eqn:Hc; [done|]. case_bool_decide; [|done]. subst p'. injection H as <-.
      econstructor; [done..| |].
      + intros [Hd Hgf]. rewrite Hd in Hgd. cbn in Hgd. apply negb_true_iff, orb_false_iff in Hgd as [Hg1 Hg2].
        apply negb_false_iff, N.eqb_eq in Hg1. apply negb_false_iff, bool_decide_eq_true in Hg2. by destruct Hgf.
      + intros (m1&_&[(pre&i&f&post&mi&n&Heq&_)|(m2&_&pre&i&f&post&mi&n&Heq&_)]).
        * rewrite Hm in Heq. by destruct pre.
        * rewrite Hu in Heq. by destruct pre.
    - destruct (w_graphs w !! kg) as [[c0 g]|] eqn:Hg; [|done]. destruct (w_ctx w !! c) as [[u cnt]|] eqn:Hc; [|done].
      destruct (N.ltb_spec (cnt + N.of_nat (length (graph_iter g))) usize_mod); [|done].
      destruct (switch_context E g u cnt) as [cnt' g'|] eqn:Hm; [|done]. injection H as <-. by econstructor.
    - destruct (forallb _ _) eqn:Hf; [|done]. destruct (deserialize_graph E s) as [[cnt g]|] eqn:Hd; [|done].
      injection H as <-. constructor; [|done]. rewrite forallb_forall in Hf. intros i n Hin.
      apply elem_of_list_In in Hin. apply Hf in Hin. rewrite !andb_true_iff, !N.ltb_lt in Hin.
      destruct Hin as [[Hn ?] ?]. split; [by apply node_okb_sound|lia].
  Qed.

  Fixpoint run (w : world) (os : list op) : option world :=
    match os with
    | [] => Some w
    | o :: os' => match exec w o with Some w' => run w' os' | None => None end
    end.
  Lemma run_reachable T w os w' :
    reachable E T w -> Forall (op_side T) os -> run w os = Some w' -> reachable E T w'.
  Proof.
    intros Hr Hs. revert w Hr. induction Hs as [|o os Ho _ IH]; intros w Hr; cbn.
    - by intros [= <-].
    - destruct (exec w o) as [w1|] eqn:He; [|done]. apply IH. eapply reach_step; [done|]. by apply exec_step.
  Qed.

  (** the graph / transaction numbered [k] after the history [os] *)
  Definition run_graph (os : list op) (k : nat) : option (graph D) :=
    match run world_new os with Some w => snd <$> w_graphs w !! k | None => None end.
  Definition run_trans (os : list op) (k : nat) : option (trans D) :=
    match run world_new os with Some w => snd <$> w_trans w !! k | None => None end.
  Definition run_pair (os : list op) (kg k : nat) : option (graph D * trans D) :=
    match run world_new os with
    | Some w => ex_graph w kg (fun c g => ex_trans w k (fun c' t => gate (c' =? c) (Some (g, t))))
    | None => None
    end.

  Lemma run_graph_of T os k g : Forall (op_side T) os -> run_graph os k = Some g -> graph_of E T g.
  Proof.
    intros Hs. unfold run_graph. destruct (run world_new os) as [w|] eqn:Hr; [|done].
    destruct (w_graphs w !! k) as [[c g0]|] eqn:Hg; [|done]. intros [= <-].
    exists w, k, c. split; [|done]. eapply run_reachable; [apply reach_new|done..].
  Qed.
  Lemma run_pair_of T os kg k g t : Forall (op_side T) os -> run_pair os kg k = Some (g, t) -> pair_of E T g t.
  Proof.
    intros Hs. unfold run_pair, ex_graph, ex_trans, gate. destruct (run world_new os) as [w|] eqn:Hr; [|done].
    destruct (w_graphs w !! kg) as [[c g0]|] eqn:Hg; [|done].
    destruct (w_trans w !! k) as [[c' t0]|] eqn:Ht; [|done].
    destruct (Nat.eqb_spec c' c) as [->|]; [|done]. intros [= <- <-].
    exists w, kg, k, c. split; [|done]. eapply run_reachable; [apply reach_new|done..].
  Qed.
End exec.
