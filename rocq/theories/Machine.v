(** * An abstract machine for whole programs

    A machine that knows nothing of arenas, dispatchers, back-links or recorders: a graph is
    a finite map of nodes with a set of known indices (C74), a transaction is what its calls
    ask for ([tspec]).  Programs of a debug build without bidirectional links, caught panics
    and [switch_context] (and with [commit_checked] only if no link is a [Vec]) run like this
    machine, call by call. *)
From stdpp Require Export gmap.
From Verif Require Export Known TransFinal Exact Api.

Section machine.
  Context {D : Type} (E : env) (T : Prop).

  Record agraph := AG { ag_nodes : gmap N (node D); ag_known : idx -> Prop }.
  Record aworld := AW { aw_ctx : list (N * idx); aw_graphs : gmap nat (nat * agraph); aw_trans : gmap nat (nat * tspec D) }.
  Definition aw_new : aworld := AW [] ∅ ∅.

  (** the transaction a call is made on, the index it returns (0 if none) and the call *)
  Definition call_of (o : op (D:=D)) : option (nat * idx * tcall D) :=
    match o with
    | OInsert k n i => Some (k, i, CInsert n)
    | OAlloc k d i => Some (k, i, CAlloc d)
    | OAllocUntyped k i => Some (k, i, CAllocUntyped)
    | OFill k i n => Some (k, 0%N, CFill i n)
    | OFillUntyped k i n => Some (k, 0%N, CFillUntyped i n)
    | ORemove k i => Some (k, 0%N, CRemove i)
    | OMutate k i f => Some (k, 0%N, CMutate i f)
    | OUpdate k i f => Some (k, 0%N, CUpdate i f)
    | ORedirect k o z => Some (k, 0%N, CRedirect o z)
    | ORedirectAll k o z => Some (k, 0%N, CRedirectAll o z)
    | _ => None
    end.
  (** what Rust's types and the usage rules give *)
  Definition call_types (c : tcall D) : Prop :=
    match c with
    | CInsert n | CFill _ n | CFillUntyped _ n => node_ok E n
    | CMutate _ f => mut_ok E T f
    | CUpdate _ f => upd_ok E T f
    | CRedirect o _ | CRedirectAll o _ => o <> 0%N
    | _ => True
    end.
  Definition fills_reserved (s : tspec D) (c : tcall D) : Prop :=
    match c with CFillUntyped i _ => is_Some (ts_res s !! i) | _ => True end.
  (** [cnt]: the indices handed out before, [cnt']: after *)
  Definition hands_out (c : tcall D) (i cnt cnt' : idx) : Prop :=
    if allocates c then (cnt + 1 < usize_mod)%N /\ i = (cnt + 1)%N /\ cnt' = (cnt + 1)%N else cnt' = cnt.
  (** links the commit adds respect the link types *)
  Definition new_links_typed (m m' : gmap N (node D)) : Prop :=
    forall x y l ny, in_nodes m' x y l -> ~ in_nodes m x y l -> m' !! y = Some ny -> e_chk E (nvar ny) l = true.

  (** what [commit_checked] checks (C30): the node checks the nodes whose links changed and the
      checks for added and for removed links the added links *)
  Definition checks_pass (m m' : gmap N (node D)) (c : graph_check D) : Prop :=
    (forall nm chk x, (nm, chk) ∈ gc_node c ->
       (exists y l, in_nodes m' x y l /\ ~ in_nodes m x y l \/ in_nodes m x y l /\ ~ in_nodes m' x y l) ->
       exists nx, m' !! x = Some nx /\ chk x nx = true) /\
    (forall nm chk x y l, (nm, chk) ∈ gc_add c \/ (nm, chk) ∈ gc_rem c -> in_nodes m' x y l -> ~ in_nodes m x y l ->
       exists nx, m' !! x = Some nx /\ chk x y nx (m' !! y) = true).

  Inductive astep (a : aworld) : op (D:=D) -> aworld -> Prop :=
  | as_new_ctx u : astep a (ONewCtx u) (AW (aw_ctx a ++ [(u, 0%N)]) (aw_graphs a) (aw_trans a))
  | as_new_graph k c u cnt : aw_ctx a !! c = Some (u, cnt) ->
      astep a (ONewGraph k c) (AW (aw_ctx a) (<[k := (c, AG ∅ (fun _ => False))]> (aw_graphs a)) (aw_trans a))
  | as_new_trans k c u cnt : aw_ctx a !! c = Some (u, cnt) ->
      astep a (ONewTrans k c) (AW (aw_ctx a) (aw_graphs a) (<[k := (c, ts_empty)]> (aw_trans a)))
  | as_call o k i tc c s s' u cnt cnt' : call_of o = Some (k, i, tc) ->
      aw_trans a !! k = Some (c, s) -> aw_ctx a !! c = Some (u, cnt) ->
      call_types tc -> fills_reserved s tc -> hands_out tc i cnt cnt' -> ts_call i s tc = Some s' ->
      astep a o (AW (<[c := (u, cnt')]> (aw_ctx a)) (aw_graphs a) (<[k := (c, s')]> (aw_trans a)))
  | as_merge k kg c s s' A : aw_trans a !! k = Some (c, s) -> aw_graphs a !! kg = Some (c, A) ->
      ts_event s (EvMerge (ag_nodes A)) = Some s' ->
      astep a (OMerge k kg) (AW (aw_ctx a) (delete kg (aw_graphs a)) (<[k := (c, s')]> (aw_trans a)))
  | as_give_up k : astep a (OGiveUp k) (AW (aw_ctx a) (aw_graphs a) (delete k (aw_trans a)))
  | as_drop_graph kg : astep a (ODropGraph kg) (AW (aw_ctx a) (delete kg (aw_graphs a)) (aw_trans a))
  | as_commit kg k c s A m' : aw_trans a !! k = Some (c, s) -> aw_graphs a !! kg = Some (c, A) ->
      ts_res s = ∅ -> commit_listed (ts_txn s) (ag_nodes A) (ag_known A) ->
      sp_commit (ts_txn s) (ag_nodes A) m' -> new_links_typed (ag_nodes A) m' ->
      astep a (OCommit kg k)
        (AW (aw_ctx a) (<[kg := (c, AG m' (l_commit (ts_txn s) (ag_known A)))]> (aw_graphs a)) (delete k (aw_trans a)))
  | as_commit_checked kg k chk c s A m' : (forall l, nonvec E l) ->
      aw_trans a !! k = Some (c, s) -> aw_graphs a !! kg = Some (c, A) ->
      ts_res s = ∅ -> commit_listed (ts_txn s) (ag_nodes A) (ag_known A) ->
      sp_commit (ts_txn s) (ag_nodes A) m' -> new_links_typed (ag_nodes A) m' -> checks_pass (ag_nodes A) m' chk ->
      astep a (OCommitChecked kg k chk)
        (AW (aw_ctx a) (<[kg := (c, AG m' (l_commit (ts_txn s) (ag_known A)))]> (aw_graphs a)) (delete k (aw_trans a)))
  | as_deser kg s : (forall i n, (i, n) ∈ gs_nodes s -> node_ok E n /\ (0 < i < usize_mod)%N) -> NoDup (gs_nodes s).*1 ->
      astep a (ODeser kg s)
        (AW (aw_ctx a ++ [(gs_ctx s, fold_left N.max ((gs_nodes s).*1) 0%N)])
           (<[kg := (length (aw_ctx a), AG (list_to_map (gs_nodes s)) (known_in (gs_nodes s)))]> (aw_graphs a)) (aw_trans a)).

  Inductive aruns : list (op (D:=D)) -> aworld -> Prop :=
  | aruns_nil : aruns [] aw_new
  | aruns_snoc os a o a' : aruns os a -> astep a o a' -> aruns (os ++ [o]) a'.

  (** the calls of the machine *)
  Definition plain_op (o : op (D:=D)) : Prop :=
    match o with OCommitChecked _ _ _ | OCommitPanic _ _ _ | OSwitch _ _ => False | _ => True end.
  Definition machine_op (o : op (D:=D)) : Prop :=
    match o with OCommitChecked _ _ _ => forall l, nonvec E l | _ => plain_op o end.

  (** ** The relation between the two *)
  Definition graph_as (cg : nat * graph D) (ca : nat * agraph) : Prop :=
    cg.1 = ca.1 /\ gmap_of cg.2 = ag_nodes ca.2 /\ known E T cg.2 (ag_known ca.2).
  Record sim (w : world (D:=D)) (lg : nat -> list (tevent D)) (a : aworld) : Prop := {
    sim_ctx : aw_ctx a = w_ctx w;
    sim_graphs : forall kg, option_Forall2 graph_as (w_graphs w !! kg) (aw_graphs a !! kg);
    sim_trans : forall k, option_Forall2 (fun ct cs => ct.1 = cs.1 /\ ts_run ts_empty (lg k) = Some cs.2) (w_trans w !! k) (aw_trans a !! k) }.

  (** ** Calls on transactions *)
  Definition fill_ok (t : trans D) (c : tcall D) : Prop := match c with CFillUntyped i _ => i ∈ t_alloc t | _ => True end.
  Lemma step_call w o k i tc w' : inv E T w -> call_of o = Some (k, i, tc) ->
    step E T w o w' <-> exists c t u cnt t' cnt', w_trans w !! k = Some (c, t) /\ w_ctx w !! c = Some (u, cnt) /\
      call_types tc /\ fill_ok t tc /\ (allocates tc = true -> cnt + 1 < usize_mod)%N /\
      tc_run E tc (cnt, t) = Done (cnt', t') i /\ w' = set_cnt (set_t w k (c, t')) c u cnt'.
  Proof.
    intros Hinv Hco.
    assert (forall c (t t' : trans D) u cnt, w_ctx w !! c = Some (u, cnt) -> set_cnt (set_t w k (c, t')) c u cnt = set_t w k (c, t')) as Hsame.
    { intros c t t' u cnt Hc. unfold set_cnt, set_t. cbn. by rewrite list_insert_id. }
    assert (forall c t, w_trans w !! k = Some (c, t) -> exists u cnt, w_ctx w !! c = Some (u, cnt)) as Hctx.
    { intros c t Ht. destruct (iv_trans _ _ _ Hinv k c t Ht) as (_&cnt&?). eauto. }
    destruct o; cbn in Hco; try done; injection Hco as <- <- <-; split.
    all: try (intros (c&t&u&cnt&t'&cnt'&Ht&Hc&Hty&Hf&Hr&Hrun&->); cbn in Hty, Hf, Hr, Hrun;
      try (match type of Hrun with context [match ?x with _ => _ end] => destruct x as [? []|] eqn:Hx end; [|done]);
      try injection Hrun as <- <-; try (rewrite (Hsame c t) by done); subst; econstructor; eauto; done).
    all: inversion 1; subst; match goal with H : w_trans _ !! _ = Some (?c, ?t) |- _ => destruct (Hctx _ _ H) as (u1&cnt1&Hc1) end;
      try (match goal with H : w_ctx _ !! _ = Some (?u, ?cnt) |- _ => assert (u1 = u) as -> by congruence; assert (cnt1 = cnt) as -> by congruence end).
    all: eexists _, _, _, _, _, _; split; [eassumption|]; split; [eassumption|]; cbn; split; [done|]; split; [done|].
    all: split; [done|].
    all: try (split; [eassumption|reflexivity]).
    all: try (match goal with H : _ = Done _ tt |- _ => rewrite H end).
    all: split; [reflexivity|]; symmetry; by eapply Hsame.
  Qed.

  Lemma log_call w o lg k i tc : call_of o = Some (k, i, tc) -> log_step w o lg = lcall lg k i tc.
  Proof. destruct o; cbn; intros H; try done; by injection H as <- <- <-. Qed.
  Lemma ok_of_types t tc : call_types tc -> fill_ok t tc -> tc_ok E t tc.
  Proof. by destruct tc. Qed.
  Lemma fill_ok_reserved t s tc : trep E t s -> fill_ok t tc <-> fills_reserved s tc.
  Proof.
    intros Hr. destruct tc; try done. cbn. rewrite (tr_res _ _ _ Hr). case_decide; [split; eauto|]. split; [done|]. by intros [? ?].
  Qed.

  Lemma sim_t w lg a k c t : lreach E T w lg -> sim w lg a -> w_trans w !! k = Some (c, t) ->
    exists s u cnt, aw_trans a !! k = Some (c, s) /\ ts_run ts_empty (lg k) = Some s /\ trep E t s /\ w_ctx w !! c = Some (u, cnt) /\ t_hist E u cnt t (lg k).
  Proof.
    intros Hl Hs Ht. pose proof (sim_trans _ _ _ Hs k) as Hk. rewrite Ht in Hk. inversion Hk as [? [c' s] [Hc Hr] Heq|]; subst. cbn in *. subst c'.
    destruct (lreach_inv E T w lg Hl) as [_ [_ Hts]]. destruct (Hts k c t Ht) as (u&cnt&Hcx&Hh).
    destruct (t_hist_rep E _ _ _ _ Hh) as (s'&Hs'&Htr&_). assert (s' = s) as -> by congruence. by exists s, u, cnt.
  Qed.
  Lemma sim_t' w lg a k c s : lreach E T w lg -> sim w lg a -> aw_trans a !! k = Some (c, s) ->
    exists t u cnt, w_trans w !! k = Some (c, t) /\ ts_run ts_empty (lg k) = Some s /\ trep E t s /\ w_ctx w !! c = Some (u, cnt) /\ t_hist E u cnt t (lg k).
  Proof.
    intros Hl Hs Ha. pose proof (sim_trans _ _ _ Hs k) as Hk. rewrite Ha in Hk. inversion Hk as [[c' t] ? [Hc Hr] Heq|]; subst. cbn in *. subst c'.
    destruct (sim_t w lg a k c t Hl Hs) as (s'&u&cnt&?&?&?&?&?); [done|]. assert (s' = s) as -> by congruence. by exists t, u, cnt.
  Qed.
  Lemma sim_g w lg a kg c g : sim w lg a -> w_graphs w !! kg = Some (c, g) ->
    exists A, aw_graphs a !! kg = Some (c, A) /\ gmap_of g = ag_nodes A /\ known E T g (ag_known A).
  Proof.
    intros Hs Hg. pose proof (sim_graphs _ _ _ Hs kg) as Hk. rewrite Hg in Hk. inversion Hk as [? [c' A] (Hc&?&?) Heq|]; subst. cbn in *. subst c'. eauto.
  Qed.
  Lemma sim_g' w lg a kg c A : sim w lg a -> aw_graphs a !! kg = Some (c, A) ->
    exists g, w_graphs w !! kg = Some (c, g) /\ gmap_of g = ag_nodes A /\ known E T g (ag_known A).
  Proof.
    intros Hs Hg. pose proof (sim_graphs _ _ _ Hs kg) as Hk. rewrite Hg in Hk. inversion Hk as [[c' g] ? (Hc&?&?) Heq|]; subst. cbn in *. subst c'. eauto.
  Qed.

  Lemma sim_set_g w lg a kg c g A : sim w lg a -> gmap_of g = ag_nodes A -> known E T g (ag_known A) ->
    sim (set_g w kg (c, g)) lg (AW (aw_ctx a) (<[kg := (c, A)]> (aw_graphs a)) (aw_trans a)).
  Proof.
    intros [H1 H2 H3] Hm Hl. split; [done| |done]. cbn. intros kg'. destruct (decide (kg' = kg)) as [->|].
    - rewrite !lookup_insert. by constructor.
    - rewrite !lookup_insert_ne by done. apply H2.
  Qed.
  Lemma sim_del_g w lg a kg : sim w lg a -> sim (del_g w kg) lg (AW (aw_ctx a) (delete kg (aw_graphs a)) (aw_trans a)).
  Proof.
    intros [H1 H2 H3]. split; [done| |done]. cbn. intros kg'. destruct (decide (kg' = kg)) as [->|].
    - rewrite !lookup_delete. by constructor.
    - rewrite !lookup_delete_ne by done. apply H2.
  Qed.
  Lemma sim_set_t w lg a k c t s L : sim w lg a -> ts_run ts_empty L = Some s ->
    sim (set_t w k (c, t)) (lput lg k L) (AW (aw_ctx a) (aw_graphs a) (<[k := (c, s)]> (aw_trans a))).
  Proof.
    intros [H1 H2 H3] Hr. split; [done|done|]. cbn. intros k'. unfold lput. destruct (decide (k' = k)) as [->|].
    - rewrite !lookup_insert. by constructor.
    - rewrite !lookup_insert_ne by done. apply H3.
  Qed.
  Lemma sim_del_t w lg a k : sim w lg a -> sim (del_t w k) lg (AW (aw_ctx a) (aw_graphs a) (delete k (aw_trans a))).
  Proof.
    intros [H1 H2 H3]. split; [done|done|]. cbn. intros k'. destruct (decide (k' = k)) as [->|].
    - rewrite !lookup_delete. by constructor.
    - rewrite !lookup_delete_ne by done. apply H3.
  Qed.
  Lemma sim_ctx_to w lg a l : sim w lg a -> sim (World l (w_graphs w) (w_trans w)) lg (AW l (aw_graphs a) (aw_trans a)).
  Proof. by intros [H1 H2 H3]. Qed.

  (** ** One call *)
  Lemma fwd_call w lg a o k i tc w' : lreach E T w lg -> sim w lg a -> call_of o = Some (k, i, tc) -> step E T w o w' ->
    exists a', astep a o a' /\ sim w' (log_step w o lg) a'.
  Proof.
    intros Hl Hs Hco Hst. assert (inv E T w) as Hi by by eapply reachable_inv, lreach_reachable.
    apply (step_call w o k i tc w' Hi Hco) in Hst as (c&t&u&cnt&t'&cnt'&Ht&Hc&Hty&Hf&Hr&Hrun&->).
    destruct (sim_t w lg a k c t Hl Hs Ht) as (s&u'&cnt0&Ha&Hlg&Htr&Hc'&Hh). rewrite Hc in Hc'. injection Hc' as <- <-.
    destruct (t_hist_call E u cnt t (lg k) tc Hh (ok_of_types _ _ Hty Hf) Hr) as (s0&Hs0&_&Hres). assert (s0 = s) as -> by congruence.
    rewrite Hrun in Hres. destruct Hres as (s'&Hs'&_&Hout).
    exists (AW (<[c := (u, cnt')]> (aw_ctx a)) (aw_graphs a) (<[k := (c, s')]> (aw_trans a))). split.
    - eapply as_call; [done|done|by rewrite (sim_ctx _ _ _ Hs)|done|by eapply fill_ok_reserved| |done].
      unfold hands_out. destruct (allocates tc); [|done]. destruct Hout. by split; [apply Hr|].
    - rewrite (log_call w o lg k i tc Hco). unfold lcall. rewrite (sim_ctx _ _ _ Hs).
      refine (sim_ctx_to (set_t w k (c, t')) _ (AW (aw_ctx a) (aw_graphs a) (<[k := (c, s')]> (aw_trans a))) (<[c := (u, cnt')]> (w_ctx w)) _).
      apply sim_set_t; [done|]. rewrite ts_run_app, Hlg. done.
  Qed.
  Lemma bwd_call w lg a o k i tc a' : lreach E T w lg -> sim w lg a -> call_of o = Some (k, i, tc) -> astep a o a' ->
    exists w', step E T w o w'.
  Proof.
    intros Hl Hs Hco Hst. assert (inv E T w) as Hi by by eapply reachable_inv, lreach_reachable.
    assert (exists c s s' u cnt cnt', aw_trans a !! k = Some (c, s) /\ aw_ctx a !! c = Some (u, cnt) /\
      call_types tc /\ fills_reserved s tc /\ hands_out tc i cnt cnt' /\ ts_call i s tc = Some s') as (c&s&s'&u&cnt&cnt'&Ha&Hc&Hty&Hf&Hout&Hs').
    { destruct Hst; try done. rewrite Hco in H. injection H as <- <- <-. eexists _, _, _, _, _, _. done. }
    destruct (sim_t' w lg a k c s Hl Hs Ha) as (t&u'&cnt0&Ht&Hlg&Htr&Hc'&Hh). rewrite (sim_ctx _ _ _ Hs), Hc' in Hc. injection Hc as -> ->.
    assert (fill_ok t tc) as Hft by by eapply fill_ok_reserved.
    assert (allocates tc = true -> cnt + 1 < usize_mod)%N as Hr. { unfold hands_out in Hout. intros Hal. rewrite Hal in Hout. apply Hout. }
    destruct (t_hist_call E u cnt t (lg k) tc Hh (ok_of_types _ _ Hty Hft) Hr) as (s0&Hs0&_&Hres). assert (s0 = s) as -> by congruence.
    destruct (tc_run E tc (cnt, t)) as [[cnt1 t'] i'|p [? ?]] eqn:Hrun; [|destruct Hres as [Hn _]; by rewrite Hn in Hs'].
    assert (i' = i) as ->.
    { destruct Hres as (s1&_&_&Hres). unfold hands_out in Hout. destruct (allocates tc) eqn:Hal.
      - destruct Hres as [-> _], Hout as (_&->&_). done.
      - assert (i = 0%N) as ->. { destruct o; cbn in Hco; try done; injection Hco as <- <- <-; done. }
        clear -Hrun Hal. destruct tc; cbn in Hrun; try done; repeat case_match; simplify_eq; done. }
    eexists. apply (step_call w o k i tc _ Hi Hco). exists c, t, u, cnt, t', cnt1. done.
  Qed.

  Lemma gmap_new u : gmap_of (graph_new (D:=D) E u) = ∅.
  Proof. apply map_eq. intros i. rewrite (gmap_of_get E) by apply wf_new. by rewrite lookup_empty. Qed.

  (** all calls except commits and deserialization *)
  Definition no_maintenance (o : op (D:=D)) : Prop :=
    match o with OCommit _ _ | OCommitChecked _ _ _ | OCommitPanic _ _ _ | OSwitch _ _ | ODeser _ _ => False | _ => True end.
  Global Instance no_maintenance_dec o : Decision (no_maintenance o).
  Proof. destruct o; cbn; apply _. Defined.
  Lemma fwd_other w lg a o w' : lreach E T w lg -> sim w lg a -> no_maintenance o -> step E T w o w' ->
    exists a', astep a o a' /\ sim w' (log_step w o lg) a'.
  Proof.
    intros Hl Hs Hp Hst. destruct (call_of o) as [[[k i] tc]|] eqn:Hco; [by eapply fwd_call|].
    assert (inv E T w) as Hi by by eapply reachable_inv, lreach_reachable.
    pose proof (sim_ctx _ _ _ Hs) as Hcx.
    destruct Hst; try done; cbn [log_step].
    - eexists. split; [constructor|]. rewrite Hcx. by refine (sim_ctx_to w lg a _ _).
    - eexists. split; [econstructor; by rewrite Hcx|]. apply sim_set_g; [done|apply gmap_new|constructor].
    - eexists. split; [econstructor; by rewrite Hcx|]. by apply sim_set_t.
    - destruct (sim_t w lg a k c t Hl Hs) as (s&u&cnt&Ha&Hlg&Htr&Hc&Hh); [done|].
      destruct (sim_g w lg a kg c g Hs) as (A&HA&Hm&_); [done|].
      match goal with H : w_graphs w !! kg = _ |- _ => rewrite H end.
      eexists. split; [by eapply as_merge|]. rewrite <- Hm.
      refine (sim_del_g _ _ (AW (aw_ctx a) (aw_graphs a) (<[k := (c, _)]> (aw_trans a))) _ _). apply sim_set_t; [done|]. by rewrite ts_run_app, Hlg.
    - eexists. split; [constructor|]. by apply sim_del_t.
    - eexists. split; [constructor|]. by apply sim_del_g.
  Qed.
  Lemma bwd_other w lg a o a' : lreach E T w lg -> sim w lg a -> no_maintenance o -> astep a o a' -> exists w', step E T w o w'.
  Proof.
    intros Hl Hs Hp Hst. destruct (call_of o) as [[[k i] tc]|] eqn:Hco; [by eapply bwd_call|].
    assert (inv E T w) as Hi by by eapply reachable_inv, lreach_reachable.
    pose proof (sim_ctx _ _ _ Hs) as Hcx. destruct Hst; try done.
    - eexists. constructor.
    - rewrite Hcx in *. eexists. by econstructor.
    - rewrite Hcx in *. eexists. by econstructor.
    - congruence.
    - destruct (sim_t' w lg a k c s Hl Hs) as (t&u&cnt&Ht&Hlg&Htr&Hc&Hh); [done|].
      destruct (sim_g' w lg a kg c A Hs) as (g&Hg&Hm&_); [done|].
      destruct (iv_graph _ _ _ Hi _ _ _ Hg) as (_&_&cnt1&Hc1). destruct (iv_trans _ _ _ Hi _ _ _ Ht) as (_&cnt2&Hc2).
      assert (exists t', trans_merge g t = Done t' tt) as [t' Ht'].
      { unfold trans_merge. assert (t_ctx t = g_ctx g) as -> by congruence. rewrite N.eqb_refl. eauto. }
      eexists. by eapply st_merge.
    - eexists. constructor.
    - eexists. constructor.
  Qed.

  Context (Hdb : e_dbg E = true) (Hopp : forall l, e_opp E l = []) (Hck : forall v l, e_chk E v l = false -> nonvec E l).

  Lemma plain_conflict (g : graph D) m' : no_conflict E g m'.
  Proof using Hopp. intros x y l ny _ _. unfold opposites_on. by rewrite Hopp. Qed.

  Lemma typed_iff (g : graph D) m m' : nodes_are g m -> added_typed E g m' <-> new_links_typed m m'.
  Proof.
    intros Hm. assert (forall x y l, in_graph g x y l <-> in_nodes m x y l) as Hin.
    { intros x y l. unfold in_graph, in_nodes. by setoid_rewrite Hm. }
    split.
    - intros H x y l ny H1 H2. apply (H x). split; [done|]. by rewrite Hin.
    - intros H x y l ny [H1 H2]. apply (H x); [done|]. by rewrite <- Hin.
  Qed.

  Lemma commit_iff (g : graph D) t s B : history E T g t s -> known E T g B ->
    (exists g', commit E t g = Done g' tt) <->
    ts_res s = ∅ /\ commit_listed (ts_txn s) (gmap_of g) B /\ forall m', sp_commit (ts_txn s) (gmap_of g) m' -> new_links_typed (gmap_of g) m'.
  Proof using Hdb Hopp Hck.
    intros Hh HB0. pose proof (known_listed E T g B HB0) as HB. pose proof (history_nodes E T g t s Hh) as Hm. rewrite (final_commit_iff E T g t s Hh (gmap_of g)); [|..|done].
    - split.
      + intros (H1&H2&H3). split; [by destruct H1 as [H1|]; [congruence|]|]. split; [eapply commit_listed_ext; [|done]; intros y; apply HB|].
        intros m' Hsp. apply (typed_iff g); [done|]. by apply H3.
      + intros (H1&H2&H3). split; [by right|]. split; [eapply commit_listed_ext; [|done]; intros y; apply HB|].
        intros m' Hsp. split; [apply plain_conflict|]. apply (typed_iff g (gmap_of g)); [done|by apply H3].
    - intros l k Hk. rewrite Hopp in Hk. by apply elem_of_nil in Hk.
    - done.
    - intros l v. unfold opposites_on. rewrite Hopp. cbn. lia.
  Qed.

  Lemma deser_as (s : gserial D) : (forall i n, (i, n) ∈ gs_nodes s -> node_ok E n /\ (0 < i < usize_mod)%N) ->
    ((exists cnt g, deserialize_graph E s = Ok (cnt, g)) <-> NoDup (gs_nodes s).*1) /\
    forall cnt g, deserialize_graph E s = Ok (cnt, g) ->
      cnt = fold_left N.max ((gs_nodes s).*1) 0%N /\ gmap_of g = list_to_map (gs_nodes s) /\ known E T g (known_in (gs_nodes s)).
  Proof using Hopp.
    intros Hok. assert (forall i n, (i, n) ∈ gs_nodes s -> node_ok E n /\ i <> 0%N) as Hok'.
    { intros i n Hin. destruct (Hok i n Hin). split; [done|lia]. }
    assert (forall l k, k ∈ e_opp E l -> nonvec E l) as Hnv by (intros l k Hk; rewrite Hopp in Hk; by apply elem_of_nil in Hk).
    split.
    - rewrite (final_deser_success E s); try done.
      + split; [by intros [? _]|]. intros Hnd. split; [done|]. intros x y l ny k _ _ Ho. unfold opposites_on in Ho. by rewrite Hopp in Ho.
      + intros l k Hk. rewrite Hopp in Hk. by apply elem_of_nil in Hk.
      + intros l v. unfold opposites_on. rewrite Hopp. cbn. lia.
    - intros cnt g Hd. split; [|split].
      + unfold deserialize_graph in Hd. destruct (do_deserialize E (gs_ctx s) (gs_nodes s)); [|done]. by injection Hd as <- _.
      + destruct (final_deser_links E s cnt g Hnv Hok' Hd) as (_&Hdom&Hag&_). destruct (deser_ok E s cnt g Hok' Hd) as (Hnd&a&g1&r&_&[_ Hwf _ _ _]).
        apply map_eq. intros i. rewrite (gmap_of_get E) by done.
        destruct (graph_get g i) as [n|] eqn:Hi.
        * assert (i ∈ (gs_nodes s).*1) as ([i' n1]&->&Hin)%elem_of_list_fmap by (apply Hdom; eauto). cbn in *.
          rewrite (elem_of_list_to_map_1 (gs_nodes s) i' n1) by done. destruct (Hag i' n1 Hin) as (n'&Hn'&Hv&Hdt&Hlk). rewrite Hi in Hn'. injection Hn' as <-.
          f_equal. destruct n as [v ls ds], n1 as [v1 ls1 ds1]. cbn in *. subst. f_equal. apply list_eq. intros f. apply Hlk.
          intros (l&Hk). rewrite Hopp in Hk. by apply elem_of_nil in Hk.
        * symmetry. apply not_elem_of_list_to_map_1. intros ([i' n1]&->&Hin)%elem_of_list_fmap. destruct (Hag i' n1 Hin) as (n'&Hn'&_). cbn in *. congruence.
      + by eapply kn_deser.
  Qed.

  Lemma checks_iff (g g' : graph D) m m' c : nodes_are g m -> nodes_are g' m' -> passes g g' m' c <-> checks_pass m m' c.
  Proof.
    intros Hm Hm'. assert (forall x y l, in_graph g x y l <-> in_nodes m x y l) as Hin.
    { intros x y l. unfold in_graph, in_nodes. by setoid_rewrite Hm. }
    unfold passes, checks_pass. setoid_rewrite Hin. by setoid_rewrite Hm'.
  Qed.

  (** a successful commit *)
  Lemma fwd_commit w lg a kg k c t g g' : lreach E T w lg -> sim w lg a -> w_trans w !! k = Some (c, t) -> w_graphs w !! kg = Some (c, g) ->
    commit E t g = Done g' tt ->
    exists s A m', aw_trans a !! k = Some (c, s) /\ aw_graphs a !! kg = Some (c, A) /\ history E T g t s /\ gmap_of g = ag_nodes A /\
      ts_res s = ∅ /\ commit_listed (ts_txn s) (ag_nodes A) (ag_known A) /\ sp_commit (ts_txn s) (ag_nodes A) m' /\ new_links_typed (ag_nodes A) m' /\
      nodes_are g' m' /\
      sim (set_g (del_t w k) kg (c, g')) lg
        (AW (aw_ctx a) (<[kg := (c, AG m' (l_commit (ts_txn s) (ag_known A)))]> (aw_graphs a)) (delete k (aw_trans a))).
  Proof using Hdb Hopp Hck.
    intros Hl Hs Ht Hg Hcm.
    destruct (history_in E T w lg kg k c g t Hl) as (s&Hh&Hlg); [done|done|].
    destruct (sim_t w lg a k c t Hl Hs) as (s1&u&cnt&Ha&Hlg'&_); [done|]. assert (s1 = s) as -> by congruence.
    destruct (sim_g w lg a kg c g Hs) as (A&HA&Hm&HB); [done|].
    destruct (commit_iff g t s (ag_known A) Hh HB) as [Hsucc _]. destruct Hsucc as (Hres&Hcl&Hty); [eauto|].
    destruct (final_exact E T g t s Hh g' Hopp) as (m&m'&Hgm&Hsp&Hgm'); [done|].
    assert (m = gmap_of g) as ->. { apply map_eq. intros j. by rewrite Hgm, (history_nodes E T g t s Hh). }
    rewrite Hm in *. exists s, A, m'. do 8 (split; [by auto|]). split; [done|].
    refine (sim_set_g _ _ (AW (aw_ctx a) (aw_graphs a) (delete k (aw_trans a))) _ _ _ _ _ _ _); [by apply sim_del_t| |].
    - cbn. apply map_eq. intros j. rewrite Hgm', (gmap_of_get E); [done|].
      assert (inv E T (set_g (del_t w k) kg (c, g'))) as Hi'. { eapply reachable_inv. econstructor; [by eapply lreach_reachable|]. by eapply st_commit. }
      destruct (iv_graph _ _ _ Hi' kg c g') as [Hwf _]; [cbn; by rewrite lookup_insert|done].
    - by eapply kn_commit.
  Qed.
  Lemma bwd_commit w lg a kg k c s A m' : lreach E T w lg -> sim w lg a -> aw_trans a !! k = Some (c, s) -> aw_graphs a !! kg = Some (c, A) ->
    ts_res s = ∅ -> commit_listed (ts_txn s) (ag_nodes A) (ag_known A) -> sp_commit (ts_txn s) (ag_nodes A) m' -> new_links_typed (ag_nodes A) m' ->
    exists t g g', w_trans w !! k = Some (c, t) /\ w_graphs w !! kg = Some (c, g) /\ history E T g t s /\ gmap_of g = ag_nodes A /\
      commit E t g = Done g' tt /\ nodes_are g' m'.
  Proof using Hdb Hopp Hck.
    intros Hl Hs Ht HA Hres Hcl Hsp Hty.
    destruct (sim_t' w lg a k c s Hl Hs) as (t&u&cnt&Ht'&Hlg&Htr&Hc&Hh); [done|].
    destruct (sim_g' w lg a kg c A Hs) as (g&Hg&Hm&HB); [done|].
    destruct (history_in E T w lg kg k c g t Hl) as (s1&Hh1&Hlg1); [done|done|]. assert (s1 = s) as -> by congruence.
    destruct (commit_iff g t s (ag_known A) Hh1 HB) as [_ Hsucc]. destruct Hsucc as (g'&Hg').
    { rewrite Hm. split; [done|]. split; [done|]. intros m1 Hm1. by assert (m1 = m') as -> by by eapply sp_commit_det. }
    exists t, g, g'. do 5 (split; [done|]). destruct (final_exact E T g t s Hh1 g' Hopp Hg') as (m&m1&Hgm&Hsp1&Hgm').
    assert (m = ag_nodes A) as ->. { rewrite <- Hm. apply map_eq. intros j. by rewrite Hgm, (history_nodes E T g t s Hh1). }
    by assert (m1 = m') as -> by by eapply sp_commit_det.
  Qed.

  Lemma checked_iff g t s g' m m' c : history E T g t s -> (forall l, nonvec E l) -> commit E t g = Done g' tt ->
    nodes_are g m -> sp_commit (ts_txn s) m m' -> nodes_are g' m' -> commit_checked E t c g = Done g' tt <-> checks_pass m m' c.
  Proof.
    intros Hh Hv Hc Hm Hsp Hm'. destruct (final_checked_exact E T g t s g' Hh Hv Hc) as (m1&m1'&Hm1&Hsp1&H).
    assert (m1 = m) as ->. { apply map_eq. intros j. by rewrite Hm, Hm1. }
    assert (m1' = m') as -> by by eapply sp_commit_det. rewrite (proj1 (H c)). by apply checks_iff.
  Qed.

  Lemma fwd w lg a o w' : lreach E T w lg -> sim w lg a -> machine_op o -> step E T w o w' ->
    exists a', astep a o a' /\ sim w' (log_step w o lg) a'.
  Proof using Hdb Hopp Hck.
    intros Hl Hs Hp Hst. destruct (decide (no_maintenance o)) as [Hn|Hn]; [by eapply fwd_other|].
    pose proof (sim_ctx _ _ _ Hs) as Hcx.
    destruct Hst; try done; try (by destruct Hn); cbn [log_step].
    - destruct (fwd_commit w lg a kg k c t g g') as (s&A&m'&Ha&HA&Hh&Hm&Hres&Hcl&Hsp&Hty&_&Hsim); [done..|].
      eexists. split; [by eapply as_commit|done].
    - assert (commit E t g = Done g' tt) as Hcm by by eapply commit_checked_commit.
      destruct (fwd_commit w lg a kg k c t g g') as (s&A&m'&Ha&HA&Hh&Hm&Hres&Hcl&Hsp&Hty&Hm'&Hsim); [done..|].
      eexists. split; [eapply as_commit_checked; try done|done].
      eapply checked_iff; try done. rewrite <- Hm. by eapply history_nodes.
    - destruct (deser_as s) as [Hnd Hd]; [done|]. destruct (Hd cnt g) as (->&Hm&HB); [done|]. eexists. split; [constructor; [done|]; apply Hnd; eauto|].
      rewrite Hcx. refine (sim_ctx_to (set_g w kg (length (w_ctx w), g)) lg (AW (aw_ctx a) (<[kg := (length (w_ctx w), _)]> (aw_graphs a)) (aw_trans a)) _ _).
      by apply sim_set_g.
  Qed.

  Lemma bwd w lg a o a' : lreach E T w lg -> sim w lg a -> astep a o a' -> exists w', step E T w o w'.
  Proof using Hdb Hopp Hck.
    intros Hl Hs Hst. destruct (decide (no_maintenance o)) as [Hn|Hn]; [by eapply bwd_other|].
    destruct Hst; try (by destruct Hn).
    - destruct o; try done; by destruct Hn.
    - destruct (bwd_commit w lg a kg k c s A m') as (t&g&g'&Ht&Hg&_&_&Hg'&_); [done..|]. eexists. by eapply st_commit.
    - destruct (bwd_commit w lg a kg k c s A m') as (t&g&g'&Ht&Hg&Hh&Hm&Hg'&Hm'); [done..|]. eexists. eapply st_commit_checked; [done|done|].
      eapply (checked_iff g t s g' (ag_nodes A) m'); try done. rewrite <- Hm. by eapply history_nodes.
    - destruct (deser_as s) as [[_ Hnd] _]; [done|]. destruct Hnd as (cnt&g&Hd); [done|]. eexists. by eapply st_deser.
  Qed.

  Lemma astep_plain a o a' : astep a o a' -> machine_op o.
  Proof. destruct 1; try done. by destruct o. Qed.
  Lemma astep_det a o a1 a2 : astep a o a1 -> astep a o a2 -> a1 = a2.
  Proof.
    intros H1 H2. destruct H1; inversion H2; subst; try done; simplify_eq; try done.
    - f_equal; f_equal; f_equal; unfold hands_out in *; destruct (allocates _); naive_solver.
    - assert (m'0 = m') as -> by by eapply sp_commit_det. done.
    - assert (m'0 = m') as -> by by eapply sp_commit_det. done.
  Qed.

  (** ** Whole programs *)
  Lemma runs_fwd os w : runs E T os w -> Forall machine_op os -> exists lg a, lreach E T w lg /\ aruns os a /\ sim w lg a.
  Proof using Hdb Hopp Hck.
    induction 1 as [|os w o w' Hr IH Hs]; intros Hp.
    - exists (fun _ => []), aw_new. split; [constructor|]. split; [constructor|]. split; [done|..]; intros k; cbn; rewrite !lookup_empty; constructor.
    - apply Forall_app in Hp as [Hp Ho]. inversion_clear Ho as [|? ? Ho1 _]. rename Ho1 into Ho. destruct (IH Hp) as (lg&a&Hl&Ha&Hsim).
      destruct (fwd w lg a o w' Hl Hsim Ho Hs) as (a'&Ha'&Hs'). exists (log_step w o lg), a'. split; [|split; [by econstructor|done]].
      econstructor; [done|done|]. destruct o; try done. intros c g _. by rewrite Hdb.
  Qed.
  Lemma runs_bwd os a : aruns os a -> exists w lg, runs E T os w /\ lreach E T w lg /\ sim w lg a.
  Proof using Hdb Hopp Hck.
    induction 1 as [|os a o a' Hr (w&lg&Hw&Hl&Hsim) Hs].
    - exists world_new, (fun _ => []). split; [constructor|]. split; [constructor|]. split; [done|..]; intros k; cbn; rewrite !lookup_empty; constructor.
    - destruct (bwd w lg a o a' Hl Hsim Hs) as (w'&Hw'). destruct (fwd w lg a o w' Hl Hsim) as (a1&Ha1&Hs1); [by eapply astep_plain|done|].
      assert (a1 = a') as -> by by eapply astep_det. exists w', (log_step w o lg). split; [by econstructor|]. split; [|done].
      econstructor; [done|done|]. destruct o; try done. intros c g _. by rewrite Hdb.
  Qed.
  Lemma aruns_plain os a : aruns os a -> Forall machine_op os.
  Proof. induction 1; [done|]. apply Forall_app. split; [done|]. constructor; [by eapply astep_plain|constructor]. Qed.
  Lemma aruns_det os a1 a2 : aruns os a1 -> aruns os a2 -> a1 = a2.
  Proof.
    intros H. revert a2. induction H as [|os a o a' Hr IH Hs]; intros a2 H2.
    - inversion H2 as [Ho|os' a0 o' a2' ? ? Ho]; [done|]. by destruct os'.
    - inversion H2 as [Ho|os' a0 o' a2' Hr' Hs' Ho]; subst; [by destruct os|]. apply app_inj_tail in Ho as [-> ->].
      rewrite (IH _ Hr') in Hs. by eapply astep_det.
  Qed.

  Lemma final_runs_iff os : (exists w, runs E T os w) /\ Forall machine_op os <-> exists a, aruns os a.
  Proof using Hdb Hopp Hck.
    split.
    - intros [[w Hw] Hp]. destruct (runs_fwd os w Hw Hp) as (lg&a&_&Ha&_). eauto.
    - intros [a Ha]. split; [|by eapply aruns_plain]. destruct (runs_bwd os a Ha) as (w&lg&Hw&_). eauto.
  Qed.
  Lemma final_same os w a : runs E T os w -> aruns os a ->
    w_ctx w = aw_ctx a /\
    (forall kg, option_Forall2 (fun cg ca => cg.1 = ca.1 /\ (forall i, graph_get cg.2 i = ag_nodes ca.2 !! i) /\ known E T cg.2 (ag_known ca.2))
       (w_graphs w !! kg) (aw_graphs a !! kg)) /\
    (forall k, option_Forall2 (fun ct cs => ct.1 = cs.1 /\ trans_is ct.2 cs.2) (w_trans w !! k) (aw_trans a !! k)).
  Proof using Hdb Hopp Hck.
    intros Hw Ha. destruct (runs_bwd os a Ha) as (w'&lg&Hw'&Hl&Hs). assert (w' = w) as -> by by eapply runs_det.
    destruct (lreach_inv E T w lg Hl) as [Hi _].
    split; [symmetry; apply Hs|]. split.
    - intros kg. pose proof (sim_graphs _ _ _ Hs kg) as H. destruct (w_graphs w !! kg) as [[c g]|] eqn:Hg.
      + inversion H as [? [c' A] (?&Hm&HB) Heq|]; subst. cbn in *. subst. constructor. cbn. split; [done|]. split; [|done].
        intros i. rewrite <- Hm, (gmap_of_get E); [done|]. by eapply (iv_graph _ _ _ Hi).
      + inversion H. constructor.
    - intros k. destruct (w_trans w !! k) as [[c t]|] eqn:Ht.
      + destruct (sim_t w lg a k c t Hl Hs Ht) as (s&u&cnt&->&_&Htr&_). constructor. split; [done|]. by eapply trep_is.
      + pose proof (sim_trans _ _ _ Hs k) as H. rewrite Ht in H. inversion H. constructor.
  Qed.
End machine.
