(** * The order of the calls on a transaction

    A call on a transaction either acts on the nodes and reservations the transaction holds,
    or it is kept for the commit.  Used by PropsCalls.v (C78). *)
From stdpp Require Export gmap.
From Verif Require Export TransFinal CommitFinal.

Section calls.
  Context {D : Type} (E : env).
  Implicit Types (t : trans D).

  (** the calls on a transaction, with merge *)
  Inductive acall := ACall (c : tcall D) | AMerge (g : graph D).
  (** one call; the result is the list of the indices it hands out *)
  Definition ac_run (a : acall) : M (idx * trans D) (list idx) := fun '(cnt, t) =>
    match a with
    | ACall c => match tc_run E c (cnt, t) with
      | Done s i => Done s (if allocates c then [i] else [])
      | Panicked p s => Panicked p s end
    | AMerge g => match trans_merge g t with
      | Done t' _ => Done (cnt, t') []
      | Panicked p t' => Panicked p (cnt, t') end
    end.
  (** a sequence of calls that all return *)
  Inductive ac_runs : list acall -> idx * trans D -> idx * trans D -> list idx -> Prop :=
  | ar_nil s : ac_runs [] s s []
  | ar_cons a L s s' s'' is js : ac_run a s = Done s' is -> ac_runs L s' s'' js -> ac_runs (a :: L) s s'' (is ++ js).

  (** the transaction keeps the call for the commit: a redirection, a mutate or update of a
      node it does not hold, a removal of an index it neither holds nor has reserved *)
  Definition keeps t (a : acall) : Prop :=
    match a with
    | ACall (CRedirect _ _) | ACall (CRedirectAll _ _) => True
    | ACall (CMutate i _) | ACall (CUpdate i _) => arena_contains (t_inc t) i = false
    | ACall (CRemove i) => ~ towned t i
    | _ => False
    end.
  (** the transaction carries the call out at once *)
  Definition acts t (a : acall) : Prop :=
    match a with
    | ACall (CRedirect _ _) | ACall (CRedirectAll _ _) => False
    | ACall (CMutate i _) | ACall (CUpdate i _) => arena_contains (t_inc t) i = true
    | ACall (CRemove i) => is_Some (arena_get (t_inc t) i) \/ i ∈ t_alloc t
    | _ => True
    end.
  (** the kind of a call that is kept *)
  Definition call_kind (a : acall) : nat :=
    match a with
    | ACall (CRedirect _ _) => 1 | ACall (CMutate _ _) => 2 | ACall (CUpdate _ _) => 3
    | ACall (CRedirectAll _ _) => 4 | ACall (CRemove _) => 5 | _ => 0
    end.
  (** the same calls of every kind, in the same order *)
  Definition same_kinds (Q Q' : list acall) : Prop :=
    forall k, filter (fun a => call_kind a = k) Q = filter (fun a => call_kind a = k) Q'.

  (** the calls [L] return; [O] are those carried out at once and [Q] those kept *)
  Inductive splits : list acall -> idx * trans D -> list acall -> list acall -> idx * trans D -> list idx -> Prop :=
  | sp_nil s : splits [] s [] [] s []
  | sp_now a L s s' s'' is js O Q : ac_run a s = Done s' is -> acts s.2 a -> splits L s' O Q s'' js ->
      splits (a :: L) s (a :: O) Q s'' (is ++ js)
  | sp_keep a L s s' s'' is js O Q : ac_run a s = Done s' is -> keeps s.2 a -> splits L s' O Q s'' js ->
      splits (a :: L) s O (a :: Q) s'' (is ++ js).

  (** ** Proofs *)
  Record queues := Queues {
    q_dec : list idx; q_mut : list (idx * mut_fn D); q_upd : list (idx * upd_fn D);
    q_ra : list (idx * idx); q_r : list (idx * idx) }.
  Definition t_queues t : queues := Queues (t_dec t) (t_mut t) (t_upd t) (t_redir_all t) (t_redir t).
  Definition graft t (q : queues) : trans D :=
    Trans (t_ctx t) (t_alloc t) (t_inc t) (q_dec q) (q_mut q) (q_upd q) (q_ra q) (q_r q).
  Definition push (q : queues) (a : acall) : queues :=
    match a with
    | ACall (CRedirect o z) => Queues (q_dec q) (q_mut q) (q_upd q) (q_ra q) (q_r q ++ [(o, z)])
    | ACall (CRedirectAll o z) => Queues (q_dec q) (q_mut q) (q_upd q) (q_ra q ++ [(o, z)]) (q_r q)
    | ACall (CMutate i f) => Queues (q_dec q) (q_mut q ++ [(i, f)]) (q_upd q) (q_ra q) (q_r q)
    | ACall (CUpdate i f) => Queues (q_dec q) (q_mut q) (q_upd q ++ [(i, f)]) (q_ra q) (q_r q)
    | ACall (CRemove i) => Queues (oset_insert i (q_dec q)) (q_mut q) (q_upd q) (q_ra q) (q_r q)
    | _ => q
    end.

  Lemma graft_self t : graft t (t_queues t) = t.
  Proof. by destruct t. Qed.
  Lemma graft_graft t q q' : graft (graft t q) q' = graft t q'.
  Proof. done. Qed.
  Lemma t_queues_graft t q : t_queues (graft t q) = q.
  Proof. by destruct q. Qed.
  Lemma keeps_graft t q a : keeps (graft t q) a <-> keeps t a.
  Proof. done. Qed.
  Lemma run_keeps cnt t a : keeps t a -> ac_run a (cnt, t) = Done (cnt, graft t (push (t_queues t) a)) [].
  Proof.
    destruct a as [[n|v| |i n|i n|i|i f|i f|o z|o z]|g]; cbn; try done.
    - intros Hi. unfold trans_remove, arena_remove. destruct (arena_dispatch (t_inc t) i) eqn:Hd; [exfalso; apply Hi; left; by eexists|].
      rewrite decide_False by (intros ?; apply Hi; by right). done.
    - intros Hi. unfold trans_mutate. rewrite Hi. done.
    - intros Hi. unfold trans_update. rewrite Hi. done.
  Qed.
  Lemma run_now cnt t a cnt' t' is q : acts t a -> ac_run a (cnt, t) = Done (cnt', t') is ->
    t_queues t' = t_queues t /\ ac_run a (cnt, graft t q) = Done (cnt', graft t' q) is.
  Proof.
    destruct a as [[n|v| |i n|i n|i|i f|i f|o z|o z]|g]; cbn [ac_run tc_run acts allocates]; intros Hq H.
    - unfold trans_insert in *. cbn [graft t_inc t_alloc t_ctx] in *. destruct (arena_insert E n (cnt, t_inc t)) as [[c1 a1] j|p [c1 a1]]; [|done].
      injection H as <- <- <-. done.
    - unfold trans_alloc in *. cbn [graft t_inc t_alloc t_ctx] in *. destruct (arena_alloc E v (cnt, t_inc t)) as [[c1 a1] j|p [c1 a1]]; [|done].
      injection H as <- <- <-. done.
    - unfold trans_alloc_untyped in *. cbn [graft t_inc t_alloc t_ctx] in *. destruct (arena_alloc_untyped E (cnt, t_inc t)) as [[c1 a1] j|p [c1 a1]]; [|done].
      injection H as <- <- <-. done.
    - unfold trans_fill_back in *. cbn [graft t_inc t_alloc t_ctx] in *. destruct (arena_fill_back i n (t_inc t)) as [a1 j|p a1]; [|done].
      injection H as <- <- <-. done.
    - unfold trans_fill_back_untyped in *. cbn [graft t_inc t_alloc t_ctx] in *. destruct (arena_fill_back_untyped i n (t_inc t)) as [a1 j|p a1]; [|done].
      injection H as <- <- <-. done.
    - injection H as <- <- <-. unfold trans_remove. cbn [graft t_inc t_alloc]. destruct (arena_remove (t_inc t) i) as [a1 [n|]] eqn:Hr; [done|].
      destruct (decide (i ∈ t_alloc t)) as [|Hna]; [done|]. exfalso. destruct Hq as [[n Hg]|?]; [|done].
      unfold arena_remove, arena_get in *. destruct (arena_dispatch (t_inc t) i) as [d|]; [|done].
      injection Hr as _ Hr. congruence.
    - unfold trans_mutate in *. cbn [graft t_inc t_alloc t_ctx] in *. rewrite Hq in *.
      destruct (arena_get (t_inc t) i) as [n|]; [|done]. destruct (f n) as [n' u|p n']; [|done]. injection H as <- <- <-. done.
    - unfold trans_update in *. cbn [graft t_inc t_alloc t_ctx] in *. rewrite Hq in *.
      destruct (arena_update_with i f (t_inc t)) as [a1 u|p a1]; [|done]. injection H as <- <- <-. done.
    - done.
    - done.
    - unfold trans_merge in *. cbn [graft t_inc t_alloc t_ctx] in *. destruct (t_ctx t =? g_ctx g)%N; [|done]. injection H as <- <- <-. done.
  Qed.
  Lemma runs_app L1 L2 s s' s'' is js : ac_runs L1 s s' is -> ac_runs L2 s' s'' js -> ac_runs (L1 ++ L2) s s'' (is ++ js).
  Proof.
    induction 1 as [s|a L s1 s2 s3 is1 js1 Ha HL IH]; intros H2; [done|].
    cbn. rewrite <- app_assoc. econstructor; [done|]. by apply IH.
  Qed.

  Lemma splits_runs L s O Q s' is : splits L s O Q s' is ->
    ac_runs L s s' is /\ ac_runs O s (s'.1, graft s'.2 (t_queues s.2)) is /\
    t_queues s'.2 = fold_left push Q (t_queues s.2).
  Proof.
    assert (forall L s O Q s' is, splits L s O Q s' is ->
      ac_runs L s s' is /\ (forall q, ac_runs O (s.1, graft s.2 q) (s'.1, graft s'.2 q) is) /\
      t_queues s'.2 = fold_left push Q (t_queues s.2)) as Haux.
    { clear. induction 1 as [s|a L [c t] [c' t'] s'' is js O Q Ha Hq Hs (IH1&IH2&IH3)|a L [c t] [c' t'] s'' is js O Q Ha Hq Hs (IH1&IH2&IH3)].
      - split; [constructor|]. split; [constructor|done].
      - cbn [fst snd] in *. split; [by econstructor|]. destruct (run_now c t a c' t' is (t_queues t) Hq Ha) as [H1 _]. split.
        + intros q. destruct (run_now c t a c' t' is q Hq Ha) as [_ H2]. by econstructor.
        + by rewrite IH3, H1.
      - cbn [fst snd] in *. split; [by econstructor|]. pose proof (run_keeps c t a Hq) as H1. rewrite Ha in H1.
        injection H1 as -> -> ->. split.
        + intros q. specialize (IH2 q). cbn [app]. by rewrite graft_graft in IH2.
        + rewrite IH3, t_queues_graft. done. }
    intros H. destruct (Haux _ _ _ _ _ _ H) as (H1&H2&H3). split; [done|]. split; [|done].
    specialize (H2 (t_queues s.2)). destruct s as [c t]. cbn [fst snd] in *. by rewrite graft_self in H2.
  Qed.
  Lemma runs_keeps Q c t q : (forall a, a ∈ Q -> keeps t a) ->
    ac_runs Q (c, graft t q) (c, graft t (fold_left push Q q)) [].
  Proof.
    revert q. induction Q as [|a Q IH]; intros q HQ; [constructor|]. cbn [fold_left].
    change (@nil idx) with (@nil idx ++ @nil idx). econstructor.
    - rewrite run_keeps by (apply keeps_graft, HQ; left). rewrite t_queues_graft, graft_graft. done.
    - apply IH. intros b Hb. apply HQ. by right.
  Qed.

  Lemma fold_kind {B} (p : queues -> B) (k : nat) Q :
    (forall q q' a, p q = p q' -> p (push q a) = p (push q' a)) ->
    (forall q a, call_kind a <> k -> p (push q a) = p q) ->
    forall q q', p q = p q' -> p (fold_left push Q q) = p (fold_left push (filter (fun a => call_kind a = k) Q) q').
  Proof.
    intros Hc Hn. induction Q as [|a Q IH]; intros q q' Hq; [done|]. cbn [fold_left]. rewrite filter_cons. case_decide as Hk.
    - cbn [fold_left]. apply IH. by apply Hc.
    - apply IH. by rewrite Hn.
  Qed.
  Lemma fold_same_kinds Q Q' q : same_kinds Q Q' -> fold_left push Q q = fold_left push Q' q.
  Proof.
    intros Hs.
    assert (forall {B} (p : queues -> B) (k : nat), (forall q q' a, p q = p q' -> p (push q a) = p (push q' a)) ->
      (forall q a, call_kind a <> k -> p (push q a) = p q) -> p (fold_left push Q q) = p (fold_left push Q' q)) as Hp.
    { intros B p k H1 H2. rewrite (fold_kind p k Q H1 H2 q q eq_refl), (fold_kind p k Q' H1 H2 q q eq_refl). by rewrite Hs. }
    assert (q_dec (fold_left push Q q) = q_dec (fold_left push Q' q)) as H5.
    { apply (Hp _ q_dec 5); [intros ? ? [[]|]; cbn; by intros ->|intros ? [[]|]; cbn; done]. }
    assert (q_mut (fold_left push Q q) = q_mut (fold_left push Q' q)) as H2.
    { apply (Hp _ q_mut 2); [intros ? ? [[]|]; cbn; by intros ->|intros ? [[]|]; cbn; done]. }
    assert (q_upd (fold_left push Q q) = q_upd (fold_left push Q' q)) as H3.
    { apply (Hp _ q_upd 3); [intros ? ? [[]|]; cbn; by intros ->|intros ? [[]|]; cbn; done]. }
    assert (q_ra (fold_left push Q q) = q_ra (fold_left push Q' q)) as H4.
    { apply (Hp _ q_ra 4); [intros ? ? [[]|]; cbn; by intros ->|intros ? [[]|]; cbn; done]. }
    assert (q_r (fold_left push Q q) = q_r (fold_left push Q' q)) as H1.
    { apply (Hp _ q_r 1); [intros ? ? [[]|]; cbn; by intros ->|intros ? [[]|]; cbn; done]. }
    destruct (fold_left push Q q), (fold_left push Q' q). cbn in *. congruence.
  Qed.

  Lemma calls_reorder L s O Q s' is Q' : splits L s O Q s' is -> (forall a, a ∈ Q -> keeps s'.2 a) ->
    same_kinds Q Q' -> ac_runs (O ++ Q') s s' is.
  Proof.
    intros Hs HQ Hk. destruct (splits_runs _ _ _ _ _ _ Hs) as (_&HO&Hq). rewrite <- (app_nil_r is).
    eapply runs_app; [done|]. destruct s' as [c' t']. cbn [fst snd] in *.
    rewrite <- (graft_self t') at 2. rewrite Hq, (fold_same_kinds Q Q') by done.
    apply runs_keeps. intros a Ha. apply HQ. specialize (Hk (call_kind a)).
    assert (a ∈ filter (fun a0 => call_kind a0 = call_kind a) Q') as Hf by by apply elem_of_list_filter.
    rewrite <- Hk in Hf. by apply elem_of_list_filter in Hf as [_ ?].
  Qed.
  Lemma runs_det L s s1 s2 is js : ac_runs L s s1 is -> ac_runs L s s2 js -> s1 = s2 /\ is = js.
  Proof.
    intros H. revert s2 js. induction H as [s|a L s s1 s2 is js Ha HL IH]; intros s3 ks H3; inversion H3; subst; [done|].
    assert (s' = s1 /\ is0 = is) as [-> ->] by (split; congruence). destruct (IH _ _ H6) as [-> ->]. done.
  Qed.
  Lemma splits_unique L1 L2 s O Q1 Q2 s1 s2 is js : splits L1 s O Q1 s1 is -> splits L2 s O Q2 s2 js ->
    same_kinds Q1 Q2 -> s1 = s2 /\ is = js.
  Proof.
    intros H1 H2 Hk. destruct (splits_runs _ _ _ _ _ _ H1) as (_&HO1&Hq1).
    destruct (splits_runs _ _ _ _ _ _ H2) as (_&HO2&Hq2). destruct (runs_det _ _ _ _ _ _ HO1 HO2) as [He ->]. split; [|done].
    destruct s1 as [c1 t1], s2 as [c2 t2]. cbn [fst snd] in *. injection He as -> Ha Hb Hc.
    f_equal. rewrite <- (graft_self t1), <- (graft_self t2), Hq1, Hq2, (fold_same_kinds Q1 Q2) by done.
    unfold graft. by rewrite Ha, Hb, Hc.
  Qed.

  Lemma acts_or_keeps t s a : trep E t s -> (acts t a /\ ~ keeps t a) \/ (keeps t a /\ ~ acts t a).
  Proof.
    intros Hr. destruct a as [[n|v| |i n|i n|i|i f|i f|o z|o z]|g]; cbn [acts keeps]; try tauto.
    - unfold towned. destruct (decide (i ∈ t_alloc t)); [tauto|].
      pose proof (tr_stale _ _ _ Hr i) as Hst.
      destruct (arena_get (t_inc t) i) eqn:Hg.
      + left. split; [left; eauto|]. intros Hn. apply Hn. left. unfold arena_get in Hg. destruct (arena_dispatch (t_inc t) i); [eauto|done].
      + right. split; [|intros [[? ?]|?]; done]. intros [Hd|?]; [|done]. by apply n, Hst.
    - destruct (arena_contains _ _); [left|right]; done.
    - destruct (arena_contains _ _); [left|right]; done.
  Qed.

  (** [splits] computed, for the examples *)
  Definition actsb t (a : acall) : bool :=
    match a with
    | ACall (CRedirect _ _) | ACall (CRedirectAll _ _) => false
    | ACall (CMutate i _) | ACall (CUpdate i _) => arena_contains (t_inc t) i
    | ACall (CRemove i) => match arena_get (t_inc t) i with Some _ => true | None => bool_decide (i ∈ t_alloc t) end
    | _ => true
    end.
  Definition keepsb t (a : acall) : bool :=
    match a with
    | ACall (CRedirect _ _) | ACall (CRedirectAll _ _) => true
    | ACall (CMutate i _) | ACall (CUpdate i _) => negb (arena_contains (t_inc t) i)
    | ACall (CRemove i) => match arena_dispatch (t_inc t) i with Some _ => false | None => negb (bool_decide (i ∈ t_alloc t)) end
    | _ => false
    end.
  Lemma actsb_sound t a : actsb t a = true -> acts t a.
  Proof.
    destruct a as [[n|v| |i n|i n|i|i f|i f|o z|o z]|g]; cbn [acts actsb]; try done.
    destruct (arena_get (t_inc t) i); [eauto|]. intros H%bool_decide_eq_true. by right.
  Qed.
  Lemma keepsb_sound t a : keepsb t a = true -> keeps t a.
  Proof.
    destruct a as [[n|v| |i n|i n|i|i f|i f|o z|o z]|g]; cbn [keeps keepsb]; try done.
    - unfold towned. destruct (arena_dispatch (t_inc t) i); [done|]. intros H%negb_true_iff%bool_decide_eq_false.
      intros [[? ?]|?]; done.
    - by intros H%negb_true_iff.
    - by intros H%negb_true_iff.
  Qed.
  Fixpoint sort_calls (L : list acall) (s : idx * trans D) : option (list acall * list acall * (idx * trans D) * list idx) :=
    match L with
    | [] => Some ([], [], s, [])
    | a :: L' => match ac_run a s with
      | Panicked _ _ => None
      | Done s' is => match sort_calls L' s' with
        | None => None
        | Some (O1, Q1, s'', js) =>
          if actsb s.2 a then Some (a :: O1, Q1, s'', is ++ js)
          else if keepsb s.2 a then Some (O1, a :: Q1, s'', is ++ js) else None
        end
      end
    end.
  Lemma sort_splits L s O Q s' is : sort_calls L s = Some (O, Q, s', is) -> splits L s O Q s' is.
  Proof.
    revert s O Q s' is. induction L as [|a L IH]; intros s O Q s' is; cbn [sort_calls].
    - intros [= <- <- <- <-]. constructor.
    - destruct (ac_run a s) as [s1 is1|] eqn:Ha; [|done]. destruct (sort_calls L s1) as [[[[O1 Q1] s2] js]|] eqn:HL; [|done].
      destruct (actsb s.2 a) eqn:Hact.
      + intros [= <- <- <- <-]. eapply sp_now; [done|by apply actsb_sound|by apply IH].
      + destruct (keepsb s.2 a) eqn:Hqu; [|done]. intros [= <- <- <- <-].
        eapply sp_keep; [done|by apply keepsb_sound|by apply IH].
  Qed.  Lemma sort_runs L s s1 O Q s' is : sort_calls L s = Some (O, Q, s', is) -> s' = s1 -> ac_runs L s s1 is.
  Proof. intros H <-. apply (splits_runs _ _ _ _ _ _ (sort_splits _ _ _ _ _ _ H)). Qed.
End calls.
Arguments acall D : clear implicits.
