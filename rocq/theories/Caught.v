(** * Programs that catch panics of transaction calls

    [step] (World.v) has calls that return and caught panics of commits.  [cstep] adds the
    caught panics of the calls on a transaction. *)
From Verif Require Export GraphFinal CommitFinal.

Section caught.
  Context {D : Type} (E : env).
  Implicit Types (t : trans D) (g : graph D) (n : node D) (w : world (D:=D)) (s : tspec D).

  (** a mutate closure that panics leaves a node Rust's type checker accepts; [T]: of the
      same variant *)
  Definition mut_left_ok (T : Prop) (f : mut_fn D) : Prop :=
    forall n p n', node_ok E n -> f n = Panicked p n' -> node_ok E n' /\ (T -> nvar n' = nvar n).

  (** the transaction is what the panicking call left; a merge that panics has taken the
      graph by value, so the graph is gone *)
  Inductive cstep (T : Prop) (w : world) : world -> Prop :=
  | cs_step o w' : step E T w o w' -> cstep T w w'
  | cs_fill k i n c t p t' : w_trans w !! k = Some (c, t) -> node_ok E n ->
      trans_fill_back i n t = Panicked p t' -> cstep T w (set_t w k (c, t'))
  | cs_fill_untyped k i n c t p t' : w_trans w !! k = Some (c, t) -> node_ok E n -> i ∈ t_alloc t ->
      trans_fill_back_untyped i n t = Panicked p t' -> cstep T w (set_t w k (c, t'))
  | cs_mutate k i f c t p t' : w_trans w !! k = Some (c, t) -> mut_ok E T f -> mut_left_ok T f ->
      trans_mutate i f t = Panicked p t' -> cstep T w (set_t w k (c, t'))
  | cs_update k i f c t p t' : w_trans w !! k = Some (c, t) -> upd_ok E T f ->
      trans_update i f t = Panicked p t' -> cstep T w (set_t w k (c, t'))
  | cs_merge k kg c c' t g p t' : w_trans w !! k = Some (c, t) -> w_graphs w !! kg = Some (c', g) ->
      trans_merge g t = Panicked p t' -> cstep T w (del_g (set_t w k (c, t')) kg).
  Inductive creach (T : Prop) : world -> Prop :=
  | cr_new : creach T world_new
  | cr_step w w' : creach T w -> cstep T w w' -> creach T w'.

  (** ** What the calls leave *)
  Lemma fill_back_panic t i n p t' : trans_fill_back i n t = Panicked p t' ->
    (t' = t /\ (arena_dispatch (t_inc t) i = None /\ p = PFillMissing \/
                exists d, arena_dispatch (t_inc t) i = Some d /\ d <> nvar n /\ p = PFillType)) \/
    (exists n0, arena_get (t_inc t) i = Some n0 /\ arena_dispatch (t_inc t) i = Some (nvar n) /\
       p = PFillOccupied /\ t' = with_inc t (arena_set (t_inc t) i n)).
  Proof.
    unfold trans_fill_back, arena_fill_back, bindM, getM, unwrapM, arena_get, arena_set.
    destruct (arena_dispatch (t_inc t) i) as [d|] eqn:Hd; cbn.
    - destruct (decide (nvar n = d)) as [<-|Hne]; cbn.
      + unfold cont_insert. destruct (omap_get i _) as [n0|]; [|done]. intros [= <- <-]. right. by exists n0.
      + intros [= <- <-]. left. split; [by destruct t|]. right. by exists d.
    - intros [= <- <-]. left. split; [by destruct t|by left].
  Qed.
  Lemma fill_untyped_no_panic T t i n p t' : trans_wf E T t -> node_ok E n -> i ∈ t_alloc t ->
    trans_fill_back_untyped i n t <> Panicked p t'.
  Proof.
    intros Hwf Hn Hi Heq. unfold trans_fill_back_untyped in Heq.
    destruct (arena_fill_back_untyped_spec E (t_inc t) i n) as (a'&Ha&_); [by apply Hwf|done|by apply Hwf|].
    by rewrite Ha in Heq.
  Qed.
  Lemma mutate_panic t i f p t' : trans_mutate i f t = Panicked p t' ->
    exists n0 n', arena_get (t_inc t) i = Some n0 /\ f n0 = Panicked p n' /\ t' = with_inc t (arena_set (t_inc t) i n').
  Proof.
    unfold trans_mutate, arena_contains, arena_get. destruct (arena_dispatch (t_inc t) i) as [d|]; [|done].
    destruct (omap_get i _) as [n|]; [|done]. destruct (f n) as [n' []|q n'] eqn:Hf; [done|]. intros [= <- <-]. by exists n, n'.
  Qed.
  Lemma update_panic t i f p t' : trans_update i f t = Panicked p t' ->
    exists n0 d, arena_dispatch (t_inc t) i = Some d /\ arena_get (t_inc t) i = Some n0 /\ f n0 = Err p /\
      t' = with_inc t (set_cont (t_inc t) d (omap_del i (cont (t_inc t) d))).
  Proof.
    unfold trans_update, arena_contains, arena_get, arena_update_with, bindM, getM, unwrapM, putM, liftM.
    destruct (arena_dispatch (t_inc t) i) as [d|] eqn:Hd; [|done].
    destruct (omap_get i _) as [n|] eqn:Hn; [|done]. cbn. rewrite Hn. cbn.
    destruct (f n) as [n1|q] eqn:Hf; cbn; [done|]. intros [= <- <-]. by exists n, d.
  Qed.
  Lemma merge_panic t g p t' : trans_merge g t = Panicked p t' -> t' = t /\ t_ctx t <> g_ctx g /\ p = PCtxMismatch.
  Proof. unfold trans_merge. destruct (N.eqb_spec (t_ctx t) (g_ctx g)); [done|]. by intros [= <- <-]. Qed.

  (** the node of [i] is taken out, what the dispatcher says about [i] stays *)
  Lemma drop_ok (a : arena D) i d : arena_ok E a -> arena_dispatch a i = Some d ->
    arena_ok E (set_cont a d (omap_del i (cont a d))) /\
    forall j, arena_get (set_cont a d (omap_del i (cont a d))) j = if decide (j = i) then None else arena_get a j.
  Proof.
    intros Hok Hd. assert (NoDup (cont a d).*1) as Hnd by by apply (arena_ok_cont E). pose proof Hok as (Hdd&Hl&Hcc). split.
    - split; [done|]. split; [cbn; by rewrite insert_length|]. intros d' c' [[-> ->]|[Hne Hl']]%set_cont_lookup; [|by apply Hcc].
      split; [by apply omap_del_NoDup|]. intros j m Hin. apply omap_get_NoDup in Hin; [|by apply omap_del_NoDup].
      rewrite omap_get_del in Hin by done. case_decide; [done|]. apply omap_get_elem in Hin. by eapply (arena_cont_dispatch E a).
    - intros j. unfold arena_get. rewrite set_cont_dispatch. destruct (decide (d < length (a_cont a))) as [Hlt|Hge].
      + destruct (decide (j = i)) as [->|Hj].
        * rewrite Hd, cont_set_cont, decide_True by done. rewrite omap_get_del by done. by rewrite decide_True.
        * destruct (arena_dispatch a j) as [d'|]; [|done]. rewrite cont_set_cont by done.
          case_decide; [subst d'|done]. rewrite omap_get_del by done. by rewrite decide_False.
      + assert (cont a d = []) as Hcd by (unfold cont; rewrite lookup_ge_None_2; [done|lia]).
        assert (forall d', cont (set_cont a d (omap_del i (cont a d))) d' = cont a d') as Heq.
        { intros d'. unfold cont, set_cont. cbn. by rewrite list_insert_ge by lia. }
        case_decide as Hj; [subst j; by rewrite Hd, Heq, Hcd|]. destruct (arena_dispatch a j); [by rewrite Heq|done].
  Qed.

  (** ** The invariant of World.v holds of programs that catch panics *)
  Lemma set_tstep T t i n0 n' : trans_wf E T t -> arena_get (t_inc t) i = Some n0 -> node_ok E n' ->
    (T -> arena_dispatch (t_inc t) i = Some (nvar n')) ->
    tstep E T t (with_inc t (arena_set (t_inc t) i n')) (fun _ => False).
  Proof.
    intros [] Hg Hn' Hv. pose proof (arena_set_get (t_inc t) i n0 n') as Hget.
    split; [split; try done; cbn|split; [done|]].
    + by apply arena_set_ok.
    + intros x m. rewrite Hget by done. case_decide; [by intros [= <-]|apply tw_nodes].
    + intros HT x m d. rewrite Hget, arena_set_dispatch by done. case_decide; [|by apply tw_typed].
      subst. intros [= <-] Hd. rewrite (Hv HT) in Hd. congruence.
    + intros j Hj. rewrite Hget by done. case_decide; [|by apply tw_alloc]. subst. rewrite tw_alloc in Hg by done. done.
    + intros j [Hj|Hj]; left; [|by right]. left. cbn [t_inc with_inc] in Hj. by rewrite arena_set_dispatch in Hj.
  Qed.
  Lemma tstep_refl T t : trans_wf E T t -> tstep E T t t (fun _ => False).
  Proof. intros Hwf. split; [done|]. split; [done|]. by left. Qed.
  Lemma cstep_inv T w w' : inv E T w -> cstep T w w' -> inv E T w'.
  Proof.
    assert (forall w k c t t', inv E T w -> w_trans w !! k = Some (c, t) -> tstep E T t t' (fun _ => False) ->
      inv E T (set_t w k (c, t'))) as Hset.
    { intros w0 k c t t' Hi Hk Hs. eapply inv_step; [done|]. by eapply inv_set_t. }
    intros Hinv Hs. destruct Hs as [o w' Hs|k i n c t p t' Hk Hn Hp|k i n c t p t' Hk Hn Hi Hp|k i f c t p t' Hk Hf Hl Hp|
      k i f c t p t' Hk Hf Hp|k kg c c' t g p t' Hk Hg Hp]; [by eapply step_inv|..];
      destruct (iv_trans _ _ _ Hinv k c t Hk) as (Hwf&_).
    - eapply Hset; [done..|]. apply fill_back_panic in Hp as [(->&_)|(n0&Hg&Hd&_&->)]; [by apply tstep_refl|]. by eapply set_tstep.
    - by apply (fill_untyped_no_panic T) in Hp.
    - eapply Hset; [done..|]. apply mutate_panic in Hp as (n0&n'&Hg&Hfn&->).
      destruct (Hl n0 p n' (tw_nodes _ _ _ Hwf _ _ Hg) Hfn) as [Hn' Hv]. eapply set_tstep; try done. intros HT. rewrite (Hv HT).
      destruct (arena_get_dispatch _ _ _ Hg) as [d Hd]. rewrite Hd. f_equal. symmetry. by eapply (tw_typed _ _ _ Hwf HT).
    - eapply Hset; [done..|]. apply update_panic in Hp as (n0&d&Hd&Hg&Hfn&->). destruct Hwf.
      destruct (drop_ok (t_inc t) i d tw_inc Hd) as [Hok Hget].
      split; [split; try done; cbn|split; [done|]].
      + intros x m. rewrite Hget. case_decide; [done|apply tw_nodes].
      + intros HT x m d'. rewrite Hget, set_cont_dispatch. case_decide; [done|by apply tw_typed].
      + intros j Hj. rewrite Hget. case_decide; [done|by apply tw_alloc].
      + intros j [Hj|Hj]; left; [by left|by right].
    - apply merge_panic in Hp as (->&_). eapply step_inv; [|by apply (st_drop_graph E T _ kg)].
      eapply Hset; [done..|]. by apply tstep_refl.
  Qed.
  Lemma creach_inv T w : creach T w -> inv E T w.
  Proof. induction 1 as [|w w' _ IH Hs]; [apply reachable_inv; constructor|by eapply cstep_inv]. Qed.

  (** a graph, a graph and a transaction of one context, in a program that catches panics *)
  Definition cgraph_of T g : Prop := exists w kg c, creach T w /\ w_graphs w !! kg = Some (c, g).
  Definition ctrans_of T t : Prop := exists w k c, creach T w /\ w_trans w !! k = Some (c, t).
  Definition cpair_of T g t : Prop :=
    exists w kg k c, creach T w /\ w_graphs w !! kg = Some (c, g) /\ w_trans w !! k = Some (c, t).

  (** [s] is what transaction [t] holds: pending reservations, own nodes, queues *)
  Definition holds_spec t s : Prop :=
    (forall i, i ∈ t_alloc t <-> is_Some (ts_res s !! i)) /\
    (forall i, ts_new s !! i = arena_get (t_inc t) i) /\ t_dec t = ts_del s /\ t_mut t = ts_mut s /\ t_upd t = ts_upd s /\
    t_redir_all t = ts_redir_all s /\ t_redir t = ts_redir s.
  Definition ts_own s (m : gmap N (node D)) : tspec D :=
    TS (ts_res s) m (ts_del s) (ts_mut s) (ts_upd s) (ts_redir_all s) (ts_redir s).

  Lemma holds_set t s i n0 n : holds_spec t s -> arena_get (t_inc t) i = Some n0 ->
    holds_spec (with_inc t (arena_set (t_inc t) i n)) (ts_own s (<[i := n]> (ts_new s))).
  Proof.
    intros (H1&H2&H3) Hg. split; [done|]. split; [|done]. intros j. cbn. rewrite (arena_set_get _ _ n0) by done.
    case_decide; [subst; by rewrite lookup_insert|by rewrite lookup_insert_ne].
  Qed.
  Lemma holds_drop t s i d : arena_ok E (t_inc t) -> holds_spec t s -> arena_dispatch (t_inc t) i = Some d ->
    holds_spec (with_inc t (set_cont (t_inc t) d (omap_del i (cont (t_inc t) d)))) (ts_own s (delete i (ts_new s))).
  Proof.
    intros Hok (H1&H2&H3) Hd. split; [done|]. split; [|done]. intros j. cbn. destruct (drop_ok _ _ _ Hok Hd) as [_ ->].
    case_decide; [subst; by rewrite lookup_delete|by rewrite lookup_delete_ne].
  Qed.
  Lemma holds_txn t s : arena_ok E (t_inc t) -> holds_spec t s -> trans_txn t = ts_txn s.
  Proof.
    intros Hok (_&H2&H3&H4&H5&H6&H7). unfold trans_txn, ts_txn. f_equal; try done. apply map_eq. intros i. by rewrite (amap_get E), H2.
  Qed.
  Lemma cpair_refines T g t s g' : cpair_of T g t -> holds_spec t s -> commit E t g = Done g' tt ->
    exists m m', nodes_are g m /\ sp_commit (ts_txn s) m m' /\ holds_nonbidi E g' m'.
  Proof.
    intros (w&kg&k&c&Hr&Hg&Ht) Hs Hc. destruct (inv_trans_ok E T w kg k c g t (creach_inv T w Hr) Hg Ht) as (Hwf&Hty&Hok&_).
    destruct (commit_refines E T g t Hwf Hty Hok g' Hc) as (m'&Hsp&Hh). exists (gmap_of g), m'.
    split; [intros i; by apply (gmap_of_get E)|]. split; [|done]. rewrite <- (holds_txn t s); [done|apply Hok|done].
  Qed.
End caught.
