(** * Histories of a whole program, with a log of the calls on every transaction

    [lreach] is [reachable] together with, for every transaction, the list of the calls
    made on it.  In a debug build every history has one ([reachable_logged]).  In a release
    build there is one restriction: a graph that [merge] moves into a transaction holds no
    reservation left over by a commit of a transaction with unfilled reservations (which a
    debug build does not allow).  [C38_leftover_refuted] shows what happens otherwise. *)
From Verif Require Export TransHist CommitMore.

Section hist.
  Context {D : Type} (E : env).
  Implicit Types (T : Prop) (w : world (D:=D)) (g : graph D) (t : trans D) (lg : nat -> list (tevent D)).

  Definition clean_merge w (o : op (D:=D)) : Prop :=
    match o with
    | OMerge _ kg => forall c g, w_graphs w !! kg = Some (c, g) -> e_dbg E = false -> tight g
    | _ => True
    end.
  Definition lput lg k (L : list (tevent D)) : nat -> list (tevent D) := fun k' => if decide (k' = k) then L else lg k'.
  Definition lcall lg k (i : idx) (c : tcall D) := lput lg k (lg k ++ [EvCall i c]).
  Definition log_step w (o : op (D:=D)) lg : nat -> list (tevent D) :=
    match o with
    | ONewTrans k _ => lput lg k []
    | OInsert k n i => lcall lg k i (CInsert n)
    | OAlloc k d i => lcall lg k i (CAlloc d)
    | OAllocUntyped k i => lcall lg k i CAllocUntyped
    | OFill k i n => lcall lg k 0%N (CFill i n)
    | OFillUntyped k i n => lcall lg k 0%N (CFillUntyped i n)
    | ORemove k i => lcall lg k 0%N (CRemove i)
    | OMutate k i f => lcall lg k 0%N (CMutate i f)
    | OUpdate k i f => lcall lg k 0%N (CUpdate i f)
    | ORedirect k o z => lcall lg k 0%N (CRedirect o z)
    | ORedirectAll k o z => lcall lg k 0%N (CRedirectAll o z)
    | OMerge k kg =>
      match w_graphs w !! kg with
      | Some (_, g) => lput lg k (lg k ++ [EvMerge (gmap_of g)])
      | None => lg
      end
    | _ => lg
    end.

  Inductive lreach T : world (D:=D) -> (nat -> list (tevent D)) -> Prop :=
  | lr_new : lreach T world_new (fun _ => [])
  | lr_step w lg o w' : lreach T w lg -> step E T w o w' -> clean_merge w o -> lreach T w' (log_step w o lg).

  Lemma lreach_reachable T w lg : lreach T w lg -> reachable E T w.
  Proof. induction 1; [constructor|by econstructor]. Qed.

  Lemma commit_filled t g g' : e_dbg E = true -> commit E t g = Done g' tt -> t_alloc t = [].
  Proof.
    intros Hd Hc. destruct (t_alloc t) eqn:Ha; [done|].
    destruct (commit_guard E g t Hd) as (p&Hp&_); [right; by rewrite Ha|]. congruence.
  Qed.
  Lemma reachable_logged T w : e_dbg E = true -> reachable E T w -> exists lg, lreach T w lg.
  Proof.
    intros Hd. induction 1 as [|w o w' _ [lg IH] Hs]; [eexists; constructor|].
    exists (log_step w o lg). econstructor; [done|done|]. destruct o; try done. intros c g _. by rewrite Hd.
  Qed.

  Definition hinv w lg : Prop :=
    (forall k c g, w_graphs w !! k = Some (c, g) -> e_dbg E = true -> tight g) /\
    (forall k c t, w_trans w !! k = Some (c, t) ->
       exists u cnt, w_ctx w !! c = Some (u, cnt) /\ t_hist E u cnt t (lg k)).

  Lemma hinv_ctx w lg l : hinv w lg -> ctx_le (w_ctx w) l -> hinv (World l (w_graphs w) (w_trans w)) lg.
  Proof.
    intros [Hg Ht] Hle. split; [done|]. cbn. intros k c t Hk. destruct (Ht k c t Hk) as (u&cnt&Hc&Hh).
    destruct (Hle _ _ _ Hc) as (cnt'&Hc'&?). exists u, cnt'. split; [done|]. by eapply th_time.
  Qed.
  Lemma hinv_set_t w lg k c t L u cnt :
    hinv w lg -> w_ctx w !! c = Some (u, cnt) -> t_hist E u cnt t L -> hinv (set_t w k (c, t)) (lput lg k L).
  Proof.
    intros [Hg Ht] Hc Hh. split; [done|]. cbn. intros k' c' t'. unfold lput.
    destruct (decide (k' = k)) as [->|Hne].
    - rewrite lookup_insert. intros [= <- <-]. eauto.
    - rewrite lookup_insert_ne by done. apply Ht.
  Qed.
  Lemma hinv_set_g w lg k c g : hinv w lg -> (e_dbg E = true -> tight g) -> hinv (set_g w k (c, g)) lg.
  Proof.
    intros [Hg Ht] Hti. split; [|done]. cbn. intros k' c' g'. destruct (decide (k' = k)) as [->|Hne].
    - rewrite lookup_insert. by intros [= <- <-].
    - rewrite lookup_insert_ne by done. apply Hg.
  Qed.
  Lemma hinv_del_g w lg k : hinv w lg -> hinv (del_g w k) lg.
  Proof. intros [Hg Ht]. split; [|done]. cbn. intros k' c' g' [_ Hl]%lookup_delete_Some. by eapply Hg. Qed.
  Lemma hinv_del_t w lg k : hinv w lg -> hinv (del_t w k) lg.
  Proof. intros [Hg Ht]. split; [done|]. cbn. intros k' c' g' [_ Hl]%lookup_delete_Some. by eapply Ht. Qed.

  Lemma hinv_call w lg k c t t' tc u cnt cnt' i :
    hinv w lg -> w_trans w !! k = Some (c, t) -> w_ctx w !! c = Some (u, cnt) -> tc_ok E t tc ->
    (allocates tc = true -> cnt + 1 < usize_mod)%N ->
    tc_run E tc (cnt, t) = Done (cnt', t') i -> (cnt <= cnt')%N ->
    hinv (set_cnt (set_t w k (c, t')) c u cnt') (lcall lg k i tc).
  Proof.
    intros Hinv Hk Hc Hok Hr Hrun Hle. pose proof Hinv as [_ Ht]. destruct (Ht k c t Hk) as (u'&cnt1&Hc'&Hh).
    assert (u' = u) as -> by congruence. assert (cnt1 = cnt) as -> by congruence.
    assert (ctx_le (w_ctx w) (<[c := (u, cnt')]> (w_ctx w))) as Hcl by by eapply ctx_le_insert.
    apply (hinv_ctx _ _ _ Hinv) in Hcl.
    apply (hinv_set_t _ _ k c t' (lg k ++ [EvCall i tc]) u cnt') in Hcl.
    - exact Hcl.
    - cbn. apply list_lookup_insert. by eapply lookup_lt_Some.
    - by eapply th_call.
  Qed.
  Lemma hinv_call0 w lg k c t t' tc :
    hinv w lg -> w_trans w !! k = Some (c, t) -> tc_ok E t tc -> allocates tc = false ->
    (forall cnt, tc_run E tc (cnt, t) = Done (cnt, t') 0%N) ->
    hinv (set_t w k (c, t')) (lcall lg k 0%N tc).
  Proof.
    intros Hinv Hk Hok Ha Hrun. pose proof Hinv as [_ Ht]. destruct (Ht k c t Hk) as (u&cnt&Hc&Hh).
    eapply hinv_set_t; [done|done|]. eapply th_call; [done|done| |apply Hrun]. by rewrite Ha.
  Qed.

  Lemma tight_new u : tight (graph_new (D:=D) E u).
  Proof. intros i [? Hi]. done. Qed.

  Lemma tight_commit T w lg kg k c t g g' :
    inv E T w -> hinv w lg -> w_trans w !! k = Some (c, t) -> w_graphs w !! kg = Some (c, g) ->
    e_dbg E = true -> t_alloc t = [] -> (commit E t g = Done g' tt \/ exists p, commit E t g = Panicked p g' /\ ~ commit_fault t p (gmap_of g)) -> tight g'.
  Proof.
    intros Hinv [Hg Ht] Hk Hkg Hdb Ha Hc i Hi.
    destruct (inv_trans_ok E T w kg k c g t Hinv Hkg Hk) as (Hwf&Hty&Hok&_).
    destruct (graph_get g' i) eqn:Hgi; [eauto|].
    assert ((gowned g i /\ graph_get g i = None) \/ (is_Some (arena_dispatch (t_inc t) i) /\ arena_get (t_inc t) i = None)) as [[H1 H2]|[H1 H2]].
    { destruct Hc as [Hc|(p&Hc&Hnf)]; [by apply (commit_stale E T t g g')|].
      destruct (commit_panic_wf E T t g p g' Hwf Hty Hok Hc) as [?|(_&_&_&_&Hst&_)]; [done|by apply Hst]. }
    - destruct (Hg kg c g Hkg Hdb i H1). congruence.
    - destruct (Ht k c t Hk) as (u&cnt&_&Hh). destruct (t_hist_rep E _ _ _ _ Hh) as (s&_&Hr&_).
      apply (tr_stale _ _ _ Hr) in H2; [|done]. rewrite Ha in H2. by apply elem_of_nil in H2.
  Qed.

  Lemma tight_deser s cnt g :
    (forall i n, (i, n) ∈ gs_nodes s -> node_ok E n /\ (0 < i < usize_mod)%N) ->
    deserialize_graph E s = Ok (cnt, g) -> tight g.
  Proof.
    intros Hok. unfold deserialize_graph. pose proof (do_deserialize_spec E (gs_ctx s) (gs_nodes s)) as Hs.
    destruct (do_deserialize E (gs_ctx s) (gs_nodes s)) as [g0|]; [|done]. intros [= _ ->].
    destruct Hs as (_&a&g1&r&Hfi&Hrb). { intros i n Hin. apply Hok in Hin. split; [apply Hin|lia]. }
    intros i. pose proof (rb_frame _ _ _ _ _ _ Hrb) as Hf. pose proof (rb_merged _ _ _ _ _ _ Hrb) as Hm.
    rewrite (bfr_disp _ _ _ Hf), (mg_disp _ _ _ _ _ Hm), (fi_disp _ _ _ Hfi).
    destruct (omap_get i (gs_nodes s)) as [n|] eqn:Hi; cbn; [|by intros [? ?]]. intros _.
    rewrite <- (fi_get _ _ _ Hfi), <- (mg_get _ _ _ _ _ Hm) in Hi.
    destruct (bfr_some _ _ _ Hf i n Hi) as (n'&->&_). eauto.
  Qed.

  Lemma lreach_inv T w lg : lreach T w lg -> inv E T w /\ hinv w lg.
  Proof.
    intros Hl. split; [by eapply reachable_inv, lreach_reachable|].
    induction Hl as [|w lg o w' Hl Hinv Hs Hf]; [split; intros ?? ? ?; done|].
    assert (inv E T w) as Hw by by eapply reachable_inv, lreach_reachable.
    destruct Hs; cbn [log_step].
    - apply (hinv_ctx w); [done|apply ctx_le_app].
    - apply hinv_set_g; [done|intros _; apply tight_new].
    - eapply hinv_set_t; [done|done|constructor].
    - eapply hinv_call; try done. apply (trans_insert_step E T) in H3; try done; [lia| |by eapply inv_bound].
      by eapply (iv_trans _ _ _ Hw).
    - eapply hinv_call; try done. apply (trans_alloc_step E T) in H2; try done; [lia| |by eapply inv_bound].
      by eapply (iv_trans _ _ _ Hw).
    - eapply hinv_call; try done. apply (trans_alloc_untyped_step E T) in H2; try done; [lia| |by eapply inv_bound].
      by eapply (iv_trans _ _ _ Hw).
    - eapply hinv_call0; try done. intros cnt. cbn. by rewrite H1.
    - eapply hinv_call0; try done. intros cnt. cbn. by rewrite H2.
    - by eapply hinv_call0.
    - eapply hinv_call0; try done. intros cnt. cbn. by rewrite H1.
    - eapply hinv_call0; try done. intros cnt. cbn. by rewrite H1.
    - by eapply hinv_call0.
    - by eapply hinv_call0.
    - rewrite H0. apply hinv_del_g. pose proof Hinv as [Hg Ht]. destruct (Ht k c t H) as (u&cnt&Hc&Hh).
      eapply hinv_set_t; [done|done|]. eapply th_merge; [done| | | |done].
      + by eapply (iv_graph _ _ _ Hw).
      + destruct (e_dbg E) eqn:Hdb; [by eapply Hg|by eapply Hf].
      + intros i Hi. split.
        * destruct (iv_owns _ _ _ Hw (inl kg) c i) as (u'&cnt'&Hc'&Hb); [by exists g|].
          assert (cnt' = cnt) as -> by congruence. lia.
        * intros Hti. assert (inl kg = inr k :> nat + nat) as ?; [|done].
          apply (iv_disj _ _ _ Hw _ _ c i); [by exists g|by exists t].
    - by apply hinv_del_t.
    - by apply hinv_del_g.
    - apply hinv_set_g; [by apply hinv_del_t|]. intros Hdb. eapply (tight_commit T w lg kg k); try done; [by eapply commit_filled|by left].
    - assert (commit E t g = Done g' tt) as Hcm by by eapply commit_checked_commit.
      apply hinv_set_g; [by apply hinv_del_t|]. intros Hdb. eapply (tight_commit T w lg kg k); try done; [by eapply commit_filled|by left].
    - apply hinv_set_g; [by apply hinv_del_t|]. intros Hdb. eapply (tight_commit T w lg kg k); try done; [|right; by exists p].
      destruct (t_alloc t) as [|x l] eqn:Ha; [done|]. exfalso.
      match goal with H : ~ guard_fails _ _ _ |- _ => apply H end. split; [done|]. right. by rewrite Ha.
    - destruct (iv_graph _ _ _ Hw kg c0 g H) as (Hwf&_).
      pose proof (switch_context_wf E g u cnt Hwf H1) as Hsw. rewrite H2 in Hsw.
      destruct Hsw as (Hcnt'&_&_&_&_&Hti).
      assert (hinv (set_g w kg (c, g')) lg) as Hi by by (apply hinv_set_g; [done|by intros _]).
      apply (hinv_ctx _ _ (<[c := (u, cnt')]> (w_ctx w)) Hi). apply ctx_le_insert with cnt; [done|]. lia.
    - assert (hinv (set_g w kg (length (w_ctx w), g)) lg) as Hi by (apply hinv_set_g; [done|intros _; by eapply tight_deser]).
      apply (hinv_ctx _ _ (w_ctx w ++ [(gs_ctx s, cnt)]) Hi). apply ctx_le_app.
  Qed.

  (** graph [g] and transaction [t], with calls [L], of the same context in some history *)
  Definition pair_log T g t (L : list (tevent D)) : Prop :=
    exists w lg kg k c, lreach T w lg /\ w_graphs w !! kg = Some (c, g) /\ w_trans w !! k = Some (c, t) /\ lg k = L.

  Lemma pair_log_of T g t L : pair_log T g t L -> pair_of E T g t.
  Proof. intros (w&lg&kg&k&c&Hl&Hg&Ht&_). exists w, kg, k, c. split; [by eapply lreach_reachable|done]. Qed.
  Lemma pair_logged T g t : e_dbg E = true -> pair_of E T g t -> exists L, pair_log T g t L.
  Proof.
    intros Hd (w&kg&k&c&Hr&Hg&Ht). destruct (reachable_logged T w Hd Hr) as [lg Hl].
    exists (lg k), w, lg, kg, k, c. done.
  Qed.
  Lemma pair_log_rep T g t L : pair_log T g t L ->
    exists s, ts_run ts_empty L = Some s /\ trep E t s /\ (e_dbg E = true -> tight g).
  Proof.
    intros (w&lg&kg&k&c&Hl&Hg&Ht&<-). destruct (lreach_inv T w lg Hl) as [_ [Hgs Hts]].
    destruct (Hts k c t Ht) as (u&cnt&_&Hh). destruct (t_hist_rep E _ _ _ _ Hh) as (s&Hs&Hr&_).
    exists s. split; [done|]. split; [done|]. by eapply Hgs.
  Qed.
End hist.
