(** * Every history keeps the invariant *)
From Verif Require Export World.

Section worldinv.
  Context {D : Type} (E : env).
  Implicit Types (T : Prop) (w : world (D:=D)) (g : graph D) (t : trans D).

  Lemma commit_checked_commit t c g g' :
    commit_checked E t c g = Done g' tt -> commit E t g = Done g' tt.
  Proof.
    unfold commit_checked, commit, bindM. destruct (do_commit E t g) as [g1 r|]; [|done].
    destruct (check_link_type E r g1) as [g2 []|]; [|done]. unfold getM.
    destruct (check_change g2 r c) as [[|? ?]|]; done.
  Qed.

  Lemma commit_wf T t g g' :
    WF E g -> (T -> gtyped g) -> trans_ok E T g t -> commit E t g = Done g' tt ->
    WF E g' /\ (T -> gtyped g') /\ g_ctx g' = g_ctx g /\ forall i, gowned g' i -> gowned g i \/ is_Some (arena_dispatch (t_inc t) i).
  Proof.
    intros Hwf Hty Hok Hc. pose proof (commit_spec E T g t Hwf Hty Hok) as Hs. rewrite Hc in Hs.
    destruct Hs as (_&g1&r&m1&Hcm&_). split; [apply Hcm|]. pose proof (cm_frame _ _ _ _ _ _ _ _ Hcm) as Hf.
    pose proof (cm_st _ _ _ _ _ _ _ _ Hcm) as Hst. split; [|split].
    - intros HT. eapply bframe_typed; [done|]. by apply Hst.
    - rewrite (bfr_ctx _ _ _ Hf). apply Hst.
    - intros i. unfold gowned. rewrite (bfr_disp _ _ _ Hf). intros Hi.
      destruct (st_disp _ _ _ _ _ _ _ _ Hst i Hi) as [Hm|[[? _]|[? _]]]; [|by left|by right].
      apply (sp_commit_dom _ _ _ (cm_spec _ _ _ _ _ _ _ _ Hcm)) in Hm as [[[n Hm]|[n Hm]] _]; cbn in Hm.
      + right. rewrite (amap_abs E) in Hm by apply Hok. by eapply arena_get_dispatch.
      + left. rewrite (gmap_of_abs E) in Hm by done. by eapply arena_get_dispatch.
  Qed.
  (** a commit leaves only left-over reservations that were there before *)
  Lemma commit_stale T t g g' :
    WF E g -> (T -> gtyped g) -> trans_ok E T g t -> commit E t g = Done g' tt ->
    forall i, gowned g' i -> graph_get g' i = None ->
      (gowned g i /\ graph_get g i = None) \/ (is_Some (arena_dispatch (t_inc t) i) /\ arena_get (t_inc t) i = None).
  Proof.
    intros Hwf Hty Hok Hc. pose proof (commit_spec E T g t Hwf Hty Hok) as Hs. rewrite Hc in Hs.
    destruct Hs as (_&g1&r&m1&Hcm&_). pose proof (cm_frame _ _ _ _ _ _ _ _ Hcm) as Hf.
    pose proof (cm_st _ _ _ _ _ _ _ _ Hcm) as Hst. intros i. unfold gowned. rewrite (bfr_disp _ _ _ Hf).
    intros Hi Hn. destruct (st_disp _ _ _ _ _ _ _ _ Hst i Hi) as [[n Hm]|?]; [|done].
    rewrite (st_abs _ _ _ _ _ _ _ _ Hst) in Hm. destruct (bfr_some _ _ _ Hf i n Hm) as (n'&Hn'&_). congruence.
  Qed.

  (** ** A commit that panics *)
  (** what is known of a graph left by a commit that got as far as [g1], then changed links only *)
  Definition left_facts (T : Prop) t g g' : Prop :=
    WF E g' /\ (T -> gtyped g') /\ g_ctx g' = g_ctx g /\
    (forall i, gowned g' i -> gowned g i \/ is_Some (arena_dispatch (t_inc t) i)) /\
    (forall i, gowned g' i -> graph_get g' i = None ->
     (gowned g i /\ graph_get g i = None) \/ (is_Some (arena_dispatch (t_inc t) i) /\ arena_get (t_inc t) i = None)) /\
    (forall i, is_Some (graph_get g' i) -> is_Some (graph_get g i) \/ is_Some (arena_get (t_inc t) i)) /\
    forall i n, graph_get g i = Some n -> i ∉ t_dec t -> exists n', graph_get g' i = Some n' /\
      (i ∉ (t_mut t).*1 -> i ∉ (t_upd t).*1 -> nvar n' = nvar n /\ ndata n' = ndata n).
  Lemma left_facts_refl (T : Prop) t g : WF E g -> (T -> gtyped g) -> left_facts T t g g.
  Proof.
    intros Hwf Hty. split; [done|]. split; [done|]. split; [done|]. split; [by left|]. split; [intros i ? ?; by left|].
    split; [by left|]. intros i n Hi _. by exists n.
  Qed.
  Lemma left_facts_intro T t g m' g1 r Q g' :
    WF E g -> trans_ok E T g t ->
    ST E (glink g) (g_ctx g) (disp_bound g t) T m' g1 r -> commit_kept t (gmap_of g) m' -> WF E g' -> bframe Q g1 g' ->
    left_facts T t g g'.
  Proof.
    intros Hwf Hok Hst [Hd Hkp] Hwf' Hf. split; [done|]. split; [|split; [|split; [|split; [|split]]]].
    - intros HT. eapply bframe_typed; [done|]. by apply Hst.
    - rewrite (bfr_ctx _ _ _ Hf). apply Hst.
    - intros i. unfold gowned. rewrite (bfr_disp _ _ _ Hf). intros Hi.
      destruct (st_disp _ _ _ _ _ _ _ _ Hst i Hi) as [Hm|[[? _]|[? _]]]; [|by left|by right].
      apply Hd, lookup_union_is_Some in Hm as [[n Hm]|[n Hm]].
      + right. rewrite (amap_abs E) in Hm by apply Hok. by eapply arena_get_dispatch.
      + left. rewrite (gmap_of_abs E) in Hm by done. by eapply arena_get_dispatch.
    - intros i. unfold gowned. rewrite (bfr_disp _ _ _ Hf). intros Hi Hn.
      destruct (st_disp _ _ _ _ _ _ _ _ Hst i Hi) as [[n Hm]|?]; [|done].
      rewrite (st_abs _ _ _ _ _ _ _ _ Hst) in Hm. destruct (bfr_some _ _ _ Hf i n Hm) as (n'&Hn'&_). congruence.
    - intros i [n' Hi]. destruct (graph_get g1 i) as [n|] eqn:Hgi; [|rewrite (bfr_none _ _ _ Hf i Hgi) in Hi; done].
      rewrite <- (st_abs _ _ _ _ _ _ _ _ Hst) in Hgi. assert (is_Some (m' !! i)) as Hm by eauto.
      apply Hd, lookup_union_is_Some in Hm as [Hm|Hm].
      + right. by rewrite (amap_abs E) in Hm by apply Hok.
      + left. by rewrite (gmap_of_abs E) in Hm by done.
    - intros i n Hi Hni. rewrite <- (gmap_of_abs E g Hwf i) in Hi. destruct (Hkp i n Hi Hni) as (n1&Hn1&He1).
      rewrite (st_abs _ _ _ _ _ _ _ _ Hst) in Hn1. destruct (bfr_some _ _ _ Hf i n1 Hn1) as (n'&Hn'&Hv&Hd'&_).
      exists n'. split; [done|]. intros H1 H2. rewrite Hv, Hd'. by apply He1.
  Qed.
  Lemma commit_panic_wf T t g p g' :
    WF E g -> (T -> gtyped g) -> trans_ok E T g t -> commit E t g = Panicked p g' ->
    commit_fault t p (gmap_of g) \/ left_facts T t g g'.
  Proof.
    intros Hwf Hty Hok Hc. pose proof (commit_spec E T g t Hwf Hty Hok) as Hs. rewrite Hc in Hs.
    assert (forall m', sp_commit (trans_txn t) (gmap_of g) m' -> commit_kept t (gmap_of g) m') as Hdom.
    { intros m' Hsp. apply (sp_commit_kept t); [|done]. eapply (trans_ok_new E T g); [by apply (gmap_of_abs E)|done]. }
    destruct Hs as [Hs|(->&g1&r&m1&Hcm&_)].
    - destruct Hs as [_ -> _|_ _ [[r' (m'&Hst&Hd)]|Hft]|g1 r m1 _ Hsp Hst _ Hwf' Hf].
      + right. by apply left_facts_refl.
      + right. apply (left_facts_intro T t g m' g' r' (fun _ _ => False)); [done|done|done|done|apply Hst|apply bframe_refl].
      + by left.
      + right. eapply (left_facts_intro T t g m1 g1 r); try done. by apply Hdom.
    - right. eapply (left_facts_intro T t g m1 g1 r); [done|done|apply Hcm|apply Hdom, Hcm|apply Hcm|apply Hcm].
  Qed.
  Lemma commit_checked_fails t c g p g' :
    commit_checked E t c g = Panicked p g' -> commit E t g = Panicked p g' \/ commit E t g = Done g' tt.
  Proof.
    unfold commit_checked, commit, bindM. destruct (do_commit E t g) as [g1 r|]; [|by left].
    destruct (check_link_type E r g1) as [g2 []|]; [|by left]. unfold getM. intros H. right.
    destruct (check_change g2 r c) as [[|? ?]|]; [done|by injection H as _ ->..].
  Qed.

  Lemma inv_bound T w k c t u cnt :
    inv E T w -> w_trans w !! k = Some (c, t) -> w_ctx w !! c = Some (u, cnt) ->
    forall j, towned t j -> (j <= cnt)%N.
  Proof.
    intros Hinv Hk Hc j Hj. destruct (iv_owns _ _ _ Hinv (inr k) c j) as (u'&cnt'&Hc'&Hb); [by exists t|].
    assert (cnt' = cnt) as -> by congruence. lia.
  Qed.

  Lemma inv_trans_ok T w kg k c g t :
    inv E T w -> w_graphs w !! kg = Some (c, g) -> w_trans w !! k = Some (c, t) ->
    WF E g /\ (T -> gtyped g) /\ trans_ok E T g t /\ t_ctx t = g_ctx g.
  Proof.
    intros Hinv Hg Ht. destruct (iv_graph _ _ _ Hinv kg c g Hg) as (Hwf&Hty&cnt&Hc).
    destruct (iv_trans _ _ _ Hinv k c t Ht) as (Htw&cnt'&Hc'). split; [done|]. split; [done|].
    split; [|congruence]. destruct Htw. split; try done.
    - intros i Hi. apply eq_None_not_Some. intros Hs.
      assert (inl kg = inr k :> nat + nat) as ?; [|done].
      apply (iv_disj _ _ _ Hinv _ _ c i); [by exists g|]. exists t. split; [done|by left].
    - intros x n Hx. split; [by eapply tw_nodes|].
      destruct (iv_owns _ _ _ Hinv (inr k) c x) as (u&cnt1&_&Hb); [|lia].
      exists t. split; [done|]. left. by eapply arena_get_dispatch.
  Qed.

  (** a transaction changes on its own *)
  Lemma inv_set_t T w k c t t' :
    inv E T w -> w_trans w !! k = Some (c, t) -> tstep E T t t' (fun _ => False) -> wstep E T w (set_t w k (c, t')) id (inr k).
  Proof.
    intros Hinv Hk (Hwf&Hctx&Ho). destruct (iv_trans _ _ _ Hinv k c t Hk) as (_&cnt&Hc).
    split; [apply ctx_le_refl|apply Hinv|by left|..].
    - intros k' c' t0. cbn. destruct (decide (k' = k)) as [->|Hne].
      + rewrite lookup_insert. intros [= <- <-]. right. split; [done|]. rewrite Hctx. eauto.
      + rewrite lookup_insert_ne by done. by left.
    - intros h c' i Hi. left. exists h. split; [|done]. destruct h as [k'|k']; [done|]. cbn in Hi |- *.
      destruct Hi as (t0&Hl&Hi). destruct (decide (k' = k)) as [->|Hne].
      + rewrite lookup_insert in Hl. injection Hl as <- <-. exists t. split; [done|]. destruct (Ho i Hi); [done|tauto].
      + rewrite lookup_insert_ne in Hl by done. by exists t0.
  Qed.
  (** a transaction takes the next index of its context *)
  Lemma inv_set_t_new T w k c t t' u cnt :
    inv E T w -> w_trans w !! k = Some (c, t) -> w_ctx w !! c = Some (u, cnt) -> (cnt + 1 < usize_mod)%N ->
    tstep E T t t' (fun j => j = (cnt + 1)%N) -> wstep E T w (set_cnt (set_t w k (c, t')) c u (cnt + 1)%N) id (inr k).
  Proof.
    intros Hinv Hk Hc Hroom (Hwf&Hctx&Ho). destruct (iv_trans _ _ _ Hinv k c t Hk) as (_&cnt0&Hc0).
    assert (c < length (w_ctx w)) as Hlt by by eapply lookup_lt_Some.
    split; [apply ctx_le_insert with cnt; [done|lia]|..]; cbn.
    - intros c' u' cnt'. destruct (decide (c' = c)) as [->|Hne].
      + rewrite list_lookup_insert by done. by intros [= _ <-].
      + rewrite list_lookup_insert_ne by done. apply Hinv.
    - by left.
    - intros k' c' t0. destruct (decide (k' = k)) as [->|Hne].
      + rewrite lookup_insert. intros [= <- <-]. right. split; [done|]. rewrite list_lookup_insert by done.
        exists (cnt + 1)%N. do 2 f_equal. congruence.
      + rewrite lookup_insert_ne by done. by left.
    - intros h c' i Hi. destruct h as [k'|k']; [left; by exists (inl k')|]. cbn in Hi.
      destruct Hi as (t0&Hl&Hi). destruct (decide (k' = k)) as [->|Hne].
      + rewrite lookup_insert in Hl. injection Hl as <- <-. destruct (Ho i Hi) as [Hi'| ->].
        * left. exists (inr k). split; [|done]. by exists t.
        * right. split; [done|]. split.
          { exists u, (cnt + 1)%N. rewrite list_lookup_insert by done. split; [done|lia]. }
          intros u1 cnt1 Hc1. assert (cnt1 = cnt) as -> by congruence. lia.
      + rewrite lookup_insert_ne in Hl by done. left. exists (inr k'). split; [|done]. by exists t0.
  Qed.

  Lemma commit_inv_case T w kg k c t g g' :
    inv E T w -> w_trans w !! k = Some (c, t) -> w_graphs w !! kg = Some (c, g) ->
    (commit E t g = Done g' tt \/ exists p, commit E t g = Panicked p g' /\ ~ commit_fault t p (gmap_of g)) ->
    wstep E T w (set_g (del_t w k) kg (c, g')) (fun h => if decide (h = inr k) then inl kg else h) (inl 0).
  Proof.
    intros Hinv Ht Hg Hc. destruct (inv_trans_ok T w kg k c g t Hinv Hg Ht) as (Hwf&Hty&Hok&_).
    assert (WF E g' /\ (T -> gtyped g') /\ g_ctx g' = g_ctx g /\
      forall i, gowned g' i -> gowned g i \/ is_Some (arena_dispatch (t_inc t) i)) as (Hwf'&Hty'&Hctx&Ho).
    { destruct Hc as [Hc|(p&Hc&Hnf)]; [by apply (commit_wf T t g g')|].
      destruct (commit_panic_wf T t g p g' Hwf Hty Hok Hc) as [?|(?&?&?&?&_)]; done. }
    destruct (iv_graph _ _ _ Hinv kg c g Hg) as (_&_&cnt&Hcc).
    split; [apply ctx_le_refl|apply Hinv|..]; cbn.
    - intros k' c' g0. destruct (decide (k' = kg)) as [->|Hne].
      + rewrite lookup_insert. intros [= <- <-]. right. split; [done|]. split; [done|]. rewrite Hctx. eauto.
      + rewrite lookup_insert_ne by done. by left.
    - intros k' c' t0 [_ Hl]%lookup_delete_Some. by left.
    - intros h c' i Hi. left. destruct h as [k'|k']; cbn in Hi.
      + destruct Hi as (g0&Hl&Hi). destruct (decide (k' = kg)) as [->|Hne].
        * rewrite lookup_insert in Hl. injection Hl as <- <-. destruct (Ho i Hi) as [Hi'|Hi'].
          -- exists (inl kg). split; [by exists g|]. done.
          -- exists (inr k). split; [|by rewrite decide_True]. exists t. split; [done|by left].
        * rewrite lookup_insert_ne in Hl by done. exists (inl k'). split; [by exists g0|]. done.
      + destruct Hi as (t0&[Hne Hl]%lookup_delete_Some&Hi). exists (inr k'). split; [by exists t0|].
        rewrite decide_False by congruence. done.
  Qed.

  (** who may pass an index on to whom, and who gets new indices *)
  Definition moves (o : op (D:=D)) (h h' : nat + nat) : Prop :=
    h' = h \/ match o with
             | OCommit kg k | OCommitChecked kg k _ | OCommitPanic kg k _ => h = inr k /\ h' = inl kg
             | OMerge k kg => h = inl kg /\ h' = inr k
             | _ => False
             end.
  Definition takes (o : op (D:=D)) (hn : nat + nat) : Prop :=
    match o with
    | OInsert k _ _ | OAlloc k _ _ | OAllocUntyped k _ => hn = inr k
    | _ => True
    end.
  Lemma step_wstep T w o w' : inv E T w -> step E T w o w' ->
    exists phi hn, wstep E T w w' phi hn /\ (forall h, moves o h (phi h)) /\ takes o hn.
  Proof.
    intros Hinv Hs. destruct Hs.
    - (* new context *)
      exists id, (inl 0); split; [|split; [intros h; by left|done]]; split; [apply ctx_le_app|..]; cbn.
      + intros c u' cnt [Hc|(Hlt&Hc)]%lookup_app_Some; [by eapply Hinv|].
        apply list_lookup_singleton_Some in Hc as [_ [= _ <-]]. done.
      + by left.
      + by left.
      + intros h c i Hi. left. exists h. by destruct h.
    - (* new graph *)
      exists id, (inl 0); split; [|split; [intros h; by left|done]]; split; [apply ctx_le_refl|apply Hinv|..]; cbn.
      + intros k' c' g. destruct (decide (k' = k)) as [->|Hne].
        * rewrite lookup_insert. intros [= <- <-]. right. split; [apply wf_new|]. split; [|by exists cnt].
          intros _ i n d Hi. done.
        * rewrite lookup_insert_ne by done. by left.
      + by left.
      + intros h c' i Hi. left. exists h. split; [|done]. destruct h as [k'|k']; [|done]. cbn in *.
        destruct Hi as (g&Hl&Hi). destruct (decide (k' = k)) as [->|Hne].
        * rewrite lookup_insert in Hl. injection Hl as <- <-. by destruct Hi.
        * rewrite lookup_insert_ne in Hl by done. by exists g.
    - (* new transaction *)
      exists id, (inl 0); split; [|split; [intros h; by left|done]]; split; [apply ctx_le_refl|apply Hinv|..]; cbn.
      + by left.
      + intros k' c' t. destruct (decide (k' = k)) as [->|Hne].
        * rewrite lookup_insert. intros [= <- <-]. right. split; [apply trans_new_wf|by exists cnt].
        * rewrite lookup_insert_ne by done. by left.
      + intros h c' i Hi. left. exists h. split; [|done]. destruct h as [k'|k']; [done|]. cbn in *.
        destruct Hi as (t&Hl&Hi). destruct (decide (k' = k)) as [->|Hne].
        * rewrite lookup_insert in Hl. injection Hl as <- <-. destruct Hi as [Hi|Hi]; [by destruct Hi|by apply elem_of_nil in Hi].
        * rewrite lookup_insert_ne in Hl by done. by exists t.
    - apply (trans_insert_step E T) in H3 as (->&_&Hst); [|by eapply Hinv|done|done|by eapply inv_bound].
      exists id, (inr k). split; [by eapply inv_set_t_new|]. split; [by left|done].
    - apply (trans_alloc_step E T) in H2 as (->&_&Hst); [|by eapply Hinv|done|by eapply inv_bound].
      exists id, (inr k). split; [by eapply inv_set_t_new|]. split; [by left|done].
    - apply (trans_alloc_untyped_step E T) in H2 as (->&_&Hst); [|by eapply Hinv|done|by eapply inv_bound].
      exists id, (inr k). split; [by eapply inv_set_t_new|]. split; [by left|done].
    - exists id, (inr k). split; [|split; [by left|done]]. eapply inv_set_t; [done|done|]. eapply trans_fill_step; [by eapply Hinv|done|done].
    - exists id, (inr k). split; [|split; [by left|done]]. eapply inv_set_t; [done|done|]. eapply trans_fill_untyped_step; [by eapply Hinv|done|done|done].
    - exists id, (inr k). split; [|split; [by left|done]]. eapply inv_set_t; [done|done|]. apply trans_remove_step. by eapply Hinv.
    - exists id, (inr k). split; [|split; [by left|done]]. eapply inv_set_t; [done|done|]. eapply trans_mutate_step; [by eapply Hinv|done|done].
    - exists id, (inr k). split; [|split; [by left|done]]. eapply inv_set_t; [done|done|]. eapply trans_update_step; [by eapply Hinv|done|done].
    - exists id, (inr k). split; [|split; [by left|done]]. eapply inv_set_t; [done|done|]. apply trans_redirect_step; [by eapply Hinv|done].
    - exists id, (inr k). split; [|split; [by left|done]]. eapply inv_set_t; [done|done|]. apply trans_redirect_all_step; [by eapply Hinv|done].
    - (* merge *)
      destruct (iv_graph _ _ _ Hinv kg c g H0) as (Hwf&Hty&cnt&Hc).
      destruct (iv_trans _ _ _ Hinv k c t H) as (Htw&cnt'&Hc').
      destruct (trans_merge_step E T t g t' Htw Hwf Hty) as (Htw'&Hctx&Ho); [|done|].
      { intros i Hg Ht. assert (inl kg = inr k :> nat + nat) as ?; [|done].
        apply (iv_disj _ _ _ Hinv _ _ c i); [by exists g|by exists t]. }
      exists (fun h => if decide (h = inl kg) then inr k else h), (inl 0); split; [|split; [intros h; destruct (decide (h = inl kg)); [by right|by left]|done]]; split; [apply ctx_le_refl|apply Hinv|..]; cbn.
      + intros k' c' g'. intros [_ Hl]%lookup_delete_Some. by left.
      + intros k' c' t0. destruct (decide (k' = k)) as [->|Hne].
        * rewrite lookup_insert. intros [= <- <-]. right. split; [done|]. rewrite Hctx. eauto.
        * rewrite lookup_insert_ne by done. by left.
      + intros h c' i Hi. left. destruct h as [k'|k']; cbn in Hi.
        * destruct Hi as (g'&[Hne Hl]%lookup_delete_Some&Hi). exists (inl k'). split; [by exists g'|].
          rewrite decide_False by congruence. done.
        * destruct Hi as (t0&Hl&Hi). destruct (decide (k' = k)) as [->|Hne].
          -- rewrite lookup_insert in Hl. injection Hl as <- <-. destruct (Ho i Hi) as [Hi'|Hi'].
             ++ exists (inr k). split; [by exists t|]. done.
             ++ exists (inl kg). split; [by exists g|]. by rewrite decide_True.
          -- rewrite lookup_insert_ne in Hl by done. exists (inr k'). split; [by exists t0|]. done.
    - (* give up *)
      exists id, (inl 0); split; [|split; [intros h; by left|done]]; split; [apply ctx_le_refl|apply Hinv|..]; cbn.
      + by left.
      + intros k' c' t [_ Hl]%lookup_delete_Some. by left.
      + intros h c' i Hi. left. exists h. split; [|done]. destruct h as [k'|k']; [done|]. cbn in *.
        destruct Hi as (t&[_ Hl]%lookup_delete_Some&Hi). by exists t.
    - (* drop graph *)
      exists id, (inl 0); split; [|split; [intros h; by left|done]]; split; [apply ctx_le_refl|apply Hinv|..]; cbn.
      + intros k' c' t [_ Hl]%lookup_delete_Some. by left.
      + by left.
      + intros h c' i Hi. left. exists h. split; [|done]. destruct h as [k'|k']; [|done]. cbn in *.
        destruct Hi as (t&[_ Hl]%lookup_delete_Some&Hi). by exists t.
    - (* commit *) eexists _, _. split; [eapply (commit_inv_case T w); [done..|by left]|]. split; [|done].
      intros h. case_decide; [by right|by left].
    - (* commit_checked *) apply commit_checked_commit in H1. eexists _, _. split; [eapply (commit_inv_case T w); [done..|by left]|]. split; [|done].
      intros h. case_decide; [by right|by left].
    - (* panicking commit *) eexists _, _. split; [eapply (commit_inv_case T w); [done..|right; by exists p]|]. split; [|done].
      intros h. case_decide; [by right|by left].
    - (* switch *)
      destruct (iv_graph _ _ _ Hinv kg c0 g H) as (Hwf&Hty&cnt0&Hc0).
      pose proof (switch_context_wf E g u cnt Hwf H1) as Hsw. rewrite H2 in Hsw.
      destruct Hsw as (Hcnt'&Hwf'&Hty'&Hctx&Hb&_). set (nn := length (arena_items (g_nodes g))) in *.
      assert (c < length (w_ctx w)) as Hlt by by eapply lookup_lt_Some.
      exists id, (inl kg); split; [|split; [intros h; by left|done]]; split; [apply ctx_le_insert with cnt; [done|lia]|..]; cbn.
      + intros c' u' cnt1. destruct (decide (c' = c)) as [->|Hne].
        * rewrite list_lookup_insert by done. intros [= _ <-]. assert (length (graph_iter g) = nn) as Hnn by done. rewrite Hnn in H1. rewrite Hcnt'. exact H1.
        * rewrite list_lookup_insert_ne by done. apply Hinv.
      + intros k' c' g0. destruct (decide (k' = kg)) as [->|Hne].
        * rewrite lookup_insert. intros [= <- <-]. right. split; [done|]. split; [done|].
          rewrite list_lookup_insert by done. exists cnt'. by rewrite Hctx.
        * rewrite lookup_insert_ne by done. by left.
      + by left.
      + intros h c' i Hi. destruct h as [k'|k']; [|left; by exists (inr k')]. cbn in Hi.
        destruct Hi as (g0&Hl&Hi). destruct (decide (k' = kg)) as [->|Hne].
        * rewrite lookup_insert in Hl. injection Hl as <- <-. right. split; [done|]. apply Hb in Hi. split.
          { exists u, cnt'. rewrite list_lookup_insert by done. split; [done|lia]. }
          intros u1 cnt1 Hc1. assert (cnt1 = cnt) as -> by congruence. lia.
        * rewrite lookup_insert_ne in Hl by done. left. exists (inl k'). split; [|done]. by exists g0.
    - (* deserialization *)
      unfold deserialize_graph in H0. destruct (do_deserialize E (gs_ctx s) (gs_nodes s)) as [g1|] eqn:Hd; [|done].
      injection H0 as <- <-. pose proof (do_deserialize_spec E (gs_ctx s) (gs_nodes s)) as Hsp. rewrite Hd in Hsp.
      destruct Hsp as (Hnd&a&g0&r&Hfi&Hrb).
      { intros i n Hin. destruct (H i n Hin) as [? ?]. split; [done|lia]. }
      set (cnt := dist_from_count _). set (cs := w_ctx w).
      assert (forall l m0, (m0 < usize_mod)%N -> (forall i, i ∈ l -> (i < usize_mod)%N) ->
        (m0 <= fold_left N.max l m0)%N /\ (fold_left N.max l m0 < usize_mod)%N /\ forall i, i ∈ l -> (i <= fold_left N.max l m0)%N) as Hmax.
      { induction l as [|x l IH]; intros m0 Hm0 Hl; cbn.
        - split; [lia|]. split; [done|]. by intros i ?%elem_of_nil.
        - assert (x < usize_mod)%N by (apply Hl; left).
          destruct (IH (N.max m0 x)) as (H1&H2&H3); [lia|intros i Hi; apply Hl; by right|].
          split; [lia|]. split; [done|]. intros i [->|Hi]%elem_of_cons; [lia|by apply H3]. }
      destruct (Hmax (gs_nodes s).*1 0%N) as (_&Hcnt&Hle).
      { done. }
      { intros i Hi. apply elem_of_list_fmap in Hi as ([j n]&->&Hin). apply (H j n Hin). }
      change (fold_left N.max (gs_nodes s).*1 0%N) with cnt in Hcnt, Hle.
      exists id, (inl kg); split; [|split; [intros h; by left|done]]; split; [apply ctx_le_app|..]; cbn.
      + intros c u' cnt0 [Hc|(Hlt&Hc)]%lookup_app_Some; [by eapply Hinv|].
        apply list_lookup_singleton_Some in Hc as [_ [= _ <-]]. done.
      + intros k' c' g'. destruct (decide (k' = kg)) as [->|Hne].
        * rewrite lookup_insert. intros [= <- <-]. right. split; [apply Hrb|]. split.
          { intros _. eapply bframe_typed; [apply Hrb|]. eapply merged_typed; [apply Hrb|].
            exact (from_iter_typed E _ _ Hfi). }
          exists cnt. rewrite lookup_app_r by done. rewrite Nat.sub_diag. cbn. do 2 f_equal.
          rewrite (bfr_ctx _ _ _ (rb_frame _ _ _ _ _ _ Hrb)). symmetry. apply Hrb.
        * rewrite lookup_insert_ne by done. by left.
      + by left.
      + intros h c' i Hi. destruct h as [k'|k']; [|left; by exists (inr k')]. cbn in Hi.
        destruct Hi as (g'&Hl&Hi). destruct (decide (k' = kg)) as [->|Hne].
        * rewrite lookup_insert in Hl. injection Hl as <- <-. right. split; [done|]. split.
          { exists (gs_ctx s), cnt. rewrite lookup_app_r by done. rewrite Nat.sub_diag. split; [done|].
            unfold gowned in Hi. rewrite (bfr_disp _ _ _ (rb_frame _ _ _ _ _ _ Hrb)) in Hi.
            rewrite (mg_disp _ _ _ _ _ (rb_merged _ _ _ _ _ _ Hrb)), (fi_disp _ _ _ Hfi) in Hi.
            destruct (omap_get i (gs_nodes s)) as [n|] eqn:Hg; [|by destruct Hi].
            split; [|apply Hle; by eapply omap_get_Some_key]. apply omap_get_elem in Hg. apply (H i n Hg). }
          intros u1 cnt1 Hc1.
          apply lookup_lt_Some in Hc1. subst cs. cbn in Hc1. lia.
        * rewrite lookup_insert_ne in Hl by done. left. exists (inl k'). split; [|done]. by exists g'.
  Qed.
  Lemma step_inv T w o w' : inv E T w -> step E T w o w' -> inv E T w'.
  Proof. intros Hi Hs. destruct (step_wstep T w o w' Hi Hs) as (phi&hn&Hw&_). by eapply inv_step. Qed.
  Lemma reachable_inv T w : reachable E T w -> inv E T w.
  Proof.
    induction 1 as [|w o w' _ IH Hs]; [|by eapply step_inv].
    split; cbn; try done.
    - intros h c i Hi. destruct h as [k|k]; by destruct Hi as (?&?&_).
    - intros h h' c i Hi. destruct h as [k|k]; by destruct Hi as (?&?&_).
  Qed.

  Lemma pair_of_ok T g t : pair_of E T g t ->
    WF E g /\ (T -> gtyped g) /\ trans_ok E T g t /\ t_ctx t = g_ctx g.
  Proof. intros (w&kg&k&c&Hr&Hg&Ht). eapply inv_trans_ok; [by apply reachable_inv|done|done]. Qed.
  Lemma graph_of_ok T g : graph_of E T g -> WF E g /\ (T -> gtyped g).
  Proof. intros (w&kg&c&Hr&Hg). by apply (iv_graph _ _ _ (reachable_inv _ _ Hr)) in Hg as (?&?&_). Qed.
  Lemma trans_of_ok T t : trans_of E T t -> trans_wf E T t.
  Proof. intros (w&k&c&Hr&Ht). by apply (iv_trans _ _ _ (reachable_inv _ _ Hr)) in Ht as (?&_). Qed.
End worldinv.
