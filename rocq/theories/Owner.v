(** * Who owned an index: what a transaction was given never belongs to anybody else *)
From Verif Require Export BidiFinal.

(** the calls [L] gave index [i] to the transaction: it was returned by insert, alloc or
    alloc_untyped, or came in with a merged graph *)
Definition log_new {D} (L : list (tevent D)) (i : idx) : Prop :=
  (exists c, EvCall i c ∈ L /\ allocates c = true) \/ (exists m, EvMerge m ∈ L /\ is_Some (m !! i)).

Section owner.
  Context {D : Type} (E : env).
  Implicit Types (T : Prop) (w : world (D:=D)) (g : graph D) (t : trans D) (lg : nat -> list (tevent D)) (L : list (tevent D)).

  Lemma log_new_app L e i : log_new (L ++ [e]) i <-> log_new L i \/ log_new [e] i.
  Proof. unfold log_new. setoid_rewrite elem_of_app. naive_solver. Qed.
  Lemma log_new_call j (c : tcall D) i : log_new [EvCall j c] i <-> allocates c = true /\ i = j.
  Proof.
    unfold log_new. setoid_rewrite elem_of_list_singleton. split.
    - intros [(c'&[= -> ->]&?)|(m&[=]&_)]. done.
    - intros [? ->]. left. eauto.
  Qed.
  Lemma log_new_merge (m : gmap N (node D)) i : log_new [EvMerge m] i <-> is_Some (m !! i).
  Proof.
    unfold log_new. setoid_rewrite elem_of_list_singleton. split.
    - intros [(c'&[=]&?)|(m'&[= ->]&?)]. done.
    - intros ?. right. eauto.
  Qed.

  Definition oinv w lg : Prop :=
    forall k c t i, w_trans w !! k = Some (c, t) -> log_new (lg k) i ->
      (exists u cnt, w_ctx w !! c = Some (u, cnt) /\ (i <= cnt)%N) /\ forall h, owns w h c i -> h = inr k.

  (** which transaction a call commits to which graph *)
  Definition commits (o : op (D:=D)) : option (nat * nat) :=
    match o with
    | OCommit kg k | OCommitChecked kg k _ | OCommitPanic kg k _ => Some (kg, k)
    | _ => None
    end.

  (** where the entries of a log come from *)
  Lemma log_step_new T w lg o w' k c t i :
    inv E T w -> step E T w o w' -> w_trans w' !! k = Some (c, t) -> log_new (log_step w o lg k) i ->
    (exists t0, w_trans w !! k = Some (c, t0) /\ log_new (lg k) i /\ forall kg, commits o <> Some (kg, k)) \/
    (exists u cnt, w_ctx w !! c = Some (u, cnt) /\ w_ctx w' !! c = Some (u, i) /\ (cnt < i)%N /\ forall hn, takes o hn -> hn = inr k) \/
    (exists kg, owns w (inl kg) c i /\ o = OMerge k kg /\ w_graphs w' !! kg = None).
  Proof.
    intros Hinv Hs Hk Hl.
    assert (forall k' j tc, allocates tc = false -> log_new (lcall lg k' j tc k) i -> log_new (lg k) i) as Hcall.
    { intros k' j tc Ha. unfold lcall, lput. case_decide; [|done]. subst.
      rewrite log_new_app, log_new_call. intros [?|[? _]]; [done|congruence]. }
    assert (forall k' c1 t1 t2 j tc u cnt, w_trans w !! k' = Some (c1, t1) ->
      w_trans w' = <[k' := (c1, t2)]> (w_trans w) -> w_ctx w !! c1 = Some (u, cnt) ->
      w_ctx w' = <[c1 := (u, (cnt + 1)%N)]> (w_ctx w) -> j = (cnt + 1)%N -> (forall hn, takes o hn -> hn = inr k') ->
      commits o = None ->
      log_new (lcall lg k' j tc k) i ->
      (exists t0, w_trans w !! k = Some (c, t0) /\ log_new (lg k) i /\ forall kg, commits o <> Some (kg, k)) \/
      (exists u cnt, w_ctx w !! c = Some (u, cnt) /\ w_ctx w' !! c = Some (u, i) /\ (cnt < i)%N /\ forall hn, takes o hn -> hn = inr k)) as Hal.
    { intros k' c1 t1 t2 j tc u cnt Hk' Ht' Hc Hc' -> Htk Hnc. assert (forall kg, commits o <> Some (kg, k)) as Hnc' by (intros kg; by rewrite Hnc). unfold lcall, lput. rewrite Ht' in Hk. case_decide as Hd.
      - subst k'. rewrite lookup_insert in Hk. injection Hk as <- <-. rewrite log_new_app, log_new_call.
        intros [?|[_ ->]]; [left; eauto|right]. exists u, cnt. split; [done|]. rewrite Hc', list_lookup_insert by by eapply lookup_lt_Some.
        split; [done|]. split; [lia|done].
      - rewrite lookup_insert_ne in Hk by done. left. eauto. }
    destruct Hs; cbn [log_step] in Hl; cbn [w_trans set_t set_g set_cnt del_t del_g w_ctx w_graphs] in Hk.
    - left. eauto.
    - left. eauto.
    - unfold lput in Hl. case_decide; [|rewrite lookup_insert_ne in Hk by done; left; eauto].
      by destruct Hl as [(?&?%elem_of_nil&_)|(?&?%elem_of_nil&_)].
    - apply (trans_insert_step E T) in H3 as (->&->&_); [|by eapply Hinv|done|done|by eapply inv_bound].
      destruct (Hal k0 c0 t0 t' (cnt + 1)%N (CInsert n) u cnt) as [?|?]; [done..|by left|by right; left].
    - apply (trans_alloc_step E T) in H2 as (->&->&_); [|by eapply Hinv|done|by eapply inv_bound].
      destruct (Hal k0 c0 t0 t' (cnt + 1)%N (CAlloc d) u cnt) as [?|?]; [done..|by left|by right; left].
    - apply (trans_alloc_untyped_step E T) in H2 as (->&->&_); [|by eapply Hinv|done|by eapply inv_bound].
      destruct (Hal k0 c0 t0 t' (cnt + 1)%N CAllocUntyped u cnt) as [?|?]; [done..|by left|by right; left].
    - left. apply Hcall in Hl; [|done]. destruct (decide (k = k0)) as [->|?];
        [rewrite lookup_insert in Hk; injection Hk as <- <-|rewrite lookup_insert_ne in Hk by done]; eauto.
    - left. apply Hcall in Hl; [|done]. destruct (decide (k = k0)) as [->|?];
        [rewrite lookup_insert in Hk; injection Hk as <- <-|rewrite lookup_insert_ne in Hk by done]; eauto.
    - left. apply Hcall in Hl; [|done]. destruct (decide (k = k0)) as [->|?];
        [rewrite lookup_insert in Hk; injection Hk as <- <-|rewrite lookup_insert_ne in Hk by done]; eauto.
    - left. apply Hcall in Hl; [|done]. destruct (decide (k = k0)) as [->|?];
        [rewrite lookup_insert in Hk; injection Hk as <- <-|rewrite lookup_insert_ne in Hk by done]; eauto.
    - left. apply Hcall in Hl; [|done]. destruct (decide (k = k0)) as [->|?];
        [rewrite lookup_insert in Hk; injection Hk as <- <-|rewrite lookup_insert_ne in Hk by done]; eauto.
    - left. apply Hcall in Hl; [|done]. destruct (decide (k = k0)) as [->|?];
        [rewrite lookup_insert in Hk; injection Hk as <- <-|rewrite lookup_insert_ne in Hk by done]; eauto.
    - left. apply Hcall in Hl; [|done]. destruct (decide (k = k0)) as [->|?];
        [rewrite lookup_insert in Hk; injection Hk as <- <-|rewrite lookup_insert_ne in Hk by done]; eauto.
    - rewrite H0 in Hl. unfold lput in Hl. case_decide as Hd; [|rewrite lookup_insert_ne in Hk by done; left; eauto].
      subst k0. rewrite lookup_insert in Hk. injection Hk as <- <-. rewrite log_new_app, log_new_merge in Hl.
      destruct Hl as [Hl|Hl]; [left; eauto|right; right]. exists kg. split; [|split; [done|apply lookup_delete]].
      exists g. split; [done|]. destruct Hl as [n Hl]. destruct (iv_graph _ _ _ Hinv kg c0 g H0) as (Hwf&_).
      rewrite (gmap_of_get E) in Hl by done. by eapply arena_get_dispatch.
    - apply lookup_delete_Some in Hk as [? Hk]. left. eauto.
    - left. eauto.
    - apply lookup_delete_Some in Hk as [? Hk]. left. exists t. split; [done|]. split; [done|]. intros kg'. cbn. congruence.
    - apply lookup_delete_Some in Hk as [? Hk]. left. exists t. split; [done|]. split; [done|]. intros kg'. cbn. congruence.
    - apply lookup_delete_Some in Hk as [? Hk]. left. exists t. split; [done|]. split; [done|]. intros kg'. cbn. congruence.
    - left. eauto.
    - left. eauto.
  Qed.

  Lemma lreach_oinv T w lg : lreach E T w lg -> oinv w lg.
  Proof.
    induction 1 as [|w lg o w' Hl IH Hs Hf]; [intros k c t i; done|].
    assert (inv E T w) as Hinv by by eapply reachable_inv, lreach_reachable.
    intros k c t i Hk Hi. destruct (step_wstep E T w o w' Hinv Hs) as (phi&hn&Hw&Hmv&Htk).
    destruct (log_step_new T w lg o w' k c t i Hinv Hs Hk Hi) as [(t0&Hk0&Hi0&Hnc)|[(u&cnt&Hc&Hc'&Hlt&Ht)|(kg&Ho&->&Hd)]].
    - destruct (IH k c t0 i Hk0 Hi0) as ((u&cnt&Hc&Hle)&Ho). split.
      { destruct (ws_ctx _ _ _ _ _ _ Hw _ _ _ Hc) as (cnt'&Hc'&?). exists u, cnt'. split; [done|lia]. }
      intros h Hh. destruct (ws_owns _ _ _ _ _ _ Hw h c i Hh) as [(h0&Hh0&<-)|(->&_&Hfr)].
      + apply Ho in Hh0 as ->. destruct (Hmv (inr k)) as [->|Hm]; [done|].
        destruct o; try done.
        * destruct Hm as [Hm _]. done.
        * destruct Hm as [[= <-] _]. by destruct (Hnc kg).
        * destruct Hm as [[= <-] _]. by destruct (Hnc kg).
        * destruct Hm as [[= <-] _]. by destruct (Hnc kg).
      + apply Hfr in Hc. lia.
    - split; [exists u, i; split; [done|lia]|]. intros h Hh.
      destruct (ws_owns _ _ _ _ _ _ Hw h c i Hh) as [(h0&Hh0&<-)|(->&_&Hfr)].
      + destruct (iv_owns _ _ _ Hinv h0 c i Hh0) as (u1&cnt1&Hc1&Hb). assert (cnt1 = cnt) as -> by congruence. lia.
      + by apply Ht.
    - destruct (iv_owns _ _ _ Hinv _ c i Ho) as (u1&cnt1&Hc1&Hb). split.
      { destruct (ws_ctx _ _ _ _ _ _ Hw _ _ _ Hc1) as (cnt'&Hc'&?). exists u1, cnt'. split; [done|lia]. }
      intros h Hh. destruct (ws_owns _ _ _ _ _ _ Hw h c i Hh) as [(h0&Hh0&<-)|(->&_&Hfr)].
      + assert (h0 = inl kg) as -> by by eapply (iv_disj _ _ _ Hinv). destruct (Hmv (inl kg)) as [Hm|[_ ?]]; [|done].
        rewrite Hm in Hh. destruct Hh as (g'&Hg'&_). congruence.
      + apply Hfr in Hc1. lia.
  Qed.

  (** log against user-level state *)
  Lemma t_hist_log u cnt t L s : t_hist E u cnt t L -> ts_run ts_empty L = Some s ->
    (forall i, ts_known s i -> log_new L i) /\
    (forall x j, EvCall j (CRemove x) ∈ L -> ~ log_new L x -> x ∈ ts_del s).
  Proof.
    intros Hh. revert s. induction Hh as [cnt|cnt cnt' t L Hh IH Hle|cnt t L c cnt' t' i Hh IH Hok Hc Hrun|cnt t L g t' Hh IH Hwf Hti Hd Hm]; intros s Hs.
    - injection Hs as <-. split; [by intros i [[? [=]]|[? [=]]]|by intros x j ?%elem_of_nil].
    - by apply IH.
    - destruct (t_hist_rep E _ _ _ _ Hh) as (s0&Hs0&Hr&_). rewrite ts_run_app, Hs0 in Hs. cbn in Hs.
      destruct (IH s0 Hs0) as [IH1 IH2]. pose proof (tc_ok_spec E _ _ _ Hr Hok) as Hcok.
      assert (forall j, ts_known s j -> log_new (L ++ [EvCall i c]) j) as Hk1.
      { intros j Hj. rewrite log_new_app, log_new_call. apply (ts_call_known i s0 c s j) in Hj; [|done|].
        - destruct Hj as [[? ->]|Hj]; [by right|left; by apply IH1].
        - intros k n ->. cbn in Hcok. right. apply Hcok. }
      split; [done|]. intros x j Hin Hnn.
      assert (forall y, y ∈ ts_del s0 -> y ∈ ts_del s) as Hmono.
      { intros y Hy. revert Hs. clear -Hy. destruct c; cbn; try (by intros [= <-]).
        - destruct (ts_res s0 !! i0) as [[v|]|]; try done. case_decide; [|done]. by intros [= <-].
        - destruct (ts_new s0 !! i0); [by intros [= <-]|]. destruct (ts_res s0 !! i0); intros [= <-]; [done|].
          cbn. case_decide; [done|]. apply elem_of_app. by left.
        - destruct (ts_new s0 !! i0); [|by intros [= <-]]. destruct (f _); [|done]. by intros [= <-].
        - destruct (ts_new s0 !! i0); [|by intros [= <-]]. destruct (f _); [|done]. by intros [= <-]. }
      rewrite log_new_app in Hnn. apply elem_of_app in Hin as [Hin|Hin].
      + apply Hmono. eapply IH2; [done|]. tauto.
      + apply elem_of_list_singleton in Hin as [= <- <-]. cbn in Hs.
        assert (~ ts_known s0 x) as Hnk. { intros Hk. apply Hnn. left. by apply IH1. }
        destruct (ts_new s0 !! x) eqn:Hn; [exfalso; apply Hnk; left; by rewrite Hn|].
        destruct (ts_res s0 !! x) eqn:Hrs; [exfalso; apply Hnk; right; by rewrite Hrs|].
        injection Hs as <-. cbn. case_decide; [done|]. apply elem_of_app. right. apply elem_of_list_singleton. done.
    - destruct (t_hist_rep E _ _ _ _ Hh) as (s0&Hs0&Hr&_). rewrite ts_run_app, Hs0 in Hs. cbn in Hs. injection Hs as <-.
      destruct (IH s0 Hs0) as [IH1 IH2]. split.
      + intros i [Hi|Hi]; cbn in Hi; rewrite log_new_app, log_new_merge.
        * apply lookup_union_is_Some in Hi as [Hi|Hi]; [by right|left; apply IH1; by left].
        * left. apply IH1. by right.
      + intros x j. rewrite log_new_app, elem_of_app, elem_of_list_singleton. intros [Hin|[=]] Hnn. cbn.
        eapply IH2; [done|]. tauto.
  Qed.

  (** an index given to the transaction is not in the graph *)
  Lemma pair_log_new T g t L i : pair_log E T g t L -> log_new L i -> graph_get g i = None.
  Proof.
    intros (w&lg&kg&k&c&Hl&Hg&Ht&<-) Hi. destruct (graph_get g i) as [n|] eqn:Hgi; [|done].
    destruct (lreach_oinv T w lg Hl k c t i Ht Hi) as [_ Ho].
    assert (inl kg = inr k :> nat + nat) as ?; [|done]. apply Ho. exists g. split; [done|]. by eapply arena_get_dispatch.
  Qed.
  (** what the calls add up to and the graph have no node in common *)
  Lemma pair_log_removes T g t L s x j : pair_log E T g t L -> ts_run ts_empty L = Some s ->
    EvCall j (CRemove x) ∈ L -> is_Some (graph_get g x) -> x ∈ ts_del s.
  Proof.
    intros Hp Hs Hin [n Hx]. pose proof Hp as (w&lg&kg&k&c&Hl&Hg&Ht&HL).
    destruct (lreach_inv E T w lg Hl) as [_ [_ Hts]]. destruct (Hts k c t Ht) as (u&cnt&_&Hh). rewrite HL in Hh.
    destruct (t_hist_log u cnt t L s Hh Hs) as [_ H]. eapply H; [done|]. intros Hn.
    rewrite (pair_log_new T g t L x Hp Hn) in Hx. done.
  Qed.
End owner.
