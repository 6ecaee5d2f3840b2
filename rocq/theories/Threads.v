(** * Programs whose parts share nothing but contexts *)
From stdpp Require Export gmap.
From Verif Require Export OrderHist Hist.

Section keys.
  Context {D : Type}.
  Implicit Types o : op (D:=D).

  (** the graphs and transactions a call names *)
  Definition graphs_named o : list nat :=
    match o with
    | ONewGraph kg _ | OMerge _ kg | ODropGraph kg | OCommit kg _ | OCommitChecked kg _ _ | OCommitPanic kg _ _ | OSwitch kg _ | ODeser kg _ => [kg]
    | _ => []
    end.
  Definition trans_named o : list nat :=
    match o with
    | ONewTrans k _ | OInsert k _ _ | OAlloc k _ _ | OAllocUntyped k _ | OFill k _ _ | OFillUntyped k _ _ | ORemove k _ | OMutate k _ _ | OUpdate k _ _
    | ORedirect k _ _ | ORedirectAll k _ _ | OMerge k _ | OGiveUp k | OCommit _ k | OCommitChecked _ k _ | OCommitPanic _ k _ => [k]
    | _ => []
    end.
  (** calls that return a new index *)
  Definition returns_index o : bool := match o with OInsert _ _ _ | OAlloc _ _ _ | OAllocUntyped _ _ => true | _ => false end.
  (** calls that make a context *)
  Definition makes_ctx o : bool := match o with ONewCtx _ | ODeser _ _ => true | _ => false end.
  (** the context whose indices a call uses up *)
  Definition draws (w : world (D:=D)) o (c : nat) : Prop :=
    match o with
    | OSwitch _ c' => c' = c
    | OInsert k _ _ | OAlloc k _ _ | OAllocUntyped k _ => exists t, w_trans w !! k = Some (c, t)
    | _ => False
    end.

  (** what can be seen through some graphs [G], transactions [K] and contexts [C] *)
  Record same_view (G K C : nat -> Prop) (w1 w2 : world (D:=D)) : Prop := {
    sv_ids : (w_ctx w1).*1 = (w_ctx w2).*1;
    sv_cnt : forall c, C c -> w_ctx w1 !! c = w_ctx w2 !! c;
    sv_graphs : forall kg, G kg -> w_graphs w1 !! kg = w_graphs w2 !! kg;
    sv_trans : forall k, K k -> w_trans w1 !! k = w_trans w2 !! k }.
  Lemma sv_refl G K C w : same_view G K C w w.
  Proof. by split. Qed.
  Lemma sv_sym G K C w1 w2 : same_view G K C w1 w2 -> same_view G K C w2 w1.
  Proof. intros [H1 H2 H3 H4]. split; [done|intros; symmetry; auto..]. Qed.
  Lemma sv_tr G K C w1 w2 w3 : same_view G K C w1 w2 -> same_view G K C w2 w3 -> same_view G K C w1 w3.
  Proof. intros [H1 H2 H3 H4] [K1 K2 K3 K4]. split; [congruence|..]; intros x Hx; [by rewrite H2, K2|by rewrite H3, K3|by rewrite H4, K4]. Qed.
End keys.

Section answers.
  Context {D : Type} (E : env).
  Implicit Types w : world (D:=D).

  Lemma alloc_ret cnt cnt' i : (cnt + 1 < usize_mod)%N -> dist_alloc (e_dbg E) cnt = Done cnt' i -> i = (cnt + 1)%N.
  Proof using. intros Hlt H. rewrite dist_alloc_ok in H by done. congruence. Qed.
  Lemma insert_ret n cnt t cnt' t' i : (cnt + 1 < usize_mod)%N -> trans_insert (D:=D) E n (cnt, t) = Done (cnt', t') i -> i = (cnt + 1)%N.
  Proof using.
    intros Hlt. unfold trans_insert, arena_insert, arena_alloc. rewrite dist_alloc_ok by done.
    repeat case_match; naive_solver.
  Qed.
  Lemma talloc_ret d cnt t cnt' t' i : (cnt + 1 < usize_mod)%N -> trans_alloc (D:=D) E d (cnt, t) = Done (cnt', t') i -> i = (cnt + 1)%N.
  Proof using. intros Hlt. unfold trans_alloc, arena_alloc. rewrite dist_alloc_ok by done. repeat case_match; naive_solver. Qed.
  Lemma tallocu_ret cnt t cnt' t' i : (cnt + 1 < usize_mod)%N -> trans_alloc_untyped (D:=D) E (cnt, t) = Done (cnt', t') i -> i = (cnt + 1)%N.
  Proof using. intros Hlt. unfold trans_alloc_untyped, arena_alloc_untyped. rewrite dist_alloc_ok by done. repeat case_match; naive_solver. Qed.

  Lemma ids_set (l : list (N * idx)) c u cnt cnt' : l !! c = Some (u, cnt) -> (<[c := (u, cnt')]> l).*1 = l.*1.
  Proof using. intros H. rewrite list_fmap_insert. apply list_insert_id. by rewrite list_lookup_fmap, H. Qed.
  Lemma ids_look w1 w2 c u cnt : (w_ctx w1).*1 = (w_ctx w2).*1 -> w_ctx w1 !! c = Some (u, cnt) -> exists cnt2, w_ctx w2 !! c = Some (u, cnt2).
  Proof using.
    intros He H. assert ((w_ctx w2).*1 !! c = Some u) as Hc by (rewrite <- He, list_lookup_fmap, H; done).
    rewrite list_lookup_fmap in Hc. destruct (w_ctx w2 !! c) as [[u2 cnt2]|]; [|done]. injection Hc as ->. by exists cnt2.
  Qed.
End answers.

Section threads.
  Context {D : Type} (E : env) (T : Prop) (G K C : nat -> Prop).
  Implicit Types (o : op (D:=D)) (w : world (D:=D)).
  Local Notation view := (same_view G K C).

  (** ** A call changes nothing it does not name *)
  Lemma step_frame w o w' : step E T w o w' -> makes_ctx o = false ->
    (forall kg, kg ∈ graphs_named o -> ~ G kg) -> (forall k, k ∈ trans_named o -> ~ K k) -> (forall c, draws w o c -> ~ C c) -> view w w'.
  Proof using.
    intros Hs Hm HG HK HC.
    assert (forall kg (cg : nat * graph D) (m : gmap nat (nat * graph D)) kg', ~ G kg -> G kg' -> m !! kg' = <[kg := cg]> m !! kg') as Hg.
    { intros kg cg m kg' Hn Hy. rewrite lookup_insert_ne; [done|]. by intros ->. }
    assert (forall kg (m : gmap nat (nat * graph D)) kg', ~ G kg -> G kg' -> m !! kg' = delete kg m !! kg') as Hgd.
    { intros kg m kg' Hn Hy. rewrite lookup_delete_ne; [done|]. by intros ->. }
    assert (forall k (ct : nat * trans D) (m : gmap nat (nat * trans D)) k', ~ K k -> K k' -> m !! k' = <[k := ct]> m !! k') as Hk.
    { intros k ct m k' Hn Hy. rewrite lookup_insert_ne; [done|]. by intros ->. }
    assert (forall k (m : gmap nat (nat * trans D)) k', ~ K k -> K k' -> m !! k' = delete k m !! k') as Hkd.
    { intros k m k' Hn Hy. rewrite lookup_delete_ne; [done|]. by intros ->. }
    assert (forall (l : list (N * idx)) c x c', ~ C c -> C c' -> l !! c' = <[c := x]> l !! c') as Hc.
    { intros l c x c' Hn Hy. rewrite list_lookup_insert_ne; [done|]. by intros ->. }
    destruct Hs; try discriminate Hm; cbn in HG, HK, HC; split; cbn; try done; try (symmetry; by eapply ids_set);
      intros; first [apply Hg|apply Hgd|apply Hk|apply Hkd|apply Hc]; try done;
      first [apply HG; left|apply HK; left|apply HC; by eauto].
  Qed.

  (** ** A call depends on nothing else *)
  Definition inside o : Prop :=
    (forall kg, kg ∈ graphs_named o -> G kg) /\ (forall k, k ∈ trans_named o -> K k).

  Lemma sv_set_g w1 w2 kg cg : view w1 w2 -> view (set_g w1 kg cg) (set_g w2 kg cg).
  Proof using.
    intros [H1 H2 H3 H4]. split; cbn; try done. intros kg' Hk. destruct (decide (kg = kg')) as [->|Hn]; [by rewrite !lookup_insert|].
    rewrite !lookup_insert_ne by done. by apply H3.
  Qed.
  Lemma sv_del_g w1 w2 kg : view w1 w2 -> view (del_g w1 kg) (del_g w2 kg).
  Proof using.
    intros [H1 H2 H3 H4]. split; cbn; try done. intros kg' Hk. destruct (decide (kg = kg')) as [->|Hn]; [by rewrite !lookup_delete|].
    rewrite !lookup_delete_ne by done. by apply H3.
  Qed.
  Lemma sv_set_t w1 w2 kg cg : view w1 w2 -> view (set_t w1 kg cg) (set_t w2 kg cg).
  Proof using.
    intros [H1 H2 H3 H4]. split; cbn; try done. intros kg' Hk. destruct (decide (kg = kg')) as [->|Hn]; [by rewrite !lookup_insert|].
    rewrite !lookup_insert_ne by done. by apply H4.
  Qed.
  Lemma sv_del_t w1 w2 kg : view w1 w2 -> view (del_t w1 kg) (del_t w2 kg).
  Proof using.
    intros [H1 H2 H3 H4]. split; cbn; try done. intros kg' Hk. destruct (decide (kg = kg')) as [->|Hn]; [by rewrite !lookup_delete|].
    rewrite !lookup_delete_ne by done. by apply H4.
  Qed.
  Lemma sv_set_cnt w1 w2 c u cnt1 cnt2 cnt : view w1 w2 -> w_ctx w1 !! c = Some (u, cnt1) -> w_ctx w2 !! c = Some (u, cnt2) ->
    view (set_cnt w1 c u cnt) (set_cnt w2 c u cnt).
  Proof using.
    intros [H1 H2 H3 H4] Hc1 Hc2. split; cbn; try done. { by rewrite (ids_set _ c u cnt1), (ids_set _ c u cnt2). }
    intros c' HC'. destruct (decide (c = c')) as [->|Hn]; [|rewrite !list_lookup_insert_ne by done; by apply H2].
    rewrite !list_lookup_insert; [done|by eapply lookup_lt_Some..].
  Qed.

  (** the same call with the same answer, after two programs that look alike from here *)
  Lemma step_alike w1 w2 o w1' w2' : view w1 w2 -> inside o \/ makes_ctx o = true -> (forall kg c, o = OSwitch kg c -> C c) ->
    step E T w1 o w1' -> step E T w2 o w2' -> view w1' w2'.
  Proof using.
    intros Hv Hin Hsw H1 H2. pose proof Hv as [V1 V2 V3 V4].
    assert (forall k c1 t1 c2 t2, k ∈ trans_named o -> w_trans w1 !! k = Some (c1, t1) -> w_trans w2 !! k = Some (c2, t2) -> c1 = c2 /\ t1 = t2) as Ht.
    { intros k c1 t1 c2 t2 Hk Ht1 Ht2. destruct Hin as [[_ Hin]|Hin]; [|destruct o; try discriminate Hin; by apply elem_of_nil in Hk].
      rewrite (V4 k (Hin k Hk)), Ht2 in Ht1. by injection Ht1. }
    assert (forall kg c1 g1 c2 g2, makes_ctx o = false -> kg ∈ graphs_named o -> w_graphs w1 !! kg = Some (c1, g1) -> w_graphs w2 !! kg = Some (c2, g2) -> c1 = c2 /\ g1 = g2) as Hg.
    { intros kg c1 g1 c2 g2 Hm Hk Ht1 Ht2. destruct Hin as [[Hin _]|Hin]; [|congruence].
      rewrite (V3 kg (Hin kg Hk)), Ht2 in Ht1. by injection Ht1. }
    assert (forall c u1 cnt1 u2 cnt2, w_ctx w1 !! c = Some (u1, cnt1) -> w_ctx w2 !! c = Some (u2, cnt2) -> u1 = u2) as Hu.
    { intros c u1 cnt1 u2 cnt2 Hc1 Hc2. destruct (ids_look w1 w2 c u1 cnt1 V1 Hc1) as [x Hx]. congruence. }
    destruct H1 as [u|k c u cnt Hc|k c u cnt Hc|k n c u cnt t cnt' t' i Hk Hc Hn Hlt Hi|k d c u cnt t cnt' t' i Hk Hc Hlt Hi
      |k c u cnt t cnt' t' i Hk Hc Hlt Hi|k i n c t t' Hk Hn Hf|k i n c t t' Hk Hn Hin' Hf|k i c t Hk|k i f c t t' Hk Hf Hm|k i f c t t' Hk Hf Hm
      |k o z c t Hk Hz|k o z c t Hk Hz|k kg c t g t' Hk Hg1 Hm|k|kg|kg k c t g g' Hk Hg1 Hm|kg k chk0 c t g g' Hk Hg1 Hm|kg k p c t g g' Hk Hg1 Hm Hgd Hfl
      |kg c0 g c u cnt cnt' g' Hg1 Hc Hlt Hs|kg s cnt g Hall Hd]; inversion H2; subst; clear H2.
    - split; cbn; [by rewrite !fmap_app, V1| |done|done]. intros c HC.
      assert (length (w_ctx w1) = length (w_ctx w2)) as Hl by by rewrite <- (fmap_length fst (w_ctx w1)), V1, fmap_length.
      destruct (decide (c < length (w_ctx w1))) as [Hlt|Hge]; [rewrite !lookup_app_l by lia; by apply V2|].
      rewrite !lookup_app_r by lia. by rewrite Hl.
    - match goal with Hc2 : w_ctx w2 !! c = Some (?u2, _) |- _ => pose proof (Hu c _ _ _ _ Hc Hc2) as <- end. by apply sv_set_g.
    - match goal with Hc2 : w_ctx w2 !! c = Some (?u2, _) |- _ => pose proof (Hu c _ _ _ _ Hc Hc2) as <- end. by apply sv_set_t.
    - match goal with Hk2 : w_trans w2 !! k = Some (?c2, ?t2), Hl2 : (_ < usize_mod)%N, Hi2 : trans_insert E n (_, ?t2) = _ |- _ =>
        destruct (Ht k c t c2 t2) as [<- <-]; [left|done|done|]; assert (i = (cnt + 1)%N) as Hx by by eapply insert_ret end.
      match goal with Hi2 : trans_insert E n (?cnt2, t) = Done (?cnt2', ?t2') i, Hc2 : w_ctx w2 !! c = Some (?u2, ?cnt2), H1 : trans_insert E n (cnt, t) = _ |- _ =>
        assert (i = (cnt2 + 1)%N) as Hx2 by (eapply insert_ret; [|exact Hi2]; done);
        assert (cnt2 = cnt) as -> by lia; pose proof (Hu c _ _ _ _ Hc Hc2) as <-; rewrite Hi in Hi2; injection Hi2 as <- <- end.
      eapply sv_set_cnt; [by apply sv_set_t|done|done].
    - match goal with Hk2 : w_trans w2 !! k = Some (?c2, ?t2), Hi2 : trans_alloc E d (_, ?t2) = _ |- _ =>
        destruct (Ht k c t c2 t2) as [<- <-]; [left|done|done|]; assert (i = (cnt + 1)%N) as Hx by by eapply talloc_ret end.
      match goal with Hi2 : trans_alloc E d (?cnt2, t) = Done (?cnt2', ?t2') i, Hc2 : w_ctx w2 !! c = Some (?u2, ?cnt2), H1 : trans_alloc E d (cnt, t) = _ |- _ =>
        assert (i = (cnt2 + 1)%N) as Hx2 by (eapply talloc_ret; [|exact Hi2]; done);
        assert (cnt2 = cnt) as -> by lia; pose proof (Hu c _ _ _ _ Hc Hc2) as <-; rewrite Hi in Hi2; injection Hi2 as <- <- end.
      eapply sv_set_cnt; [by apply sv_set_t|done|done].
    - match goal with Hk2 : w_trans w2 !! k = Some (?c2, ?t2), Hi2 : trans_alloc_untyped E (_, ?t2) = _ |- _ =>
        destruct (Ht k c t c2 t2) as [<- <-]; [left|done|done|]; assert (i = (cnt + 1)%N) as Hx by by eapply tallocu_ret end.
      match goal with Hi2 : trans_alloc_untyped E (?cnt2, t) = Done (?cnt2', ?t2') i, Hc2 : w_ctx w2 !! c = Some (?u2, ?cnt2), H1 : trans_alloc_untyped E (cnt, t) = _ |- _ =>
        assert (i = (cnt2 + 1)%N) as Hx2 by (eapply tallocu_ret; [|exact Hi2]; done);
        assert (cnt2 = cnt) as -> by lia; pose proof (Hu c _ _ _ _ Hc Hc2) as <-; rewrite Hi in Hi2; injection Hi2 as <- <- end.
      eapply sv_set_cnt; [by apply sv_set_t|done|done].
    - match goal with Hk2 : w_trans w2 !! k = Some (?c2, ?t2) |- _ => destruct (Ht k c t c2 t2) as [<- <-]; [left|done|done|] end;
      repeat match goal with H1 : ?x = Done ?a tt, H2 : ?x = Done ?b tt |- _ => assert (b = a) as -> by congruence; clear H2 end; by apply sv_set_t.
    - match goal with Hk2 : w_trans w2 !! k = Some (?c2, ?t2) |- _ => destruct (Ht k c t c2 t2) as [<- <-]; [left|done|done|] end;
      repeat match goal with H1 : ?x = Done ?a tt, H2 : ?x = Done ?b tt |- _ => assert (b = a) as -> by congruence; clear H2 end; by apply sv_set_t.
    - match goal with Hk2 : w_trans w2 !! k = Some (?c2, ?t2) |- _ => destruct (Ht k c t c2 t2) as [<- <-]; [left|done|done|] end;
      repeat match goal with H1 : ?x = Done ?a tt, H2 : ?x = Done ?b tt |- _ => assert (b = a) as -> by congruence; clear H2 end; by apply sv_set_t.
    - match goal with Hk2 : w_trans w2 !! k = Some (?c2, ?t2) |- _ => destruct (Ht k c t c2 t2) as [<- <-]; [left|done|done|] end;
      repeat match goal with H1 : ?x = Done ?a tt, H2 : ?x = Done ?b tt |- _ => assert (b = a) as -> by congruence; clear H2 end; by apply sv_set_t.
    - match goal with Hk2 : w_trans w2 !! k = Some (?c2, ?t2) |- _ => destruct (Ht k c t c2 t2) as [<- <-]; [left|done|done|] end;
      repeat match goal with H1 : ?x = Done ?a tt, H2 : ?x = Done ?b tt |- _ => assert (b = a) as -> by congruence; clear H2 end; by apply sv_set_t.
    - match goal with Hk2 : w_trans w2 !! k = Some (?c2, ?t2) |- _ => destruct (Ht k c t c2 t2) as [<- <-]; [left|done|done|] end;
      repeat match goal with H1 : ?x = Done ?a tt, H2 : ?x = Done ?b tt |- _ => assert (b = a) as -> by congruence; clear H2 end; by apply sv_set_t.
    - match goal with Hk2 : w_trans w2 !! k = Some (?c2, ?t2) |- _ => destruct (Ht k c t c2 t2) as [<- <-]; [left|done|done|] end;
      repeat match goal with H1 : ?x = Done ?a tt, H2 : ?x = Done ?b tt |- _ => assert (b = a) as -> by congruence; clear H2 end; by apply sv_set_t.
    - match goal with Hk2 : w_trans w2 !! k = Some (?c2, ?t2), Hg2 : w_graphs w2 !! kg = Some (_, ?g2) |- _ =>
        destruct (Ht k c t c2 t2) as [<- <-]; [left|done|done|]; destruct (Hg kg c g c g2) as [_ <-]; [done|left|done|done|] end.
      match goal with H1 : ?x = Done ?a tt, H2 : ?x = Done ?b tt |- _ => assert (b = a) as -> by congruence; clear H2 end. by apply sv_del_g, sv_set_t.
    - by apply sv_del_t.
    - by apply sv_del_g.
    - match goal with Hk2 : w_trans w2 !! k = Some (?c2, ?t2), Hg2 : w_graphs w2 !! kg = Some (_, ?g2) |- _ =>
        destruct (Ht k c t c2 t2) as [<- <-]; [left|done|done|]; destruct (Hg kg c g c g2) as [_ <-]; [done|left|done|done|] end;
      match goal with |- view (set_g (del_t _ _) _ (_, ?a)) (set_g (del_t _ _) _ (_, ?b)) => assert (b = a) as -> by congruence end; by apply sv_set_g, sv_del_t.
    - match goal with Hk2 : w_trans w2 !! k = Some (?c2, ?t2), Hg2 : w_graphs w2 !! kg = Some (_, ?g2) |- _ =>
        destruct (Ht k c t c2 t2) as [<- <-]; [left|done|done|]; destruct (Hg kg c g c g2) as [_ <-]; [done|left|done|done|] end;
      match goal with |- view (set_g (del_t _ _) _ (_, ?a)) (set_g (del_t _ _) _ (_, ?b)) => assert (b = a) as -> by congruence end; by apply sv_set_g, sv_del_t.
    - match goal with Hk2 : w_trans w2 !! k = Some (?c2, ?t2), Hg2 : w_graphs w2 !! kg = Some (_, ?g2) |- _ =>
        destruct (Ht k c t c2 t2) as [<- <-]; [left|done|done|]; destruct (Hg kg c g c g2) as [_ <-]; [done|left|done|done|] end;
      match goal with |- view (set_g (del_t _ _) _ (_, ?a)) (set_g (del_t _ _) _ (_, ?b)) => assert (b = a) as -> by congruence end; by apply sv_set_g, sv_del_t.
    - match goal with Hg2 : w_graphs w2 !! kg = Some (?c2, ?g2), Hc2 : w_ctx w2 !! c = Some (?u2, ?cnt2) |- _ =>
        destruct (Hg kg c0 g c2 g2) as [<- <-]; [done|left|done|done|]; pose proof (Hsw kg c eq_refl) as HC; rewrite <- (V2 c HC), Hc in Hc2; injection Hc2 as <- <- end.
      match goal with H1 : switch_context E g u cnt = Done ?a ?b, H2 : switch_context E g u cnt = Done ?a' ?b' |- _ => assert (a' = a /\ b' = b) as [-> ->] by (split; congruence); clear H2 end.
      eapply sv_set_cnt; [by apply sv_set_g|done|]. cbn. by rewrite <- (V2 c HC).
    - match goal with H1 : deserialize_graph E s = Ok (?a, ?b), H2 : deserialize_graph E s = Ok (?a', ?b') |- _ => assert (a' = a /\ b' = b) as [-> ->] by (split; congruence); clear H2 end.
      assert (length (w_ctx w1) = length (w_ctx w2)) as Hl by by rewrite <- (fmap_length fst (w_ctx w1)), V1, fmap_length.
      split; cbn; [by rewrite !fmap_app, V1| | |done].
      + intros c HC. destruct (decide (c < length (w_ctx w1))) as [Hlt|Hge]; [rewrite !lookup_app_l by lia; by apply V2|].
        rewrite !lookup_app_r by lia. by rewrite Hl.
      + intros kg' Hk'. rewrite Hl. destruct (decide (kg = kg')) as [->|Hn]; [by rewrite !lookup_insert|]. rewrite !lookup_insert_ne by done. by apply V3.
  Qed.

  (** a call that has returned in one program returns in the other *)
  Lemma step_transfer w1 w2 o w1' : view w1 w2 -> inside o -> makes_ctx o = false -> (forall c, draws w1 o c -> C c) ->
    step E T w1 o w1' -> exists w2', step E T w2 o w2' /\ view w1' w2'.
  Proof using.
    intros Hv Hin Hmc Hdr Hs. assert (exists w2', step E T w2 o w2') as [w2' Hs2].
    2: { exists w2'. split; [done|]. apply (step_alike w1 w2 o); [done|by left| |done|done]. intros kg c ->. by apply Hdr. }
    pose proof Hv as [V1 V2 V3 V4]. destruct Hin as [HG HK].
    destruct Hs as [u|k c u cnt Hc|k c u cnt Hc|k n c u cnt t cnt' t' i Hk Hc Hn Hlt Hi|k d c u cnt t cnt' t' i Hk Hc Hlt Hi
      |k c u cnt t cnt' t' i Hk Hc Hlt Hi|k i n c t t' Hk Hn Hf|k i n c t t' Hk Hn Hin' Hf|k i c t Hk|k i f c t t' Hk Hf Hm|k i f c t t' Hk Hf Hm
      |k o z c t Hk Hz|k o z c t Hk Hz|k kg c t g t' Hk Hg1 Hm|k|kg|kg k c t g g' Hk Hg1 Hm|kg k chk0 c t g g' Hk Hg1 Hm|kg k p c t g g' Hk Hg1 Hm Hgd Hfl
      |kg c0 g c u cnt cnt' g' Hg1 Hc Hlt Hs|kg s cnt g Hall Hd]; try discriminate Hmc; cbn in HG, HK, Hdr;
      try (rewrite (V4 k) in Hk by (apply HK; left)); try (rewrite (V3 kg) in Hg1 by (apply HG; left));
      try (rewrite (V2 c) in Hc by (apply Hdr; rewrite <- ?(V4 k) in Hk by (apply HK; left); by eauto)).
    - destruct (ids_look w1 w2 c u cnt V1 Hc) as [cnt2 Hc2]. eexists. by eapply st_new_graph.
    - destruct (ids_look w1 w2 c u cnt V1 Hc) as [cnt2 Hc2]. eexists. by eapply st_new_trans.
    - eexists. by eapply st_insert.
    - eexists. by eapply st_alloc.
    - eexists. by eapply st_alloc_untyped.
    - eexists. by eapply st_fill.
    - eexists. by eapply st_fill_untyped.
    - eexists. by eapply st_remove.
    - eexists. by eapply st_mutate.
    - eexists. by eapply st_update.
    - eexists. by eapply st_redirect.
    - eexists. by eapply st_redirect_all.
    - eexists. by eapply st_merge.
    - eexists. by eapply st_give_up.
    - eexists. by eapply st_drop_graph.
    - eexists. by eapply st_commit.
    - eexists. by eapply st_commit_checked.
    - eexists. by eapply st_commit_panic.
    - rewrite (V2 c) in Hc by (by apply Hdr). eexists. by eapply st_switch.
  Qed.
End threads.

(** ** Two calls that name different things can be exchanged *)
Section swap.
  Context {D : Type} (E : env) (T : Prop).
  Implicit Types (x y o : op (D:=D)) (w : world (D:=D)).

  Lemma draws_dec w o c : draws w o c \/ ~ draws w o c.
  Proof using.
    destruct o; cbn; try (right; by intros ?);
      first [match goal with |- ?a = c \/ _ => destruct (decide (a = c)); [by left|by right] end|idtac].
    all: match goal with |- context [w_trans ?w !! ?k] => destruct (w_trans w !! k) as [[c' t]|] end; [|right; by intros [? ?]];
      destruct (decide (c' = c)) as [->|Hn]; [left; by exists t|right; intros [t' Ht]; congruence].
  Qed.
  Lemma draws_alike w w' o : (forall k, k ∈ trans_named o -> w_trans w !! k = w_trans w' !! k) -> forall c, draws w o c -> draws w' o c.
  Proof using. intros H c. destruct o; cbn in *; try done. all: intros [t Ht]; exists t; rewrite <- H; [done|left]. Qed.

  Record apart w x y : Prop := {
    ap_graphs : forall kg, kg ∈ graphs_named x -> kg ∉ graphs_named y;
    ap_trans : forall k, k ∈ trans_named x -> k ∉ trans_named y;
    ap_ctx : forall c, draws w x c -> ~ draws w y c }.
  Lemma apart_sym w x y : apart w x y -> apart w y x.
  Proof using. intros [H1 H2 H3]. split; intros z Hy Hx; [by eapply H1|by eapply H2|by eapply H3]. Qed.

  Lemma step_swap w x y w1 w2 : makes_ctx x = false -> makes_ctx y = false -> apart w x y ->
    step E T w x w1 -> step E T w1 y w2 -> exists w1', step E T w y w1' /\ step E T w1' x w2.
  Proof using.
    intros Hmx Hmy [HG HK HC] Hx Hy.
    set (V z := same_view (D:=D) (fun kg => kg ∈ graphs_named z) (fun k => k ∈ trans_named z) (draws w z)).
    assert (V y w w1) as F1 by (apply (step_frame E T _ _ _ w x); [done|done|naive_solver..]).
    assert (forall c, draws w1 y c -> draws w y c) as Dy by (apply draws_alike; intros k Hk; symmetry; by apply F1).
    destruct (step_transfer E T (fun kg => kg ∈ graphs_named y) (fun k => k ∈ trans_named y) (draws w y) w1 w y w2) as (w1'&Hy'&F2); [by apply sv_sym|by split|done|done|done|].
    assert (V x w w1') as F3 by (apply (step_frame E T _ _ _ w y); [done|done|naive_solver..]).
    destruct (step_transfer E T (fun kg => kg ∈ graphs_named x) (fun k => k ∈ trans_named x) (draws w x) w w1' x w1) as (w2'&Hx'&F4); [done|by split|done|done|done|].
    assert (forall c, draws w1' x c -> draws w x c) as Dx by (apply draws_alike; intros k Hk; symmetry; by apply F3).
    assert (V x w1 w2) as F5 by (apply (step_frame E T _ _ _ w1 y); [done|done|naive_solver..]).
    assert (V y w1' w2') as F6 by (apply (step_frame E T _ _ _ w1' x); [done|done|naive_solver..]).
    set (R := same_view (D:=D) (fun kg => kg ∉ graphs_named x /\ kg ∉ graphs_named y) (fun k => k ∉ trans_named x /\ k ∉ trans_named y) (fun c => ~ draws w x c /\ ~ draws w y c)).
    assert (R w w1) as R1 by (apply (step_frame E T _ _ _ w x); [done|done|naive_solver..]).
    assert (R w1 w2) as R2 by (apply (step_frame E T _ _ _ w1 y); [done|done|naive_solver..]).
    assert (R w w1') as R3 by (apply (step_frame E T _ _ _ w y); [done|done|naive_solver..]).
    assert (R w1' w2') as R4 by (apply (step_frame E T _ _ _ w1' x); [done|done|naive_solver..]).
    assert (V x w2 w2') as Vx by (eapply sv_tr; [apply sv_sym, F5|exact F4]).
    assert (V y w2 w2') as Vy by (eapply sv_tr; [exact F2|exact F6]).
    assert (R w2 w2') as Vr by (eapply sv_tr; [apply sv_sym; eapply sv_tr; [exact R1|exact R2]|eapply sv_tr; [exact R3|exact R4]]).
    exists w1'. split; [done|]. assert (w2 = w2') as ->; [|done].
    destruct w2 as [c2 g2 t2], w2' as [c2' g2' t2']. destruct Vx as [_ A1 A2 A3], Vy as [_ B1 B2 B3], Vr as [_ C1 C2 C3]. cbn in *. f_equal.
    - apply list_eq. intros c. destruct (draws_dec w x c); [by apply A1|]. destruct (draws_dec w y c); [by apply B1|by apply C1].
    - apply map_eq. intros kg. destruct (decide (kg ∈ graphs_named x)); [by apply A2|]. destruct (decide (kg ∈ graphs_named y)); [by apply B2|by apply C2].
    - apply map_eq. intros k. destruct (decide (k ∈ trans_named x)); [by apply A3|]. destruct (decide (k ∈ trans_named y)); [by apply B3|by apply C3].
  Qed.

  Lemma runs_snoc_inv os o w : runs E T (os ++ [o]) w -> exists w0, runs E T os w0 /\ step E T w0 o w.
  Proof using.
    intros H. inversion H as [He|os0 w0 o0 w' Hr Hs He]; [by destruct os|]. apply app_inj_tail in He as [-> ->]. by exists w0.
  Qed.
  Lemma runs_cont os os' l : (forall w, runs E T os w -> runs E T os' w) -> forall w, runs E T (os ++ l) w -> runs E T (os' ++ l) w.
  Proof using.
    intros H. induction l as [|o l IH] using rev_ind; intros w; [rewrite !app_nil_r; apply H|].
    rewrite !app_assoc. intros (w0&Hr&Hs)%runs_snoc_inv. eapply runs_snoc; [by apply IH|done].
  Qed.
  Lemma runs_swap os x y l w : makes_ctx x = false -> makes_ctx y = false -> (forall w0, runs E T os w0 -> apart w0 x y) ->
    runs E T (os ++ x :: y :: l) w -> runs E T (os ++ y :: x :: l) w.
  Proof using.
    intros Hx Hy Hap. change (x :: y :: l) with ([x; y] ++ l). change (y :: x :: l) with ([y; x] ++ l). rewrite !app_assoc. revert w. apply runs_cont.
    intros w. change [x; y] with ([x] ++ [y]). change [y; x] with ([y] ++ [x]). rewrite !app_assoc.
    intros (w1&(w0&Hr&Hs1)%runs_snoc_inv&Hs2)%runs_snoc_inv. destruct (step_swap w0 x y w1 w) as (w1'&Hs1'&Hs2'); [done|done|by apply Hap|done|done|].
    by do 2 (eapply runs_snoc; [|done]).
  Qed.
End swap.

(** ** Programs in two parts *)
Section parts.
  Context {D : Type} (E : env) (T : Prop) (G K C : nat -> bool).
  Implicit Types (o : op (D:=D)) (w : world (D:=D)).
  Local Notation on f := (fun x : nat => f x = true).
  Local Notation off f := (fun x : nat => f x = false).

  (** the calls of the first part, and all that make a context *)
  Definition ours o : bool := makes_ctx o || (forallb G (graphs_named o) && forallb K (trans_named o)).
  Definition theirs o : Prop := (forall kg, kg ∈ graphs_named o -> G kg = false) /\ (forall k, k ∈ trans_named o -> K k = false).

  (** every call belongs to one of the parts; the contexts [C] are used by the first part only,
      and it switches graphs only to these *)
  Definition parted o : Prop :=
    makes_ctx o = true \/
    (inside (on G) (on K) o /\ forall kg c, o = OSwitch kg c -> C c = true) \/
    (theirs o /\ (forall k c, o = ONewTrans k c -> C c = false) /\ (forall kg c, o = OSwitch kg c -> C c = false)).
  Lemma inside_ours o : inside (on G) (on K) o -> ours o = true.
  Proof using.
    intros [HG HK]. unfold ours. apply orb_true_iff. right. apply andb_true_iff. split; apply forallb_forall; intros x Hx%elem_of_list_In; [by apply HG|by apply HK].
  Qed.
  Lemma ours_inside o : ours o = true -> makes_ctx o = false -> inside (on G) (on K) o.
  Proof using.
    unfold ours. intros [H|[HG HK]%andb_true_iff]%orb_true_iff Hm; [congruence|]. rewrite forallb_forall in HG, HK.
    split; intros x Hx%elem_of_list_In; [by apply HG|by apply HK].
  Qed.
  Lemma theirs_ours o : theirs o -> makes_ctx o = false -> ours o = false.
  Proof using.
    intros [HG HK] Hm. destruct (ours o) eqn:Ho; [|done]. destruct (ours_inside o Ho Hm) as [HG' HK'].
    destruct o; cbn in *; try done; first [specialize (HG _ (elem_of_list_here _ _)); specialize (HG' _ (elem_of_list_here _ _))|specialize (HK _ (elem_of_list_here _ _)); specialize (HK' _ (elem_of_list_here _ _))]; congruence.
  Qed.

  (** a step keeps the contexts of transactions *)
  Lemma step_trans_ctx w o w' k c t : step E T w o w' -> w_trans w' !! k = Some (c, t) ->
    (exists t0, w_trans w !! k = Some (c, t0)) \/ o = ONewTrans k c.
  Proof using.
    intros Hs. destruct Hs; cbn; try (intros H'; left; by eauto);
      try (match goal with |- <[?k0 := _]> _ !! k = _ -> _ => destruct (decide (k0 = k)) as [->|Hn];
      [rewrite lookup_insert; intros [= <- <-]; first [left; by eauto|by right]|rewrite lookup_insert_ne by done; intros H'; left; by eauto] end);
      match goal with |- delete ?k0 _ !! k = _ -> _ => intros [_ H']%lookup_delete_Some; left; by eauto end.
  Qed.
  Lemma parted_ctx os w : runs E T os w -> Forall parted os -> forall k c t, w_trans w !! k = Some (c, t) -> K k = false -> C c = false.
  Proof using.
    induction 1 as [|os w o w' Hr IH Hs]; intros Hp k c t Hk HK; [by destruct (lookup_empty_Some k (c, t) Hk)|]. apply Forall_app in Hp as [Hp Ho]. rewrite Forall_singleton in Ho.
    destruct (step_trans_ctx w o w' k c t Hs Hk) as [[t0 Hk0]| ->]; [by eapply IH|].
    destruct Ho as [Ho|[[[_ Ho] _]|(_&Ho&_)]]; [done| |by eapply Ho]. cbn in Ho. specialize (Ho k (elem_of_list_here _ _)). congruence.
  Qed.

  Local Notation view := (same_view (on G) (on K) (on C)).
  Lemma theirs_frame os w o w' : runs E T os w -> Forall parted os -> parted o -> ours o = false -> step E T w o w' -> view w w'.
  Proof using.
    intros Hr Hp Ho Hu Hs. destruct Ho as [Ho|[[Ho _]|([HG HK]&Hn&Hsw)]]; [by unfold ours in Hu; rewrite Ho in Hu|by rewrite (inside_ours o Ho) in Hu|].
    apply (step_frame E T _ _ _ w o); [done| |..].
    - unfold ours in Hu. by apply orb_false_iff in Hu as [? _].
    - intros kg Hk Hg. specialize (HG kg Hk). congruence.
    - intros k Hk Hg. specialize (HK k Hk). congruence.
    - intros c Hd Hc. assert (C c = false); [|congruence]. destruct o; cbn in Hd, HK; try done.
      1-3: destruct Hd as [t Ht]; eapply (parted_ctx os w Hr Hp _ c t Ht), HK; left.
      subst. by eapply Hsw.
  Qed.

  Theorem final_parts os1 w1 : runs E T os1 w1 -> Forall parted os1 -> forall os2 w2, runs E T os2 w2 -> Forall parted os2 ->
    filter (fun o => ours o = true) os1 = filter (fun o => ours o = true) os2 -> view w1 w2.
  Proof using.
    induction 1 as [|os1 w1 o w1' Hr1 IH1 Hs1]; intros Hp1 os2 w2 Hr2.
    - induction Hr2 as [|os2 w2 o w2' Hr2 IH2 Hs2]; intros Hp2 Heq; [apply sv_refl|]. apply Forall_app in Hp2 as [Hp2 Ho2]. rewrite Forall_singleton in Ho2.
      rewrite filter_app in Heq. destruct (ours o) eqn:Hu; [rewrite (filter_cons_True _ o []) in Heq by done; cbn in Heq; symmetry in Heq; by apply app_eq_nil in Heq as [_ ?]|].
      rewrite (filter_cons_False _ o []) in Heq by (by rewrite Hu). cbn in Heq. rewrite ?filter_nil, app_nil_r in Heq.
      eapply sv_tr; [by apply IH2|]. by eapply theirs_frame.
    - apply Forall_app in Hp1 as [Hp1 Ho1]. rewrite Forall_singleton in Ho1. specialize (IH1 Hp1). destruct (ours o) eqn:Hu.
      2: { intros Hp2 Heq. rewrite filter_app, (filter_cons_False _ o []), filter_nil, app_nil_r in Heq by (by rewrite Hu).
           eapply sv_tr; [|by eapply (IH1 os2)]. apply sv_sym. by eapply theirs_frame. }
      rewrite filter_app, (filter_cons_True _ o []), filter_nil by done.
      induction Hr2 as [|os2 w2 o2 w2' Hr2 IH2 Hs2]; intros Hp2 Heq; [rewrite filter_nil in Heq; by apply app_eq_nil in Heq as [_ ?]|].
      apply Forall_app in Hp2 as [Hp2 Ho2]. rewrite Forall_singleton in Ho2. rewrite filter_app in Heq. destruct (ours o2) eqn:Hu2.
      + rewrite (filter_cons_True _ o2 []), filter_nil in Heq by done. apply app_inj_tail in Heq as [Heq ->].
        specialize (IH1 os2 w2 Hr2 Hp2 Heq). apply (step_alike E T _ _ _ w1 w2 o2); [done| | |done|done].
        * destruct (makes_ctx o2) eqn:Hm; [by right|left; by apply ours_inside].
        * intros kg c ->. destruct Ho1 as [Ho|[[_ Ho]|[Ho _]]]; [done|by eapply Ho|]. by rewrite (theirs_ours _ Ho) in Hu.
      + rewrite (filter_cons_False _ o2 []), filter_nil, app_nil_r in Heq by (by rewrite Hu2).
        eapply sv_tr; [by apply IH2|]. by eapply theirs_frame.
  Qed.

  Theorem final_parts_calls os1 w1 os2 w2 o : runs E T os1 w1 -> Forall parted os1 -> runs E T os2 w2 -> Forall parted os2 ->
    filter (fun o => ours o = true) os1 = filter (fun o => ours o = true) os2 ->
    inside (on G) (on K) o -> (forall kg c, o = OSwitch kg c -> C c = true) -> makes_ctx o = false -> returns_index o = false ->
    (exists w', step E T w1 o w') <-> exists w', step E T w2 o w'.
  Proof using.
    intros Hr1 Hp1 Hr2 Hp2 Heq Hin Hsw Hm Hri. pose proof (final_parts os1 w1 Hr1 Hp1 os2 w2 Hr2 Hp2 Heq) as Hv.
    assert (forall w c, draws w o c -> C c = true) as Hd. { intros w c. destruct o; cbn; try done. intros ->. by eapply Hsw. }
    split; intros [w' Hs].
    - destruct (step_transfer E T (on G) (on K) (on C) w1 w2 o w') as (w2'&?&_); [done|done|done|by apply Hd|done|by exists w2'].
    - destruct (step_transfer E T (on G) (on K) (on C) w2 w1 o w') as (w2'&?&_); [by apply sv_sym|done|done|by apply Hd|done|by exists w2'].
  Qed.
End parts.

(** ** Interleavings of any number of parts *)
Section many.
  Context {D : Type} (E : env) (T : Prop) (G K C : nat -> nat).
  Implicit Types (o : op (D:=D)) (w : world (D:=D)).

  (** the part a call belongs to *)
  Definition part_of o : nat :=
    match graphs_named o, trans_named o with kg :: _, _ => G kg | [], k :: _ => K k | [], [] => 0 end.
  (** a call of one part names nothing of another *)
  Definition in_part o : Prop :=
    makes_ctx o = false /\ (forall kg, kg ∈ graphs_named o -> G kg = part_of o) /\ (forall k, k ∈ trans_named o -> K k = part_of o) /\
    (forall k c, o = ONewTrans k c -> C c = part_of o) /\ (forall kg c, o = OSwitch kg c -> C c = part_of o).

  Lemma many_ctx os w : runs E T os w -> Forall (fun o => makes_ctx o = true \/ in_part o) os -> forall k c t, w_trans w !! k = Some (c, t) -> C c = K k.
  Proof using.
    induction 1 as [|os w o w' Hr IH Hs]; intros Hp k c t Hk; [by destruct (lookup_empty_Some k (c, t) Hk)|]. apply Forall_app in Hp as [Hp Ho]. rewrite Forall_singleton in Ho.
    destruct (step_trans_ctx E T w o w' k c t Hs Hk) as [[t0 Hk0]| ->]; [by eapply IH|].
    destruct Ho as [Ho|(_&_&_&Ho&_)]; [done|]. by rewrite (Ho k c eq_refl).
  Qed.
  Lemma many_draws os w o c : runs E T os w -> Forall (fun o => makes_ctx o = true \/ in_part o) os -> in_part o -> draws w o c -> C c = part_of o.
  Proof using.
    intros Hr Hp (_&_&HK&_&Hsw) Hd. destruct o; cbn in Hd; try done.
    1-3: destruct Hd as [t Ht]; rewrite (many_ctx os w Hr Hp _ c t Ht); apply HK; left. subst. by eapply Hsw.
  Qed.
  Lemma many_apart os w x y : runs E T os w -> Forall (fun o => makes_ctx o = true \/ in_part o) os -> in_part x -> in_part y ->
    part_of x <> part_of y -> apart w x y.
  Proof using.
    intros Hr Hp Hx Hy Hn. split.
    - intros kg H1 H2. apply Hn. destruct Hx as (_&Hx&_), Hy as (_&Hy&_). by rewrite <- (Hx kg H1), <- (Hy kg H2).
    - intros k H1 H2. apply Hn. destruct Hx as (_&_&Hx&_), Hy as (_&_&Hy&_). by rewrite <- (Hx k H1), <- (Hy k H2).
    - intros c H1 H2. apply Hn. by rewrite <- (many_draws os w x c Hr Hp Hx H1), <- (many_draws os w y c Hr Hp Hy H2).
  Qed.

  Definition calls_of (p : nat) (os : list (op (D:=D))) : list (op (D:=D)) := filter (fun o => part_of o = p) os.

  Lemma many_move pre l z rest w : Forall (fun o => makes_ctx o = true \/ in_part o) pre -> Forall in_part l -> in_part z -> Forall (fun o => part_of o <> part_of z) l ->
    runs E T (pre ++ l ++ z :: rest) w <-> runs E T (pre ++ z :: l ++ rest) w.
  Proof using.
    revert pre. induction l as [|x l IH]; intros pre Hp Hl Hz Hn; [done|].
    inversion Hl as [|?? Hx Hl']; subst. inversion Hn as [|?? Hnx Hn']; subst.
    assert (runs E T (pre ++ (x :: l) ++ z :: rest) w <-> runs E T ((pre ++ [x]) ++ z :: l ++ rest) w) as ->.
    { rewrite <- (IH (pre ++ [x])); [by rewrite <- app_assoc| |done..]. apply Forall_app. split; [done|]. apply Forall_singleton. by right. }
    rewrite <- app_assoc. cbn [app]. split; intros Hr; (apply runs_swap; [by destruct Hx, Hz|by destruct Hx, Hz| |done]); intros w0 Hr0; [|apply apart_sym]; by eapply many_apart.
  Qed.

  Theorem final_many pre os : forall os' w, Forall (fun o => makes_ctx o = true \/ in_part o) pre -> Forall in_part os -> Forall in_part os' ->
    (forall p, calls_of p os = calls_of p os') -> runs E T (pre ++ os) w <-> runs E T (pre ++ os') w.
  Proof using.
    revert pre. induction os as [|o os IH]; intros pre os' w Hp Ho Ho' Heq.
    - destruct os' as [|x os']; [done|]. specialize (Heq (part_of x)). unfold calls_of in Heq. by rewrite filter_nil, filter_cons_True in Heq.
    - inversion Ho as [|?? Ho1 Ho2]; subst. assert (exists l1 l2, os' = l1 ++ o :: l2 /\ Forall (fun x => part_of x <> part_of o) l1) as (l1&l2&->&Hl1).
      { pose proof (Heq (part_of o)) as H. unfold calls_of in H. rewrite filter_cons_True in H by done. clear Heq IH Ho' Ho2 Ho Hp.
        revert H. induction os' as [|x os' IH]; [by rewrite filter_nil|]. destruct (decide (part_of x = part_of o)) as [He|Hne].
        - rewrite (filter_cons_True _ x) by done. intros [= <- _]. by exists [], os'.
        - rewrite (filter_cons_False _ x) by done. intros (l1&l2&->&Hl)%IH. exists (x :: l1), l2. split; [done|]. by constructor. }
      apply Forall_app in Ho' as [Hl Ho']. inversion Ho' as [|?? _ Hl2]; subst. rewrite (many_move pre l1 o l2) by done.
      change (o :: os) with ([o] ++ os). change (o :: l1 ++ l2) with ([o] ++ l1 ++ l2). rewrite !(app_assoc pre). apply IH; [|done|by apply Forall_app|].
      + apply Forall_app. split; [done|]. apply Forall_singleton. by right.
      + intros p. specialize (Heq p). unfold calls_of in *. rewrite filter_app in *. destruct (decide (part_of o = p)) as [He|Hne].
        * rewrite (filter_cons_True _ o os), (filter_cons_True _ o l2) in Heq by done.
          assert (filter (fun x => part_of x = p) l1 = []) as Hnil.
          { clear -Hl1 He. induction Hl1 as [|x l1 Hx _ IH]; [done|]. rewrite filter_cons_False; [done|congruence]. }
          rewrite Hnil in *. cbn [app] in *. by injection Heq.
        * by rewrite (filter_cons_False _ o os), (filter_cons_False _ o l2) in Heq by done.
  Qed.
End many.
