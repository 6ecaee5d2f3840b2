(** * The inverse of a renaming *)
From stdpp Require Export gmap.
From stdpp Require Import countable.
From Verif Require Export Rename.

Section back.
  Context {D : Type} (f : idx -> idx) (Hf : renaming f).
  Implicit Types (n : node D).

  Definition finv (y : idx) : idx := choose (fun x => y = f x) (rn_sur f Hf y).
  Lemma f_finv y : f (finv y) = y.
  Proof. symmetry. apply (choose_correct (fun x => y = f x)). Qed.
  Lemma finv_f x : finv (f x) = x.
  Proof. apply (rn_inj f Hf), f_finv. Qed.
  Lemma finv_fmap (l : list idx) : finv <$> (f <$> l) = l.
  Proof. rewrite <- list_fmap_compose. rewrite <- (list_fmap_id l) at 2. apply list_fmap_ext. intros ? x _. apply finv_f. Qed.
  Lemma f_fmap_finv (l : list idx) : f <$> (finv <$> l) = l.
  Proof. rewrite <- list_fmap_compose. rewrite <- (list_fmap_id l) at 2. apply list_fmap_ext. intros ? x _. apply f_finv. Qed.
  Lemma finv_renaming : renaming finv.
  Proof.
    split.
    - intros x y H. by rewrite <- (f_finv x), <- (f_finv y), H.
    - intros y. exists (f y). by rewrite finv_f.
    - rewrite <- (rn_zero f Hf) at 1. apply finv_f.
  Qed.
  Lemma lv_renamed_back lv lv' : lv_renamed f lv lv' <-> lv_renamed finv lv' lv.
  Proof.
    destruct lv as [i|k l|l], lv' as [i'|k' l'|l']; cbn; try done.
    - split; [intros ->; by rewrite finv_f|intros ->; by rewrite f_finv].
    - split; intros [H1 H2]; (split; [done|]); rewrite H2; [by rewrite finv_fmap|by rewrite f_fmap_finv].
    - split; intros ->; [by rewrite finv_fmap|by rewrite f_fmap_finv].
  Qed.
  Lemma renamed_back n n' : renamed f n n' <-> renamed finv n' n.
  Proof.
    unfold renamed. split; intros (H1&H2&H3); (split; [done|]; split; [done|]); apply Forall2_flip; eapply Forall2_impl; try exact H3; intros lv lv'; apply lv_renamed_back.
  Qed.
  Lemma mut_renamed_back (h h' : node D -> out (node D) unit) : mut_renamed f h h' -> mut_renamed finv h' h.
  Proof. intros H n' n b a Hn Hb Ha. apply renamed_back. apply renamed_back in Hn. by eapply H. Qed.
  Lemma upd_renamed_back (h h' : node D -> res (node D)) : upd_renamed f h h' -> upd_renamed finv h' h.
  Proof. intros H n' n b a Hn Hb Ha. apply renamed_back. apply renamed_back in Hn. by eapply H. Qed.
  Lemma op_renamed_back (o o' : op (D:=D)) : op_renamed f o o' -> op_renamed finv o' o.
  Proof.
    destruct o, o'; cbn; try done; intros H; destruct_and?; subst; rewrite ?finv_f; repeat match goal with |- _ /\ _ => split end; try done;
      try (by apply renamed_back); try (by apply mut_renamed_back); by apply upd_renamed_back.
  Qed.
  Lemma op_renamed_named (o o' : op (D:=D)) : op_renamed f o o' -> graphs_named o' = graphs_named o /\ trans_named o' = trans_named o.
  Proof. destruct o, o'; cbn; try done; intros H; destruct_and?; by subst. Qed.
  Lemma one_side_back G K (os os' : list (op (D:=D))) : Forall (one_side G K) os ->
    Forall2 (op_renamed f) (filter (fun o => touches G K o = true) os) (filter (fun o => touches G K o = true) os') -> Forall (one_side G K) os'.
  Proof.
    intros Hos HF. apply Forall_forall. intros o' Ho' Ht.
    assert (o' ∈ filter (fun o => touches G K o = true) os') as Hin by by apply elem_of_list_filter.
    apply elem_of_list_lookup in Hin as [i Hi]. destruct (Forall2_lookup_r _ _ _ _ _ HF Hi) as (o&Ho&Hr).
    apply elem_of_list_lookup_2, elem_of_list_filter in Ho as [Hto Ho]. rewrite Forall_forall in Hos. specialize (Hos o Ho Hto).
    destruct (op_renamed_named o o' Hr) as [H1 H2]. unfold inside in *. by rewrite H1, H2.
  Qed.
End back.

Section both.
  Context {D : Type} (E : env) (T : Prop) (f : idx -> idx) (Hf : renaming f) (Hbf : bidi_fields E) (G K : nat -> bool).
  Theorem final_next_commits (os1 os2 : list (op (D:=D))) w1 w2 kg k c g t c' g' t' : (forall v l, e_chk E v l = false -> nonvec E l) -> (forall l v, length (opposites_on E l v) <= 1) ->
    runs E T os1 w1 -> runs E T os2 w2 -> e_dbg E = true \/ (forall k kg, OMerge k kg ∉ os1 ++ os2) -> Forall (one_side G K) os1 ->
    Forall2 (op_renamed f) (filter (fun o => touches G K o = true) os1) (filter (fun o => touches G K o = true) os2) -> G kg = true -> K k = true ->
    w_graphs w1 !! kg = Some (c, g) -> w_trans w1 !! k = Some (c, t) -> w_graphs w2 !! kg = Some (c', g') -> w_trans w2 !! k = Some (c', t') ->
    Forall2 (fun a b => forall n n', renamed f n n' -> (exists x, a.2 n = Done x tt) <-> exists y, b.2 n' = Done y tt) (t_mut t) (t_mut t') ->
    Forall2 (fun a b => forall n n', renamed f n n' -> (exists x, a.2 n = Ok x) <-> exists y, b.2 n' = Ok y) (t_upd t) (t_upd t') ->
    (exists g1, commit E t g = Done g1 tt) <-> exists g1', commit E t' g' = Done g1' tt.
  Proof using Hf Hbf.
    intros Hcv Hone Hr1 Hr2 Hd Hp Heq HG HK Hg Ht Hg' Ht' Hm Hu. split.
    - intros [g1 Hc]. eapply (final_next_commit E T f Hf Hbf G K os1 w1 os2 w2 kg k c g t c' g' t' g1); try done.
      + eapply Forall2_impl; [exact Hm|]. intros a b H n n' x Hn Hx. apply (H n n' Hn). by exists x.
      + eapply Forall2_impl; [exact Hu|]. intros a b H n n' x Hn Hx. apply (H n n' Hn). by exists x.
    - intros [g1' Hc]. eapply (final_next_commit E T (finv f Hf) (finv_renaming f Hf) Hbf G K os2 w2 os1 w1 kg k c' g' t' c g t g1'); try done.
      + destruct Hd as [Hd|Hd]; [by left|right]. intros k0 kg0 Hin. apply (Hd k0 kg0). rewrite elem_of_app in Hin |- *. tauto.
      + by eapply one_side_back.
      + apply Forall2_flip. eapply Forall2_impl; [exact Heq|]. intros o o'. apply op_renamed_back.
      + apply Forall2_flip. eapply Forall2_impl; [exact Hm|]. intros a b H n' n x Hn Hx. apply (H n n'); [by apply (renamed_back f Hf)|by exists x].
      + apply Forall2_flip. eapply Forall2_impl; [exact Hu|]. intros a b H n' n x Hn Hx. apply (H n n'); [by apply (renamed_back f Hf)|by exists x].
  Qed.

  (** calls on transactions *)
  Definition call_follows (c c' : tcall D) : Prop :=
    match c, c' with
    | CMutate _ h, CMutate _ h' => forall n n', renamed f n n' -> (exists x, h n = Done x tt) <-> exists y, h' n' = Done y tt
    | CUpdate _ h, CUpdate _ h' => forall n n', renamed f n n' -> (exists x, h n = Ok x) <-> exists y, h' n' = Ok y
    | _, _ => True
    end.
  Lemma ts_call_renamed i i' (s s' : tspec D) c c' : ts_renamed f s s' -> call_renamed f c c' -> call_follows c c' ->
    is_Some (ts_call i s c) <-> is_Some (ts_call i' s' c').
  Proof using.
    intros [] Hc Hfo. destruct c as [n|v| |j n|j n|j|j h|j h|o z|o z], c' as [n'|v'| |j' n'|j' n'|j'|j' h'|j' h'|o' z'|o' z']; cbn in Hc, Hfo |- *; try done; try (split; intros _; by eexists).
    - destruct Hc as [-> Hn]. rewrite tr_res, <- (proj1 Hn). destruct (ts_res s !! j) as [[v|]|]; try done. destruct (decide _); [|done]. split; intros _; by eexists.
    - repeat case_match; split; intros _; by eexists.
    - destruct Hc as [-> _]. destruct (tr_new j) as [a b Hab|]; [|split; intros _; by eexists]. specialize (Hfo a b Hab).
      destruct (h a) as [x []|], (h' b) as [y []|]; [split; intros _; by eexists| | |done].
      + destruct Hfo as [H _]. destruct H as [? ?]; [by eexists|done].
      + destruct Hfo as [_ H]. destruct H as [? ?]; [by eexists|done].
    - destruct Hc as [-> _]. destruct (tr_new j) as [a b Hab|]; [|split; intros _; by eexists]. specialize (Hfo a b Hab).
      destruct (h a) as [x|], (h' b) as [y|]; [split; intros _; by eexists| | |done].
      + destruct Hfo as [H _]. destruct H as [? ?]; [by eexists|done].
      + destruct Hfo as [_ H]. destruct H as [? ?]; [by eexists|done].
  Qed.
  Lemma open_returns cnt (t : trans D) L (c : tcall D) s i0 : open_trans E T cnt t L -> ts_run ts_empty L = Some s -> tc_ok E t c -> (allocates c = true -> cnt + 1 < usize_mod)%N ->
    (exists r i, tc_run E c (cnt, t) = Done r i) <-> is_Some (ts_call i0 s c).
  Proof using.
    intros Ho Hs Hok Hb. pose proof (open_call E T cnt t L c s Ho Hs Hok Hb) as H.
    assert (forall i j, is_Some (ts_call i s c) -> is_Some (ts_call j s c)) as Hij.
    { intros i j. destruct c; cbn; repeat case_match; intros Hx; first [exact Hx|by eexists]. }
    destruct (tc_run E c (cnt, t)) as [[cnt' t'] i|p [cnt' t']].
    - split; [intros _|eauto]. destruct H as (s'&H&_). apply (Hij i). by eexists.
    - split; [by intros (?&?&?)|]. intros Hx. destruct H as [H _]. rewrite (H i0) in Hx. by destruct Hx.
  Qed.
  Theorem final_next_call (os1 os2 : list (op (D:=D))) w1 w2 k c t u cnt c' t' u' cnt' (cl cl' : tcall D) :
    runs E T os1 w1 -> runs E T os2 w2 -> e_dbg E = true \/ (forall k kg, OMerge k kg ∉ os1 ++ os2) -> Forall (one_side G K) os1 ->
    Forall2 (op_renamed f) (filter (fun o => touches G K o = true) os1) (filter (fun o => touches G K o = true) os2) -> K k = true ->
    w_trans w1 !! k = Some (c, t) -> w_ctx w1 !! c = Some (u, cnt) -> w_trans w2 !! k = Some (c', t') -> w_ctx w2 !! c' = Some (u', cnt') ->
    call_renamed f cl cl' -> call_follows cl cl' -> tc_ok E t cl -> tc_ok E t' cl' -> (allocates cl = true -> cnt + 1 < usize_mod /\ cnt' + 1 < usize_mod)%N ->
    (exists r i, tc_run E cl (cnt, t) = Done r i) <-> exists r i, tc_run E cl' (cnt', t') = Done r i.
  Proof using Hf Hbf.
    intros Hr1 Hr2 Hd Hp Heq HK Ht Hc Ht' Hc' Hcr Hcf Hok Hok' Hb.
    destruct (runs_logs E T f Hf Hbf G K os1 w1 os2 w2 Hr1 Hr2 Hd Hp Heq) as (lg1&lg2&Hl1&Hl2&[_ _ V3]).
    destruct (lreach_trans_is E T _ _ _ _ _ Hl1 Ht) as (s&Hs&_), (lreach_trans_is E T _ _ _ _ _ Hl2 Ht') as (s'&Hs'&_).
    assert (ts_renamed f s s') as Hts by (eapply ts_run_renamed; [done|by apply V3|apply ts_renamed_empty|exact Hs|exact Hs']).
    assert (allocates cl' = allocates cl) as Hal by by destruct cl, cl'.
    rewrite (open_returns cnt t (lg1 k) cl s 0%N); [|by exists w1, lg1, k, c, u|done|done|intros H; by apply Hb].
    rewrite (open_returns cnt' t' (lg2 k) cl' s' 0%N); [|by exists w2, lg2, k, c', u'|done|done|rewrite Hal; intros H; by apply Hb].
    by apply ts_call_renamed.
  Qed.
End both.
