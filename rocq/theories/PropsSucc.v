(** * The same calls succeed whatever order hash tables iterate in (C73) *)
From stdpp Require Export gmap.
From Verif Require Import SameSucc ExHist ExTrans PropsOrder PropsBidi PropsSame PropsAlike.

Section runs.
  Context {D : Type} (E E' : env) (T : Prop).
  Implicit Types (os : list (op (D:=D))).
  Lemma step_det (w w1 w2 : world (D:=D)) o : step E T w o w1 -> step E T w o w2 -> w1 = w2.
  Proof.
    intros H1 H2. destruct H1; inversion H2; subst; simplify_eq; try done;
      repeat match goal with Ha : ?x = Done _ _, Hb : ?x = Done _ _ |- _ => rewrite Ha in Hb; injection Hb; clear Hb; intros; subst end;
      repeat match goal with Ha : ?x = Panicked _ _, Hb : ?x = Panicked _ _ |- _ => rewrite Ha in Hb; injection Hb; clear Hb; intros; subst end;
      repeat match goal with Ha : ?x = Ok _, Hb : ?x = Ok _ |- _ => rewrite Ha in Hb; injection Hb; clear Hb; intros; subst end; done.
  Qed.
  Lemma runs_det os w w' : runs E T os w -> runs E T os w' -> w = w'.
  Proof.
    intros H. revert w'. induction H as [|os w o w1 Hr IH Hs]; intros w' H'.
    - inversion H' as [|os' ? ? ? ? ? Heq]; [done|]. by destruct os'.
    - inversion H' as [Heq|os' w0 o' ? Hr' Hs' Heq]; [by destruct os|]. apply app_inj_tail in Heq as [-> ->].
      rewrite <- (IH _ Hr') in Hs'. by eapply step_det.
  Qed.

  Lemma lruns_same os w lg : e_kinds E = e_kinds E' -> (forall l, e_opp E l = e_opp E' l) -> bidi_fields E ->
    (forall v l, e_chk E v l = e_chk E' v l) -> (forall v l, e_chk E v l = false -> nonvec E l) ->
    (forall l v, length (opposites_on E l v) <= 1) -> (e_dbg E' = true -> e_dbg E = true) ->
    T \/ no_switch os -> (forall o, o ∈ os -> op_same o) -> e_dbg E' = true \/ (forall k kg, OMerge k kg ∉ os) ->
    lruns E T os w lg -> log_same lg /\ exists w' lg', lruns E' T os w' lg' /\ listed_same w w'.
  Proof.
    intros Hk Ho Hbf Hck Hcv Hone Hdbg. revert w lg. induction os as [|o os IH] using rev_ind; intros w lg Hsw Hb Hm Hr.
    - apply lruns_nil_inv in Hr as [-> ->]. split; [by intros k e ?%elem_of_nil|]. exists world_new, (fun _ => []). split; [constructor|]. intros kg c c' g g'. done.
    - apply lruns_snoc_inv in Hr as (w0&lg0&Hr&Hs&Hcm&->).
      assert (T \/ no_switch os) as Hsw0. { destruct Hsw as [?|Hsw]; [by left|right]. intros kg c Hin. apply (Hsw kg c), elem_of_app. by left. }
      assert (forall o, o ∈ os -> op_same o) as Hb0 by (intros o1 Ho1; apply Hb, elem_of_app; by left).
      assert (op_same o) as Hbo by (apply Hb, elem_of_app; right; by left).
      assert (e_dbg E' = true \/ (forall k kg, OMerge k kg ∉ os)) as Hm0.
      { destruct Hm as [?|Hm]; [by left|right]. intros k kg Hin. apply (Hm k kg), elem_of_app. by left. }
      destruct (IH w0 lg0 Hsw0 Hb0 Hm0 Hr) as (Hls&w0'&lg0'&Hr'&Hli).
      split; [by apply log_same_step|].
      assert (no_caught_panic os) as Hn0 by (intros kg k p Hin; apply (Hb0 _ Hin)).
      pose proof (lruns_alike E E' T os w0 w0' lg0 lg0' Hk Ho Hbf Hn0 Hsw0 (fun o Hin => op_same_blind o (Hb0 o Hin)) Hr Hr') as Hw.
      destruct (step_same E E' Hk Ho Hbf Hck Hcv Hone Hdbg T w0 w0' lg0 lg0' o w) as (w'&Hs'&Hli'); try done; [by eapply lruns_lreach..| |].
      + intros kg c c1 c2 g g' -> Hg Hg'.
        apply (C61_order_same_everywhere E E' T os w0 w0' kg c1 c2 g g'); try done; [by rewrite Hk|by eapply lruns_runs..].
      + exists w', (log_step w0' o lg0'). split; [|done]. constructor; [done|done|]. destruct o; try done. intros c g _ Hf.
        destruct Hm as [?|Hm]; [congruence|]. destruct (Hm k kg). apply elem_of_app. right. by left.
  Qed.
End runs.

(** ** C73 *)
(** The same calls in two environments that share the declarations and the link types.  Hash
    orders may differ, and the second may be a release build.  Bidirectional declarations
    between direct and set links, where a link has at most one possible opposite on any
    variant; Vec fields accept every type.  Closures may look at sets as sets: on equal nodes
    both give equal nodes or both panic.  If the calls succeed in the first environment, they
    succeed in the second.  Not covered: several possible opposites (refuted below),
    commit_checked (user checks may look at the order inside sets). *)
Theorem C73_succeeds_in_every_order_partial :
  forall {D} (E E' : env) (T : Prop) (os : list (op (D:=D))) w,
  e_kinds E = e_kinds E' -> (forall l, e_opp E l = e_opp E' l) -> bidi_fields E ->
  (forall v l, e_chk E v l = e_chk E' v l) -> (forall v l, e_chk E v l = false -> nonvec E l) ->
  (forall l v, length (opposites_on E l v) <= 1) -> (e_dbg E' = true -> e_dbg E = true) ->
  T \/ no_switch os -> (forall o, o ∈ os -> op_same o) -> e_dbg E' = true \/ (forall k kg, OMerge k kg ∉ os) ->
  runs E T os w -> exists w', runs E' T os w'.
Proof.
  intros D E E' T os w Hk Ho Hbf Hck Hcv Hone Hdbg Hsw Hos Hm Hr.
  destruct (runs_lruns E T os w Hr) as [lg Hl]; [destruct Hm as [?|?]; [left; by apply Hdbg|by right]|].
  destruct (lruns_same E E' T os w lg Hk Ho Hbf Hck Hcv Hone Hdbg Hsw Hos Hm Hl) as (_&w'&lg'&Hl'&_).
  exists w'. by eapply lruns_runs.
Qed.
Print Assumptions C73_succeeds_in_every_order_partial.

(** Two runs so far: the next call succeeds in one exactly if it does in the other. *)
Theorem C73_next_call_same_partial :
  forall {D} (E E' : env) (T : Prop) (os : list (op (D:=D))) o w w',
  e_kinds E = e_kinds E' -> (forall l, e_opp E l = e_opp E' l) -> bidi_fields E ->
  (forall v l, e_chk E v l = e_chk E' v l) -> (forall v l, e_chk E v l = false -> nonvec E l) ->
  (forall l v, length (opposites_on E l v) <= 1) -> e_dbg E = e_dbg E' ->
  T \/ no_switch (os ++ [o]) -> (forall o', o' ∈ os ++ [o] -> op_same o') -> e_dbg E = true \/ (forall k kg, OMerge k kg ∉ os ++ [o]) ->
  runs E T os w -> runs E' T os w' ->
  (exists w1, step E T w o w1) <-> (exists w1', step E' T w' o w1').
Proof.
  intros D E E' T os o w w' Hk Ho Hbf Hck Hcv Hone Hdbg Hsw Hos Hm Hr Hr'. split.
  - intros [w1 Hs]. destruct (C73_succeeds_in_every_order_partial E E' T (os ++ [o]) w1) as [w1' H1']; try done; [by rewrite Hdbg|by rewrite <- Hdbg|by eapply runs_snoc|].
    inversion H1' as [Heq|os' w0 o' ? Hr0 Hs0 Heq]; [by destruct os|]. apply app_inj_tail in Heq as [-> ->].
    rewrite (runs_det E' T os w' w0 Hr' Hr0). by eexists.
  - intros [w1 Hs]. destruct (C73_succeeds_in_every_order_partial E' E T (os ++ [o]) w1) as [w1' H1']; try done.
    + by apply (bidi_fields_same E E').
    + intros v l. rewrite <- Hck. intros H. apply (nonvec_same E E' Hk). by eapply Hcv.
    + intros l v. by rewrite <- (opposites_same E E' Ho).
    + by rewrite Hdbg.
    + by eapply runs_snoc.
    + inversion H1' as [Heq|os' w0 o' ? Hr0 Hs0 Heq]; [by destruct os|]. apply app_inj_tail in Heq as [-> ->].
      rewrite (runs_det E T os w w0 Hr Hr0). by eexists.
Qed.
Print Assumptions C73_next_call_same_partial.

(** ** A case *)
Lemma bump_mut_same : mut_same bump_mut.
Proof. intros n n' H. cbn. by apply bump_alike. Qed.
Lemma bump_upd_same : upd_same bump_upd.
Proof. intros n n' H. cbn. by apply bump_alike. Qed.
Lemma e72s_same : forall o, o ∈ e72s -> op_same o.
Proof.
  unfold e72s, e72. intros o Ho.
  repeat (apply elem_of_cons in Ho as [->|Ho]; [first [exact I|exact bump_mut_same|exact bump_upd_same]|]). by apply elem_of_nil in Ho.
Qed.
Lemma E67_one ho l v : length (opposites_on (E67 ho) l v) <= 1.
Proof.
  unfold opposites_on. cbn [E67 e_opp]. etransitivity; [apply filter_length|].
  unfold opp67. destruct (decide _); [cbn; lia|]. destruct (decide _); cbn; lia.
Qed.
(** with every hash order the calls of e72s succeed *)
Example C73_case :
  let E := E67 (fun _ l => l) in
  bidi_fields E /\ (forall v l, e_chk E v l = false -> nonvec E l) /\ (forall l v, length (opposites_on E l v) <= 1) /\
  e_dbg E = true /\ (forall o, o ∈ e72s -> op_same o) /\ runs E True e72s (rw E e72s) /\
  forall ho, exists w', runs (E67 ho) True e72s w'.
Proof.
  intros E. assert (runs E True e72s (rw E e72s)) as Hr by (apply run_runs; [unfold e72s, e72; sides|computes]).
  split; [apply E67_fields|]. split; [done|]. split; [apply E67_one|]. split; [done|]. split; [exact e72s_same|]. split; [exact Hr|].
  intros ho. eapply (C73_succeeds_in_every_order_partial E (E67 ho)); [done|done|apply E67_fields|done|done|apply E67_one|done|by left|exact e72s_same|by left|exact Hr].
Qed.

(** ** Several possible opposites *)
(** Variant 1 has two direct links to variant 2.  The first is answered by the first link of
    variant 2, the second by either of its links.  The commit inserts node 5 of variant 1 whose
    links both name node 3.  If the first link is completed first, the second finds its opposite
    there; if the second is, it has two possible opposites and neither is there, and the commit
    panics.  The same commit inserts node 4 with the HashSet {1, 2} and removes 1 and 2: the
    records of these members are taken out by moving the last record into their place, so the
    order in which the set is iterated decides which link of 5 comes first. *)
Definition opp73 (l : link) : list link :=
  if decide (l = Link 1 0) then [Link 2 0] else if decide (l = Link 1 1) then [Link 2 0; Link 2 1]
  else if decide (l = Link 2 0) then [Link 1 0; Link 1 1] else if decide (l = Link 2 1) then [Link 1 1] else [].
Definition E73 (ho : N -> list idx -> list idx) : env :=
  Env [[KSet SHash]; [KDirect; KDirect]; [KDirect; KDirect]] opp73 (fun _ _ => true) ho true.
Definition e73 : list opn :=
  [ONewCtx 7; ONewGraph 0 0; ONewTrans 0 0; OInsert 0 (Node 2 [LDirect 0; LDirect 0] []) 1; OInsert 0 (Node 2 [LDirect 0; LDirect 0] []) 2;
   OInsert 0 (Node 2 [LDirect 0; LDirect 0] []) 3; OCommit 0 0;
   ONewTrans 1 0; OInsert 1 (Node 0 [LSet SHash [1; 2]] []) 4; OInsert 1 (Node 1 [LDirect 3; LDirect 3] []) 5; ORemove 1 1; ORemove 1 2]%N.
Lemma E73_fields ho : bidi_fields (E73 ho).
Proof.
  intros l k. cbn. unfold opp73.
  repeat (case_decide as H0; [intros Hin; subst l; repeat (apply elem_of_cons in Hin as [->|Hin]; [split; [decides|left; done]|]); by apply elem_of_nil in Hin|clear H0]).
  by intros ?%elem_of_nil.
Qed.
Lemma e73_same : forall o, o ∈ e73 -> op_same o.
Proof.
  unfold e73. intros o Ho. repeat (apply elem_of_cons in Ho as [->|Ho]; [exact I|]). by apply elem_of_nil in Ho.
Qed.
Theorem C73_several_opposites_refuted :
  exists (E E' : env) (os : list (op (D:=nat))) w w' g t g' t' gp g1,
  e_kinds E = e_kinds E' /\ (forall l, e_opp E l = e_opp E' l) /\ bidi_fields E /\ (forall v l, e_chk E v l = true) /\
  (forall v l, e_chk E' v l = true) /\ e_dbg E = true /\ e_dbg E' = true /\ (forall o, o ∈ os -> op_same o) /\
  runs E True os w /\ runs E' True os w' /\
  w_graphs w !! 0 = Some (0, g) /\ w_trans w !! 1 = Some (0, t) /\ w_graphs w' !! 0 = Some (0, g') /\ w_trans w' !! 1 = Some (0, t') /\
  graph_iter g' = graph_iter g /\
  commit E t g = Panicked PMultiChoice gp /\ commit E' t' g' = Done g1 tt.
Proof.
  exists (E73 (fun _ l => l)), (E73 (fun _ l => rev l)), e73.
  eexists _, _, _, _, _, _, _, _. split; [done|]. split; [done|]. split; [apply E73_fields|]. split; [done|]. split; [done|]. split; [done|]. split; [done|].
  split; [exact e73_same|]. split; [apply run_runs; [unfold e73; sides|computes]|]. split; [apply run_runs; [unfold e73; sides|computes]|].
  split; [computes|]. split; [computes|]. split; [computes|]. split; [computes|]. split; [computes|]. split; computes.
Qed.
Print Assumptions C73_several_opposites_refuted.
