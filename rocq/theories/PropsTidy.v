(** * Property theorems: programs that leave no dangling links (C63) *)
From Verif Require Import Tidy OrderHist ExHist Decide PropsGraph PropsBidi PropsSer PropsFindings PropsOrder PropsApi.

(** C63.  [tidy] (Tidy.v): the program's graphs have no dangling links after any commit,
    deserialized data are in order, [switch_context] does not mix old and new indices in a
    set.  Then, whatever it does, every graph it holds has symmetric bidirectional links
    and correctly typed direct and set links, at every moment. *)
Theorem C63_always_orderly :
  forall {D} (E : env) (w : world (D:=D)) kg c g,
  single_choice E -> bidi_typed E -> tidy E w -> w_graphs w !! kg = Some (c, g) ->
  closed g /\ bidi_symmetric E g /\ links_typed E g.
Proof. intros D E w kg c g Hsc Hbt Ht Hg. by destruct (tidy_orderly E w Hsc Hbt Ht kg c g Hg). Qed.
Print Assumptions C63_always_orderly.

(** [check_integrity] is a way to stay tidy: in a debug build a commit after which it
    returns normally is a tidy call. *)
Theorem C63_check_integrity :
  forall {D} (E : env) (w w' : world (D:=D)) kg k,
  e_dbg E = true -> tidy E w -> step E True w (OCommit kg k) w' ->
  (forall c g, w_graphs w' !! kg = Some (c, g) -> check_integrity E g = true) -> tidy E w'.
Proof.
  intros D E w w' kg k Hd Ht Hs Hci. pose proof (tidy_reachable E w Ht) as Hr. econstructor; [done|done|..].
  - done.
  - cbn. intros c g Hg. specialize (Hci c g Hg). assert (graph_of E True g) as Hgo by (exists w', kg, c; split; [by econstructor|done]).
    destruct (proj1 (C55_check_integrity_exact E True g Hgo) Hci Hd) as [Hcl _]. intros x n y Hx [l Hl]. by eapply Hcl.
Qed.
Print Assumptions C63_check_integrity.

(** executable tidy programs *)
Definition tidyb (E : env) (w : world (D:=nat)) (o : opn) (w' : world (D:=nat)) : bool :=
  match o with
  | OCommit kg _ | OCommitChecked kg _ _ => match w_graphs w' !! kg with Some (_, g) => closedb g | None => true end
  | OCommitPanic _ _ _ | ODeser _ _ => false
  | OSwitch kg c =>
    match w_graphs w !! kg, w_ctx w !! c with
    | Some (_, g), Some (_, cnt) => forallb (fun '(i, _) => negb ((cnt <? i)%N && (i <=? cnt + N.of_nat (length (graph_iter g)))%N)) (graph_iter g)
    | _, _ => true
    end
  | _ => true
  end.
Fixpoint tidy_run (E : env) (w : world (D:=nat)) (os : list opn) : bool :=
  match os with
  | [] => true
  | o :: os => cleanb E w o && match exec E w o with Some w' => tidyb E w o w' && tidy_run E w' os | None => false end
  end.
Lemma tidyb_sound E w o w' : reachable E True w -> step E True w o w' -> tidyb E w o w' = true -> tidy_call E w o w'.
Proof.
  intros Hr Hs. assert (reachable E True w') as Hr' by by econstructor.
  destruct o; cbn; try done.
  - intros Hb c0 g Hg. rewrite Hg in Hb. eapply closedb_sound; [|done]. eapply (graph_of_ok E True). by exists w', kg, c0.
  - intros Hb c0 g Hg. rewrite Hg in Hb. eapply closedb_sound; [|done]. eapply (graph_of_ok E True). by exists w', kg, c0.
  - intros Hb c0 g u cnt Hg Hc. rewrite Hg, Hc in Hb. assert (graph_of E True g) as Hgo by by exists w, kg, c0.
    intros y n fld k l x i Hy Hl Hx Hi Hgx [ni Hgi] Hn. exfalso. rewrite forallb_forall in Hb.
    destruct (graph_iter_agree E True g Hgo) as (Hit&_). apply Hit, elem_of_list_In, Hb in Hgi. subst i.
    pose proof (new_index_range E True g cnt x Hgo Hgx) as Hrg. cbn in Hrg.
    apply negb_true_iff, andb_false_iff in Hgi. destruct Hgi as [?%N.ltb_ge|?%N.leb_gt]; lia.
Qed.
Lemma tidy_run_sound E os : Forall (op_side E True) os -> tidy_run E world_new os = true -> tidy E (rw E os).
Proof.
  intros Hs Hb. unfold rw.
  assert (forall w, tidy E w -> tidy_run E w os = true -> exists w', run E w os = Some w' /\ tidy E w') as H.
  { clear Hb. induction Hs as [|o os Ho Hs IH]; intros w Ht; cbn; [by eauto|].
    intros [Hf Hb]%andb_true_iff. destruct (exec E w o) as [w1|] eqn:He; [|done]. apply andb_true_iff in Hb as [Hb1 Hb2].
    apply IH; [|done]. assert (step E True w o w1) as Hst by by apply exec_step.
    econstructor; [done|done|by apply cleanb_sound|]. apply tidyb_sound; [by apply tidy_reachable|done..]. }
  destruct (H world_new) as (w'&->&?); [constructor|done|done].
Qed.

(** two commits with automatic opposites; a second graph, built in a context that starts
    at 1 as well, is switched into the first context and merged *)
Definition e63 : list opn := bops ++
  [OCommit 0 1; ONewCtx 8; ONewGraph 1 1; ONewTrans 2 1; OInsert 2 (nB 0 [] 1) 1; OInsert 2 (nA 1 [2] [] 2) 2; OInsert 2 (nA 1 [] [] 3) 3; OCommit 1 2;
   OSwitch 1 0; ONewTrans 3 0; OMerge 3 1; OMutate 3 3 (relink 10 [] []); OCommit 0 3]%N.
Example C63_case : single_choice E1 /\ bidi_typed E1 /\ tidy E1 (rw E1 e63) /\
  w_graphs (rw E1 e63) !! 0 = Some (0, rgr E1 e63 0) /\ length (graph_iter (rgr E1 e63 0)) = 10 /\
  graph_get (rgr E1 e63 0) 10 = Some (nB 0 [8; 9; 3] 1)%N.
Proof.
  split; [apply E1_single|]. split; [intros l k [[-> ->]|[-> ->]]%opp1_inv; computes|].
  split; [apply tidy_run_sound; [unfold e63, bops, bsetup; sides|computes]|]. split; [computes|split; computes].
Qed.
Example C63_case_integrity : exists w', e_dbg E1 = true /\ tidy E1 (rw E1 bops) /\ step E1 True (rw E1 bops) (OCommit 0 1) w' /\
  w_graphs w' !! 0 = Some (0, hc E1 bops) /\ check_integrity E1 (hc E1 bops) = true.
Proof.
  exists (rw E1 (bops ++ [OCommit 0 1])). split; [done|]. split; [apply tidy_run_sound; [unfold bops, bsetup; sides|computes]|].
  split; [apply exec_step; [exact I|computes]|]. split; computes.
Qed.
