(** * Checking the conditions of a valid commit on concrete data

    [sp_valid] and [targets_in] quantify over all indices; these functions decide them
    for concrete maps.  Used by the examples beside the theorems only. *)
From Verif Require Export Decide TransFinal.

Fixpoint walk (fuel : nat) (P : gmap N idx) (x : idx) : idx :=
  match fuel with
  | O => x
  | S fuel' => match P !! x with Some y => walk fuel' P y | None => x end
  end.
Lemma walk_leads fuel P x : P !! walk fuel P x = None -> leads P x (walk fuel P x).
Proof.
  intros H. split; [|done]. clear H. revert x. induction fuel as [|fuel IH]; intros x; cbn; [apply rtc_refl|].
  destruct (P !! x) as [y|] eqn:Hx; [|apply rtc_refl]. eapply rtc_l; [exact Hx|apply IH].
Qed.
Fixpoint ptrsb (fuel : nat) (P : gmap N idx) (reps : list (idx * idx)) : option (gmap N idx) :=
  match reps with
  | [] => Some P
  | (old, new) :: reps' =>
    let z := walk fuel P new in
    if bool_decide (P !! z = None) && bool_decide (z <> old) then ptrsb fuel (<[old := z]> P) reps' else None
  end.
Lemma ptrsb_sound fuel pre reps P P' : redir_ptrs pre P -> ptrsb fuel P reps = Some P' -> redir_ptrs (pre ++ reps) P'.
Proof.
  revert pre P. induction reps as [|[old new] reps IH]; intros pre P HP; cbn.
  - intros [= <-]. by rewrite app_nil_r.
  - destruct (_ && _) eqn:Hb; [|done]. apply andb_true_iff in Hb as [H1%bool_decide_eq_true H2%bool_decide_eq_true].
    intros H. replace (pre ++ (old, new) :: reps) with ((pre ++ [(old, new)]) ++ reps) by (by rewrite <- app_assoc).
    eapply IH; [|exact H]. constructor; [done|by apply walk_leads|done].
Qed.
Definition resolvedb (reps res : list (idx * idx)) : bool :=
  match ptrsb (length reps) ∅ reps with
  | None => false
  | Some P => (length reps =? length res) &&
    forallb (fun '((o, w), (o', z)) => bool_decide (o' = o) && bool_decide (walk (length reps) P w = z) && bool_decide (P !! z = None)) (zip reps res)
  end.
Lemma resolvedb_sound reps res : resolvedb reps res = true -> redir_resolved reps res.
Proof.
  unfold resolvedb, redir_resolved. destruct (ptrsb _ ∅ reps) as [P|] eqn:HP; [|done].
  apply (ptrsb_sound _ [] _ _ _ ptrs_nil) in HP. cbn in HP. rewrite andb_true_iff, Nat.eqb_eq. intros H. exists P. split; [done|].
  revert H. assert (forall k, length reps = length res /\
    forallb (fun '((o, w), (o', z)) => bool_decide (o' = o) && bool_decide (walk k P w = z) && bool_decide (P !! z = None)) (zip reps res) = true ->
    Forall2 (fun on oz => oz.1 = on.1 /\ leads P on.2 oz.2) reps res) as H; [|apply H].
  intros k. clear HP. revert res.
  induction reps as [|[o w] reps IH]; intros [|[o' z] res] [Hl H]; try done; constructor.
  - cbn in H. rewrite !andb_true_iff, !bool_decide_eq_true in H. destruct H as [[[-> H] Hz] _]. split; [done|].
    cbn. rewrite <- H in Hz |- *. by apply walk_leads.
  - apply IH. split; [by injection Hl|]. cbn in H. by apply andb_true_iff in H as [_ H].
Qed.

Section decide.
  Context {D : Type}.
  Implicit Types (n : node D) (m : gmap N (node D)).

  Definition targets_inb (u : idx -> bool) n : bool :=
    forallb (fun '(_, y) => u y) (node_links n) &&
    forallb (fun lv => match lv with LSet _ l => bool_decide (0%N ∉ l) | _ => true end) (nlinks n).
  Lemma targets_inb_sound (u : idx -> bool) (U : idx -> Prop) n :
    (forall y, u y = true -> U y) -> targets_inb u n = true -> targets_in U n.
  Proof.
    intros Hu. unfold targets_inb. rewrite andb_true_iff, !forallb_forall. intros [H1 H2]. split.
    - intros y [l Hl]. apply Hu. apply (H1 (l, y)). apply elem_of_list_In. by apply elem_node_links.
    - intros f k l Hf. specialize (H2 (LSet k l)). cbn in H2. apply bool_decide_eq_true in H2; [done|].
      apply elem_of_list_In. by eapply elem_of_list_lookup_2.
  Qed.
  Definition inb m (y : idx) : bool := match m !! y with Some _ => true | None => false end.
  Lemma inb_sound m y : inb m y = true -> is_Some (m !! y).
  Proof. unfold inb. destruct (m !! y); [eauto|done]. Qed.
  Lemma targets_knownb_sound m n : targets_inb (inb m) n = true -> targets_known m n.
  Proof. intros H. exact (targets_inb_sound _ _ n (inb_sound m) H). Qed.

  Fixpoint mutates_knownb (fs : list (idx * (node D -> out (node D) unit))) m : bool :=
    match fs with
    | [] => true
    | (i, f) :: fs' =>
      match m !! i with
      | Some n => match f n with Done n' _ => targets_inb (inb m) n' && mutates_knownb fs' (<[i := n']> m) | _ => true end
      | None => true
      end
    end.
  Lemma mutates_knownb_sound fs m : mutates_knownb fs m = true -> mutates_known fs m.
  Proof.
    revert m. induction fs as [|[i f] fs IH]; intros m; cbn; [done|]. intros H n n' Hi Hf. rewrite Hi, Hf in H.
    apply andb_true_iff in H as [H1 H2]. split; [by apply targets_knownb_sound|by apply IH].
  Qed.
  Fixpoint updates_knownb (fs : list (idx * (node D -> res (node D)))) m : bool :=
    match fs with
    | [] => true
    | (i, f) :: fs' =>
      match m !! i with
      | Some n => match f n with Ok n' => targets_inb (inb m) n' && updates_knownb fs' (<[i := n']> m) | _ => true end
      | None => true
      end
    end.
  Lemma updates_knownb_sound fs m : updates_knownb fs m = true -> updates_known fs m.
  Proof.
    revert m. induction fs as [|[i f] fs IH]; intros m; cbn; [done|]. intros H n n' Hi Hf. rewrite Hi, Hf in H.
    apply andb_true_iff in H as [H1 H2]. split; [by apply targets_knownb_sound|by apply IH].
  Qed.
  Definition redir_validb (reps res : list (idx * idx)) m : bool :=
    resolvedb reps res && forallb (inb m) reps.*1.
  Lemma redir_validb_sound reps res m : redir_validb reps res m = true ->
    redir_resolved reps res /\ redir_valid reps m.
  Proof.
    unfold redir_validb. rewrite andb_true_iff, forallb_forall. intros [Hr Hin].
    apply resolvedb_sound in Hr. split; [done|]. split; [by destruct Hr as (P&HP&_); exists P|].
    intros o Ho. apply inb_sound, Hin. by apply elem_of_list_In.
  Qed.
  (** [res], [res']: the two redirect lists with their final destinations *)
  Definition sp_validb (t : txn D) m (rs rs' : list (idx * idx)) : bool :=
    redir_validb (x_redir t) rs m &&
    (let m0 := x_new t ∪ (node_redirects rs <$> m) in
     mutates_knownb (x_mut t) m0 &&
     match sp_mutates (x_mut t) m0 with
     | None => false
     | Some m2 => updates_knownb (x_upd t) m2 &&
       match sp_updates (x_upd t) m2 with
       | None => false
       | Some m3 => redir_validb (x_redir_all t) rs' m3 &&
          match sp_removes (x_del t) (node_redirects rs' <$> m3) with Some _ => true | None => false end
       end
     end).
  Lemma sp_validb_sound t m rs rs' : sp_validb t m rs rs' = true -> sp_valid t m.
  Proof.
    unfold sp_validb. rewrite andb_true_iff. intros [H1 H2]. apply redir_validb_sound in H1 as (Hres&Hv).
    split; [done|]. intros m1 Hm1. assert (m1 = node_redirects rs <$> m) as ->.
    { eapply sp_redirect_det; [done|]. by exists rs. }
    cbv zeta in H2. apply andb_true_iff in H2 as [H2 H3]. split; [by apply mutates_knownb_sound|].
    destruct (sp_mutates (x_mut t) (x_new t ∪ (node_redirects rs <$> m))) as [m2|]; [|done]. exists m2. split; [done|].
    apply andb_true_iff in H3 as [H3 H4]. split; [by apply updates_knownb_sound|].
    destruct (sp_updates (x_upd t) m2) as [m3|]; [|done]. exists m3. split; [done|].
    apply andb_true_iff in H4 as [H4 H5]. apply redir_validb_sound in H4 as (Hres'&Hv'). split; [done|].
    intros m4 Hm4. assert (m4 = node_redirects rs' <$> m3) as ->.
    { eapply sp_redirect_det; [done|]. by exists rs'. }
    destruct (sp_removes _ _); [eauto|done].
  Qed.
End decide.
