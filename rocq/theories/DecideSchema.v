(** * Deciding the side conditions on schemas, for the examples *)
From Verif Require Export SchemaFacts.

Definition all_in {A} (P : A -> bool) (l : list A) : bool := forallb P l.
Lemma all_in_true {A} (P : A -> bool) l x : all_in P l = true -> x ∈ l -> P x = true.
Proof. unfold all_in. rewrite forallb_forall. intros H Hx. apply H. by apply elem_of_list_In. Qed.

Section decide.
  Context (camel : string -> string).
  Definition struct_acceptedb (sd : sdecl) : bool :=
    bool_decide (NoDup (f_name <$> sd_fields sd)) && bool_decide (NoDup (log_names camel sd)) &&
    all_in (fun f => match f_attrs f with [] => true | _ => bool_decide (is_Some (field_link f)) end) (sd_fields sd).
  Definition mirror_ofb (s : schema) (A x : string) : bool :=
    existsb (fun p => bool_decide (p.1 = A) && bool_decide (camel x ∈ log_names camel p.2)) (sc_vars s).
  Definition acceptedb (s : schema) : bool :=
    bool_decide (NoDup (sc_vars s).*1) && all_in (fun p => struct_acceptedb p.2) (sc_vars s) &&
    all_in (fun p => negb (bool_decide (p.2 = [])) && all_in (fun A => bool_decide (A ∈ (sc_vars s).*1)) p.2) (sc_groups s) &&
    all_in (fun d => mirror_ofb s (b_var1 d) (b_link1 d) && mirror_ofb s (b_var2 d) (b_link2 d)) (expand_bidi s) &&
    all_in (fun d => negb (bool_decide (an_var d ∈ (sc_vars s).*1)) ||
      (mirror_ofb s (an_var d) (an_link d) && negb (bool_decide (an_targets d = [])) &&
       all_in (fun W => bool_decide (W ∈ (sc_vars s).*1)) (an_targets d))) (expand_anns s).

  Lemma mirror_ofb_sound s A x : mirror_ofb s A x = true -> mirror_of camel s A x.
  Proof.
    unfold mirror_ofb. rewrite existsb_exists. intros ([A' sd]&Hin&[H1 H2]%andb_true_iff).
    apply bool_decide_eq_true in H1, H2. cbn in *. subst A'. apply elem_of_list_In, elem_of_list_lookup in Hin as (v&Hv). by exists v, sd.
  Qed.
  Lemma acceptedb_sound s : acceptedb s = true -> accepted camel s.
  Proof.
    unfold acceptedb. intros [[[[H1 H2]%andb_true_iff H3]%andb_true_iff H4]%andb_true_iff H5]%andb_true_iff. split.
    - by apply bool_decide_eq_true in H1.
    - intros A sd Hin. apply (all_in_true _ _ _ H2) in Hin. cbn in Hin. unfold struct_acceptedb in Hin.
      apply andb_true_iff in Hin as [[Ha Hb]%andb_true_iff Hc]. apply bool_decide_eq_true in Ha, Hb. split; [done|done|].
      intros f Hf Hne. apply (all_in_true _ _ _ Hc) in Hf. destruct (f_attrs f); [done|]. by apply bool_decide_eq_true in Hf.
    - intros x ms Hin. apply (all_in_true _ _ _ H3) in Hin. cbn in Hin. apply andb_true_iff in Hin as [Ha Hb].
      apply negb_true_iff, bool_decide_eq_false in Ha. split; [done|]. intros A HA. apply (all_in_true _ _ _ Hb) in HA.
      by apply bool_decide_eq_true in HA.
    - intros d Hd. apply (all_in_true _ _ _ H4) in Hd. apply andb_true_iff in Hd as [Ha Hb]. split; by apply mirror_ofb_sound.
    - intros d Hd Hv. apply (all_in_true _ _ _ H5) in Hd. rewrite bool_decide_eq_true_2 in Hd by done. cbn in Hd.
      apply andb_true_iff in Hd as [[Ha Hb]%andb_true_iff Hc]. apply negb_true_iff, bool_decide_eq_false in Hb.
      split; [by apply mirror_ofb_sound|]. split; [done|]. intros W HW. apply (all_in_true _ _ _ Hc) in HW. by apply bool_decide_eq_true in HW.
  Qed.
End decide.

Definition groups_apartb (s : schema) : bool :=
  bool_decide (NoDup (sc_groups s).*1) && all_in (fun x => negb (bool_decide (x ∈ (sc_vars s).*1))) (sc_groups s).*1.
Lemma groups_apartb_sound s : groups_apartb s = true -> groups_apart s.
Proof.
  intros [H1 H2]%andb_true_iff. apply bool_decide_eq_true in H1. split; [done|]. intros x Hx.
  apply (all_in_true _ _ _ H2) in Hx. by apply negb_true_iff, bool_decide_eq_false in Hx.
Qed.
Definition one_attributeb (s : schema) : bool := all_in (fun p => all_in (fun fd => length (f_attrs fd) <=? 1) (sd_fields p.2)) (sc_vars s).
Lemma one_attributeb_sound s : one_attributeb s = true -> forall A sd, (A, sd) ∈ sc_vars s -> one_attribute sd.
Proof.
  intros H A sd Hin fd Hfd. apply (all_in_true _ _ _ H) in Hin. apply (all_in_true _ _ _ Hin) in Hfd. by apply Nat.leb_le in Hfd.
Qed.

(** [covers_var] and [covers_link] as computable functions *)
Definition covers_varb (s : schema) (x : string) (v : nat) : bool :=
  match sc_vars s !! v with
  | Some (A, _) => bool_decide (x = A) || existsb (fun p => bool_decide (p.1 = x) && bool_decide (A ∈ p.2)) (sc_groups s)
  | None => false
  end.
Lemma covers_varb_iff s x v : covers_varb s x v = true <-> covers_var s x v.
Proof.
  unfold covers_varb, covers_var. destruct (sc_vars s !! v) as [[A sd]|]; [|split; [done|intros (?&?&?&_); done]].
  rewrite orb_true_iff, bool_decide_eq_true, existsb_exists. split.
  - intros H. exists A, sd. split; [done|]. destruct H as [->|([y ms]&Hin&[H1 H2]%andb_true_iff)]; [by left|right].
    apply bool_decide_eq_true in H1, H2. cbn in *. subst y. exists ms. by apply elem_of_list_In in Hin.
  - intros (A'&sd'&[= <- <-]&[->|(ms&Hin&HA)]); [by left|right]. exists (x, ms). split; [by apply elem_of_list_In|].
    apply andb_true_iff. split; by apply bool_decide_eq_true.
Qed.
Definition covers_linkb (sd : sdecl) (x : string) (f : nat) : bool :=
  match link_decls sd !! f with
  | Some fd => bool_decide (x = f_name fd) || bool_decide (x ∈ concat (f_attrs fd))
  | None => false
  end.
Lemma covers_linkb_iff sd x f : covers_linkb sd x f = true <-> covers_link sd x f.
Proof.
  unfold covers_linkb, covers_link. destruct (link_decls sd !! f) as [fd|]; [|split; [done|intros (?&?&_); done]].
  rewrite orb_true_iff, !bool_decide_eq_true, elem_of_concat. split.
  - intros H. exists fd. split; [done|]. naive_solver.
  - intros (fd'&[= <-]&H). naive_solver.
Qed.
Definition spelledb (s : schema) (A x : string) : bool :=
  all_in (fun v => negb (covers_varb s A v) ||
    bool_decide (x ∈ link_names (struct_of s v) ++ (group_map (struct_of s v)).*1)) (seq 0 (length (sc_vars s))).
Lemma spelledb_sound s A x : spelledb s A x = true -> spelled s A x.
Proof.
  intros H v Hv. assert (v ∈ seq 0 (length (sc_vars s))) as Hin.
  { destruct Hv as (B&sd&Hl&_). apply lookup_lt_Some in Hl. apply elem_of_seq. lia. }
  apply (all_in_true _ _ _ H) in Hin. rewrite (proj2 (covers_varb_iff s A v) Hv) in Hin. cbn in Hin.
  apply bool_decide_eq_true, elem_of_app in Hin. by apply struct_name_iff.
Qed.
Definition bidi_spelledb (s : schema) : bool := all_in (fun d => spelledb s (b_var1 d) (b_link1 d) && spelledb s (b_var2 d) (b_link2 d)) (sc_bidi s).
Lemma bidi_spelledb_sound s : bidi_spelledb s = true -> bidi_spelled s.
Proof.
  intros H d Hd. apply (all_in_true _ _ _ H) in Hd. apply andb_true_iff in Hd as [? ?]. split; by apply spelledb_sound.
Qed.
Definition anns_spelledb (s : schema) : bool := all_in (fun d => spelledb s (an_var d) (an_link d)) (sc_anns s).
Lemma anns_spelledb_sound s : anns_spelledb s = true -> anns_spelled s.
Proof. intros H d Hd. apply (all_in_true _ _ _ H) in Hd. by apply spelledb_sound. Qed.

Global Instance adecl_eq_dec : EqDecision adecl.
Proof. solve_decision. Defined.
Definition anns_singleb (s : schema) : bool :=
  all_in (fun d => all_in (fun d' => bool_decide (d = d') || negb (bool_decide (an_link d = an_link d')) ||
    all_in (fun v => negb (covers_varb s (an_var d) v && covers_varb s (an_var d') v)) (seq 0 (length (sc_vars s)))) (sc_anns s)) (sc_anns s).
Lemma anns_singleb_sound s : anns_singleb s = true -> anns_single s.
Proof.
  intros H d d' v Hd Hd' Hc Hc' Heq. apply (all_in_true _ _ _ H) in Hd. apply (all_in_true _ _ _ Hd) in Hd'.
  apply orb_true_iff in Hd' as [[Hd'|Hd']%orb_true_iff|Hd'].
  - by apply bool_decide_eq_true in Hd'.
  - apply negb_true_iff, bool_decide_eq_false in Hd'. done.
  - assert (v ∈ seq 0 (length (sc_vars s))) as Hin.
    { destruct Hc as (B&sd&Hl&_). apply lookup_lt_Some in Hl. apply elem_of_seq. lia. }
    apply (all_in_true _ _ _ Hd') in Hin. rewrite (proj2 (covers_varb_iff s _ v) Hc), (proj2 (covers_varb_iff s _ v) Hc') in Hin. done.
Qed.

Definition denotesb (s : schema) (A x : string) (l : link) : bool :=
  covers_varb s A (l_var l) && covers_linkb (struct_of s (l_var l)) x (l_fld l).
Lemma denotesb_iff s A x l : denotesb s A x l = true <-> denotes s A x l.
Proof. unfold denotesb, denotes. rewrite andb_true_iff, covers_varb_iff, covers_linkb_iff. done. Qed.
Definition declaresb (s : schema) (l m : link) : bool :=
  existsb (fun d => denotesb s (b_var1 d) (b_link1 d) l && denotesb s (b_var2 d) (b_link2 d) m) (sc_bidi s).
Lemma declaresb_iff s l m : declaresb s l m = true <-> declares s l m.
Proof.
  unfold declaresb, declares. rewrite existsb_exists. split.
  - intros (d&Hin&[H1 H2]%andb_true_iff). exists d. by rewrite <- !denotesb_iff, elem_of_list_In.
  - intros (d&Hin&H1&H2). exists d. by rewrite andb_true_iff, !denotesb_iff, <- elem_of_list_In.
Qed.

(** ** Statements about all links of a schema *)
Definition schema_links (s : schema) : list link :=
  concat (imap (fun v (p : string * sdecl) => Link v <$> seq 0 (length (link_decls p.2))) (sc_vars s)).
Lemma denotes_schema_links s A x l : denotes s A x l -> l ∈ schema_links s.
Proof.
  intros [(B&sd&Hv&_) (fd&Hfd&_)]. unfold schema_links. apply elem_concat_imap. exists (l_var l), (B, sd). split; [done|].
  unfold struct_of in Hfd. rewrite Hv in Hfd. cbn in *. apply lookup_lt_Some in Hfd. destruct l as [v f]. apply elem_of_list_fmap_1, elem_of_seq. cbn in *. lia.
Qed.
Lemma declares_all s (P : link -> link -> Prop) `{forall l m, Decision (P l m)} :
  forallb (fun l => forallb (fun m => negb (declaresb s l m) || bool_decide (P l m)) (schema_links s)) (schema_links s) = true ->
  forall l m, declares s l m -> P l m.
Proof.
  intros Hall l m Hd. pose proof Hd as (d&_&Hl&Hm). apply denotes_schema_links in Hl, Hm. rewrite forallb_forall in Hall.
  apply elem_of_list_In in Hl, Hm. specialize (Hall l Hl). rewrite forallb_forall in Hall. specialize (Hall m Hm).
  apply declaresb_iff in Hd. rewrite Hd in Hall. cbn in Hall. by apply bool_decide_eq_true in Hall.
Qed.
