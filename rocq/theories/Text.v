(** * From the text of the declarations to the graphs *)
From Verif Require Import FrontFacts SchemaFacts Tidy GraphFinal.
Open Scope string_scope.
Open Scope list_scope.

(** ** What the text says *)
Section text.
  (** [word]: the words that are identifiers; [structs]: the struct of each type; [is]: the
      items of [node_enum!] *)
  Context (word : string -> bool) (structs : ty -> rstruct) (is : list item).

  (** what the derive macro makes of a struct (an error is no struct) *)
  Definition read_struct (t : ty) : sdecl := default (Struct [] []) (typed_node (structs t)).

  (** the declaration [d] is written in one of the blocks [x!{..}] *)
  Definition in_block {A} (x : string) (W : A -> list token -> Prop) (d : A) : Prop :=
    exists vs rest ts ds, is = IEnum vs :: rest /\ ts ∈ bodies x rest /\ written W ds ts /\ d ∈ ds.
  (** [A(t)] is a variant *)
  Definition text_variant (A : string) (t : ty) : Prop :=
    exists vs rest, is = IEnum vs :: rest /\ (A, VUnnamed [t]) ∈ vs.
  (** [X] is the variant [A], or a [group!] that lists it *)
  Definition stands_for (X A : string) : Prop :=
    X = A \/ exists ms, in_block "group" (w_group word) (X, ms) /\ A ∈ ms.
  (** [f] is a link field of [A]'s struct, and [x] is its name or a group in its
      [#[group(..)]] *)
  Definition text_field (A : string) (f : rfield) : Prop :=
    exists t fs k, text_variant A t /\ rs_fields (structs t) = Some fs /\ f ∈ fs /\ field_ty (rf_ty f) = FLink k.
  Definition names_field (x : string) (f : rfield) : Prop :=
    x = rf_name f \/ exists a xs, a ∈ rf_attrs f /\ at_lead a = false /\ at_path a = ["group"] /\ lists xs a /\ x ∈ xs.
  (** [X.x <-> Y.y] is written, and stands for the field [f] of [A] and the field [h] of [B] *)
  Definition text_bidi (A : string) (f : rfield) (B : string) (h : rfield) : Prop :=
    exists X x Y y, in_block "bidirectional" (w_bidi word) (Bidi X x Y y) /\
      stands_for X A /\ text_field A f /\ names_field x f /\ stands_for Y B /\ text_field B h /\ names_field y h.
  (** [X.x: {Ws}] is written and stands for the field [f] of [A] *)
  Definition text_type (A : string) (f : rfield) (Ws : list string) : Prop :=
    exists X x, in_block "link_type" (w_anno word) (Anno X x Ws) /\ stands_for X A /\ text_field A f /\ names_field x f.

  Context (sc : schema) (Hsc : node_enum word read_struct is = Some sc).
  Context (Hst : forall A t, text_variant A t -> is_Some (typed_node (structs t))).

  Lemma in_blocks {A} x (W : A -> list token -> Prop) p vs rest dss d :
    (forall ts xs, terminated p ts = Some xs <-> written W xs ts) -> is = IEnum vs :: rest ->
    Forall2 (written W) dss (bodies x rest) -> in_block x W d <-> d ∈ concat dss.
  Proof using.
    intros Hp Hi0 HF. rewrite elem_of_concat. split.
    - intros (vs2&rest2&ts&ds&He&Hts&Hw&Hd). rewrite Hi0 in He. injection He as <- <-. apply elem_of_list_lookup in Hts as [i Hi].
      destruct (Forall2_lookup_r _ _ _ _ _ HF Hi) as (ds'&Hds&Hw'). rewrite (written_one p W ds ds' ts Hp Hw Hw') in Hd.
      exists ds'. split; [done|]. by eapply elem_of_list_lookup_2.
    - intros (ds&Hd&Hds). apply elem_of_list_lookup in Hds as [i Hi].
      destruct (Forall2_lookup_l _ _ _ _ _ HF Hi) as (ts&Hts&Hw). exists vs, rest, ts, ds. split_and!; try done. by eapply elem_of_list_lookup_2.
  Qed.
  Lemma text_schema : (forall d, in_block "bidirectional" (w_bidi word) d <-> d ∈ sc_bidi sc) /\
    (forall d, in_block "group" (w_group word) d <-> d ∈ sc_groups sc) /\
    (forall d, in_block "link_type" (w_anno word) d <-> d ∈ sc_anns sc) /\
    (forall A t, text_variant A t -> exists v, sc_vars sc !! v = Some (A, read_struct t)) /\
    (forall v A sd, sc_vars sc !! v = Some (A, sd) -> exists t, text_variant A t /\ sd = read_struct t).
  Proof using Hsc.
    pose proof Hsc as H. apply node_enum_iff in H as (vs&vars&rest&bss&gss&ass&Hi&_&Hv&Hb&Hg&Ha&_&->). cbn.
    split; [intros; eapply in_blocks; [apply bidis_iff|done..]|].
    split; [intros; eapply in_blocks; [apply groups_iff|done..]|].
    split; [intros; eapply in_blocks; [apply annos_iff|done..]|]. split.
    - intros A t (vs'&rest'&He&Hin). rewrite Hi in He. injection He as <- <-. apply elem_of_list_lookup in Hin as [v Hin].
      destruct (Forall2_lookup_l _ _ _ _ _ Hv Hin) as ([A' t']&Hvv&[HA Ht]). cbn in *. subst A'. injection Ht as <-.
      exists v. by rewrite list_lookup_fmap, Hvv.
    - intros v A sd Hl. rewrite list_lookup_fmap in Hl. apply fmap_Some in Hl as ([A' t]&Hl&[= -> ->]).
      destruct (Forall2_lookup_r _ _ _ _ _ Hv Hl) as ([A2 fs]&Hvs&[HA Ht]). cbn in *. subst. exists t. split; [|done].
      exists vs, rest. split; [done|]. by eapply elem_of_list_lookup_2.
  Qed.

  Lemma stands_covers X A v sd : sc_vars sc !! v = Some (A, sd) -> stands_for X A <-> covers_var sc X v.
  Proof using Hsc.
    destruct text_schema as (_&Hg&_). intros Hv. unfold stands_for, covers_var. split.
    - intros H. exists A, sd. split; [done|]. destruct H as [->|(ms&?%Hg&?)]; eauto.
    - intros (A'&sd'&Hv'&H). rewrite Hv in Hv'. injection Hv' as <- <-. destruct H as [->|(ms&?&?)]; [by left|right]. exists ms. by rewrite Hg.
  Qed.

  (** a link field of the text is a link field of the struct, and its names are the same *)
  Lemma text_link A f v sd : NoDup (sc_vars sc).*1 -> sc_vars sc !! v = Some (A, sd) -> text_field A f ->
    exists k fd, link_decls sd !! k = Some fd /\ f_name fd = rf_name f /\ f_ty fd = field_ty (rf_ty f) /\
      forall x, names_field x f -> covers_link sd x k.
  Proof using Hsc Hst.
    intros Hnd Hv (t&fs&kk&Ht&Hfs&Hf&Hk). destruct text_schema as (_&_&_&Hvs&_). destruct (Hvs A t Ht) as [v' Hv'].
    assert (v' = v) as ->.
    { eapply (NoDup_lookup (sc_vars sc).*1); [done|by rewrite list_lookup_fmap, Hv'|by rewrite list_lookup_fmap, Hv]. }
    rewrite Hv in Hv'. injection Hv' as ->. destruct (Hst A t Ht) as [sd Hsd]. unfold read_struct. rewrite Hsd. cbn.
    apply (typed_node_iff (fun _ => true)) in Hsd as (fs'&pss&Hfs'&Hr&_). rewrite Hfs in Hfs'. injection Hfs' as <-.
    apply elem_of_list_lookup in Hf as [n Hn]. destruct (Forall2_lookup_l _ _ _ _ _ Hr Hn) as (fd&Hfd&(Hnm&Hty&Hgs&_)).
    assert (fd ∈ link_decls sd) as Hin.
    { unfold link_decls. apply elem_of_list_filter. split; [unfold is_link; by rewrite Hty, Hk|by eapply elem_of_list_lookup_2]. }
    apply elem_of_list_lookup in Hin as [k Hin]. exists k, fd. split_and!; try done.
    intros x [->|(a&xs&Ha&Hl&Hp&Hx&Hxs)]; exists fd; (split; [done|]); [by left|right].
    assert (a ∈ named "group" (rf_attrs f)) as Hna by (apply elem_of_list_filter; done).
    apply elem_of_list_lookup in Hna as [m Hm]. destruct (Forall2_lookup_r _ _ _ _ _ Hgs Hm) as (xs'&Hxs'&Hx').
    assert (xs' = xs) as ->.
    { apply (names_iff (fun _ => true)) in Hx. apply (names_iff (fun _ => true)) in Hx'. congruence. }
    exists xs. split; [by eapply elem_of_list_lookup_2|done].
  Qed.
End text.

(** ** Declarations that mean what they say *)
Definition nonvec_link (s : schema) (l : link) : Prop :=
  forall A sd f, sc_vars s !! l_var l = Some (A, sd) -> link_decls sd !! l_fld l = Some f -> f_ty f <> FLink KVec.
Definition fits (s : schema) (t : nat) (l : link) : Prop :=
  forall d, d ∈ sc_anns s -> denotes s (an_var d) (an_link d) l -> exists W, W ∈ an_targets d /\ covers_var s W t.
Record well_declared (camel : string -> string) (s : schema) : Prop := {
  (** the generated code compiles *)
  wd_acc : accepted camel s;
  (** groups have different names, which are not names of variants *)
  wd_groups : groups_apart s;
  (** no field has two [#[group]] attributes *)
  wd_one : forall A sd, (A, sd) ∈ sc_vars s -> one_attribute sd;
  (** links and groups are spelled as in the structs *)
  wd_bidi : bidi_spelled s;
  wd_anns : anns_spelled s;
  (** a variant's name is annotated once *)
  wd_single : anns_single s;
  (** a link has one partner in each variant, which is listed once *)
  wd_partner : forall l m m', declares s l m \/ declares s m l -> declares s l m' \/ declares s m' l -> l_var m = l_var m' -> m = m';
  wd_nodup : forall l, NoDup (opp camel s l);
  (** bidirectional links are not Vec links and fit the annotations *)
  wd_fit : forall l m, declares s l m \/ declares s m l -> nonvec_link s l /\ fits s (l_var l) m }.

Section run.
  Context {D : Type} (camel : string -> string) (s : schema) (ho : N -> list idx -> list idx) (dbg : bool).
  Let E := env_of camel s ho dbg.
  Context (Hwd : well_declared camel s).

  Lemma nonvec_link_iff l : nonvec_link s l <-> nonvec E l.
  Proof using.
    unfold nonvec, nonvec_link. cbn. rewrite list_lookup_fmap. destruct (sc_vars s !! l_var l) as [[A sd]|] eqn:Hv; cbn.
    - split.
      + intros H (f&Hf&Hk)%link_types_decl. by eapply H.
      + intros Hnv A' sd' f [= <- <-] Hf Hk. apply Hnv. apply link_types_decl. by exists f.
    - split; [done|]. by intros _ ?.
  Qed.
  Lemma wd_opp l m : m ∈ e_opp E l <-> declares s l m \/ declares s m l.
  Proof using Hwd. destruct Hwd. by apply opp_declares. Qed.
  Lemma wd_chk t l : e_chk E t l = true <-> fits s t l.
  Proof using Hwd.
    destruct Hwd as [H1 H2 H3 _ H4 H5 _ _ _]. apply (check_type_iff camel s H1 H2 H3 H4).
    intros x d d' (Hd&Hc&Hx) (Hd'&Hc'&Hx'). eapply H5; [done..|congruence].
  Qed.
  Lemma wd_single_choice : single_choice E.
  Proof using Hwd.
    split.
    - intros l k ?%wd_opp. apply wd_opp. tauto.
    - intros l k k' ?%wd_opp ?%wd_opp. by eapply (wd_partner _ _ Hwd).
    - apply (wd_nodup _ _ Hwd).
    - intros l k ?%wd_opp. apply nonvec_link_iff. eapply (wd_fit _ _ Hwd k l). tauto.
  Qed.
  Lemma wd_bidi_typed : bidi_typed E.
  Proof using Hwd. intros l k ?%wd_opp. apply wd_chk. by eapply (wd_fit _ _ Hwd). Qed.

  (** asking for a field by name finds its links *)
  Lemma by_name_mem sd (n : node D) k fd y : struct_accepted camel sd -> link_decls sd !! k = Some fd -> y <> 0%N ->
    y ∈ get_links_by_name sd E n (f_name fd) <-> has_link n (Link (nvar n) k) y.
  Proof using.
    intros Hacc Hfd Hy. unfold get_links_by_name.
    rewrite (list_find_unique fst (links sd) k (f_name fd, match f_ty fd with FLink k => k | _ => KDirect end) (f_name fd)); [|apply (link_names_NoDup camel sd Hacc)| |done].
    2: by rewrite links_decls, list_lookup_fmap, Hfd.
    unfold has_link. cbn. destruct (nlinks n !! k) as [lv|]; [|split; [by intros ?%elem_of_nil|by intros (_&_&?&?&_)]].
    assert (y ∈ field_links E lv <-> y ∈ lv_elems lv) as ->.
    { destruct lv as [i|sk l|l]; cbn.
      - destruct (N.eqb_spec i 0) as [->|]; [|done]. split; [by intros ?%elem_of_nil|]. by intros ->%elem_of_list_singleton.
      - by rewrite set_iter_perm.
      - rewrite elem_of_list_filter. tauto. }
    naive_solver.
  Qed.
End run.

Section final.
  Context {D : Type} (word : string -> bool) (structs : ty -> rstruct) (is : list item) (camel : string -> string) (s : schema)
    (ho : N -> list idx -> list idx) (dbg : bool).
  Let E := env_of camel s ho dbg.
  Context (Hsc : node_enum word (read_struct structs) is = Some s).
  Context (Hst : forall A t, text_variant is A t -> is_Some (typed_node (structs t))).
  Context (Hwd : well_declared camel s).
  Context (w : world (D:=D)) (kg : nat) (c : nat) (g : graph D) (Ht : tidy E w) (Hg : w_graphs w !! kg = Some (c, g)).

  Lemma final_text_zero i n : graph_get g i = Some n -> i <> 0%N.
  Proof using Ht Hg.
    intros Hi ->. assert (graph_of E True g) as Hgo by (exists w, kg, c; split; [by apply tidy_reachable|done]).
    pose proof (wf_zero _ _ (proj1 (graph_of_ok E True g Hgo))). congruence.
  Qed.
  Lemma text_var_lookup A v : var_name s v = Some A -> exists sd, sc_vars s !! v = Some (A, sd) /\ struct_of s v = sd /\ struct_accepted camel sd.
  Proof using Hwd.
    intros Hv. destruct Hwd as [Hac _ _ _ _ _ _ _ _]. apply var_name_inv in Hv as (sd&Hv). exists sd. split; [done|].
    destruct (var_lookup camel s Hac v A sd Hv) as (_&?&_). split; [done|]. eapply (ac_structs _ _ Hac). by eapply elem_of_list_lookup_2.
  Qed.

  Theorem final_text_sym i j ni nj A f B h : graph_get g i = Some ni -> graph_get g j = Some nj ->
    var_name s (nvar ni) = Some A -> var_name s (nvar nj) = Some B -> text_bidi word structs is A f B h ->
    j ∈ get_links_by_name (struct_of s (nvar ni)) E ni (rf_name f) <-> i ∈ get_links_by_name (struct_of s (nvar nj)) E nj (rf_name h).
  Proof using Hsc Hst Hwd Ht Hg.
    intros Hi Hj HA HB (X&x&Y&y&Hd&HXA&HfA&Hx&HYB&HhB&Hy).
    destruct (tidy_orderly E w (wd_single_choice camel s ho dbg Hwd) (wd_bidi_typed camel s ho dbg Hwd) Ht kg c g Hg) as [_ Hsym _].
    destruct (text_var_lookup A _ HA) as (sd&Hv&Hsd&Hacc). destruct (text_var_lookup B _ HB) as (sd'&Hv'&Hsd'&Hacc').
    pose proof (ac_vars _ _ (wd_acc _ _ Hwd)) as Hnd.
    destruct (text_link word structs is s Hsc Hst A f _ sd Hnd Hv HfA) as (k&fd&Hk&Hn&_&Hc).
    destruct (text_link word structs is s Hsc Hst B h _ sd' Hnd Hv' HhB) as (k'&fd'&Hk'&Hn'&_&Hc').
    unfold E. rewrite Hsd, Hsd', <- Hn, <- Hn'.
    rewrite (by_name_mem camel s ho dbg sd ni k fd) by (try done; by eapply final_text_zero).
    rewrite (by_name_mem camel s ho dbg sd' nj k' fd') by (try done; by eapply final_text_zero).
    apply (Hsym i j ni nj); try done. apply (wd_opp camel s ho dbg Hwd). left. exists (Bidi X x Y y).
    destruct (text_schema word structs is s Hsc) as (Hbi&_). split; [by apply Hbi|]. unfold denotes. cbn. rewrite Hsd, Hsd'.
    split; (split; [|by auto]); by eapply (stands_covers word structs is s Hsc).
  Qed.

  Theorem final_text_type i j ni A f Ws : graph_get g i = Some ni -> var_name s (nvar ni) = Some A ->
    text_type word structs is A f Ws -> field_ty (rf_ty f) <> FLink KVec -> j <> 0%N ->
    j ∈ get_links_by_name (struct_of s (nvar ni)) E ni (rf_name f) ->
    exists nj B W, graph_get g j = Some nj /\ var_name s (nvar nj) = Some B /\ W ∈ Ws /\ stands_for word is W B.
  Proof using Hsc Hst Hwd Ht Hg.
    intros Hi HA (X&x&Hd&HXA&HfA&Hx) Hnv Hj0 Hin.
    destruct (tidy_orderly E w (wd_single_choice camel s ho dbg Hwd) (wd_bidi_typed camel s ho dbg Hwd) Ht kg c g Hg) as [Hcl _ Hty].
    destruct (text_var_lookup A _ HA) as (sd&Hv&Hsd&Hacc). pose proof (ac_vars _ _ (wd_acc _ _ Hwd)) as Hnd.
    destruct (text_link word structs is s Hsc Hst A f _ sd Hnd Hv HfA) as (k&fd&Hk&Hn&Hfty&Hc).
    unfold E in Hin. rewrite Hsd, <- Hn, (by_name_mem camel s ho dbg sd ni k fd) in Hin by done.
    destruct (Hcl i ni j Hi) as [nj Hj]; [by eexists|].
    assert (e_chk E (nvar nj) (Link (nvar ni) k) = true) as Hchk.
    { eapply (Hty i j ni nj); [exact Hi|exact Hin| |exact Hj]. apply nonvec_link_iff. intros A' sd2 f' Hv2 Hf'. cbn in *. rewrite Hv in Hv2. injection Hv2 as <- <-.
      rewrite Hk in Hf'. injection Hf' as <-. by rewrite Hfty. }
    destruct (text_schema word structs is s Hsc) as (_&_&Han&_). apply (wd_chk camel s ho dbg Hwd) in Hchk.
    destruct (Hchk (Anno X x Ws)) as (W&HW&HWv).
    { by apply Han. }
    { split; cbn; [by eapply (stands_covers word structs is s Hsc)|rewrite Hsd; by auto]. }
    cbn in HW. pose proof HWv as (B&sd'&Hv'&_). exists nj, B, W. split; [done|]. split; [unfold var_name; by rewrite Hv'|]. split; [done|].
    by eapply (stands_covers word structs is s Hsc).
  Qed.
End final.
