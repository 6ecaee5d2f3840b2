(** * Properties of the generated tables: C16, C23, C27, C45 - C47, C49, C50 *)
From Verif Require Import Examples ExHist Decide PropsGraph PropsBidi DecideSchema.
Local Open Scope string_scope.

(** For the examples: capitalize the first letter, which is [upper_camel] for names without
    underscores and capitals. *)
Definition cap (x : string) : string :=
  match x with
  | String c r => if Nat.leb 97 (Ascii.nat_of_ascii c) && Nat.leb (Ascii.nat_of_ascii c) 122 then String (Ascii.ascii_of_nat (Ascii.nat_of_ascii c - 32)) r else x
  | EmptyString => x
  end.

(** The structs have the link fields of [nA] and [nB] (Examples.v). *)
Definition sA : sdecl := Struct
  [Field "next" (FLink KDirect) [["out"; "any"]]; Field "n" (FPath "usize") []; Field "peers" (FLink (KSet SBTree)) [["out"]];
   Field "pair" (FOther "(usize, usize)") []; Field "items" (FLink KVec) []] [].
Definition sB : sdecl := Struct
  [Field "owner" (FLink KDirect) []; Field "users" (FLink (KSet SHash)) [["any"]]; Field "n" (FPath "usize") []] ["out"].
Definition S1 : schema := Schema [("A", sA); ("B", sB)]
  [Bidi "first" "out" "B" "users"; Bidi "B" "owner" "B" "owner"]
  [("first", ["A"]); ("all", ["A"; "B"])]
  [Anno "all" "out" ["B"]; Anno "B" "owner" ["all"]; Anno "all" "any" ["B"; "first"]].
Definition ES1 : env := env_of cap S1 (fun _ l => l) true.
Lemma S1_ok : accepted cap S1 /\ groups_apart S1 /\ (forall A sd, (A, sd) ∈ sc_vars S1 -> one_attribute sd) /\
  bidi_spelled S1 /\ anns_spelled S1 /\ anns_single S1.
Proof.
  split; [apply acceptedb_sound; computes|]. split; [apply groups_apartb_sound; computes|].
  split; [apply one_attributeb_sound; computes|]. split; [apply bidi_spelledb_sound; computes|].
  split; [apply anns_spelledb_sound; computes|apply anns_singleb_sound; computes].
Qed.

(** A.next <-> B.users written with groups: one partner each *)
Definition S4 : schema := Schema [("A", sA); ("B", sB)] [Bidi "first" "any" "second" "any"]
  [("first", ["A"]); ("second", ["B"]); ("all", ["B"; "A"])] [Anno "A" "next" ["second"]; Anno "B" "any" ["first"]].
Definition ES4 : env := env_of cap S4 (fun _ l => l) true.
Lemma S4_ok : accepted cap S4 /\ groups_apart S4 /\ (forall A sd, (A, sd) ∈ sc_vars S4 -> one_attribute sd) /\
  bidi_spelled S4 /\ anns_spelled S4 /\ anns_single S4.
Proof.
  split; [apply acceptedb_sound; computes|]. split; [apply groups_apartb_sound; computes|].
  split; [apply one_attributeb_sound; computes|]. split; [apply bidi_spelledb_sound; computes|].
  split; [apply anns_spelledb_sound; computes|apply anns_singleb_sound; computes].
Qed.

(** ** C16 *)
(** [ms] is the first group declared with the name [x] *)
Definition first_group (s : schema) (x : string) (ms : list string) : Prop :=
  exists pre post, sc_groups s = (pre ++ (x, ms) :: post)%list /\ x ∉ pre.*1.
Lemma first_group_get s x ms : first_group s x ms <-> omap_get x (sc_groups s) = Some ms.
Proof.
  unfold first_group. generalize (sc_groups s). intros l. induction l as [|[y ms'] l IH]; cbn.
  - split; [intros (pre&post&Heq&_); by destruct pre|done].
  - case_decide as Hx; [subst y|]; split.
    + intros (pre&post&Heq&Hn). destruct pre as [|[y ?] pre]; cbn in *; [congruence|]. exfalso. apply Hn. injection Heq as -> _. left.
    + intros [= ->]. exists [], l. split; [done|]. by intros ?%elem_of_nil.
    + intros (pre&post&Heq&Hn). destruct pre as [|[z ?] pre]; cbn in *; [congruence|]. apply IH. exists pre, post.
      injection Heq as -> _ ->. split; [done|]. apply not_elem_of_cons in Hn. tauto.
    + intros (pre&post&->&Hn)%IH. exists ((y, ms') :: pre), post. split; [done|]. cbn. by apply not_elem_of_cons.
Qed.
Theorem C16_iter_group_exact :
  forall {D} (camel : string -> string) (s : schema) ho dbg (T : Prop) (g : graph D) (x : string),
  graph_of (env_of camel s ho dbg) T g ->
  (forall i n, (i, n) ∈ iter_group s g x <->
     graph_get g i = Some n /\ exists ms A sd, first_group s x ms /\ sc_vars s !! nvar n = Some (A, sd) /\ A ∈ ms) /\
  NoDup (iter_group s g x).*1 /\
  (x ∉ (sc_groups s).*1 -> iter_group s g x = []).
Proof.
  intros D camel s ho dbg T g x Hg. destruct (graph_iter_agree _ _ g Hg) as (Hit&Hkeys&_).
  assert (forall n : node D, in_group s n x = true <-> exists ms A sd, first_group s x ms /\ sc_vars s !! nvar n = Some (A, sd) /\ A ∈ ms) as Hin.
  { intros n. setoid_rewrite first_group_get. unfold in_group. destruct (omap_get x (sc_groups s)) as [ms|] eqn:Hx.
    - destruct (var_name s (nvar n)) as [A|] eqn:HA.
      + apply var_name_inv in HA as (sd&Hv). rewrite bool_decide_eq_true. split.
        * intros Hms. by exists ms, A, sd.
        * intros (ms'&A'&sd'&Hms'&Hv'&HA'). congruence.
      + split; [done|]. intros (ms'&A'&sd'&_&Hv'&_). unfold var_name in HA. by rewrite Hv' in HA.
    - split; [done|]. intros (ms'&A'&sd'&Hms'&_). done. }
  unfold iter_group. split; [|split].
  - intros i n. rewrite elem_of_list_filter, Hit, Hin. cbn. tauto.
  - clear -Hkeys. induction (graph_iter g) as [|[i n] l IH]; [done|]. cbn in Hkeys. apply NoDup_cons in Hkeys as [Hi Hl].
    rewrite filter_cons. case_decide; [|by apply IH]. cbn. constructor; [|by apply IH].
    intros ([j n']&->&[_ Hj]%elem_of_list_filter)%elem_of_list_fmap. apply Hi. apply elem_of_list_fmap. by exists (j, n').
  - intros Hx. apply filter_none. intros [i n] _ (ms&A&sd&(pre&post&Heq&_)&_)%Hin. apply Hx. rewrite Heq, fmap_app. apply elem_of_app. right. left.
Qed.
Print Assumptions C16_iter_group_exact.

Definition es_g : graph nat := match run_graph ES4 bsetup 0 with Some g => g | None => graph_new ES4 0 end.
Example C16_case : graph_of ES4 True es_g /\ first_group S4 "all" ["B"; "A"] /\
  (iter_group S4 es_g "first").*1 = [3; 4]%N /\ length (iter_group S4 es_g "all") = 4 /\ iter_group S4 es_g "none" = [].
Proof.
  split; [apply (run_graph_of ES4 True bsetup 0); [sides|vm_compute; reflexivity]|].
  split; [apply first_group_get; computes|]. split_and!; computes.
Qed.

(** ** C23 *)
(** For schemas without repeated or clashing group names, with at most one [#[group]]
    attribute per field and with names spelled as declared. *)
Theorem C23_opposites_declared_partial :
  forall (camel : string -> string) (s : schema) ho dbg l m,
  accepted camel s -> groups_apart s -> (forall A sd, (A, sd) ∈ sc_vars s -> one_attribute sd) -> bidi_spelled s ->
  m ∈ e_opp (env_of camel s ho dbg) l <-> declares s l m \/ declares s m l.
Proof. intros. by apply opp_declares. Qed.
Print Assumptions C23_opposites_declared_partial.
Theorem C23_opposites_symmetric_partial :
  forall (camel : string -> string) (s : schema) ho dbg l m,
  accepted camel s -> groups_apart s -> (forall A sd, (A, sd) ∈ sc_vars s -> one_attribute sd) -> bidi_spelled s ->
  m ∈ e_opp (env_of camel s ho dbg) l -> l ∈ e_opp (env_of camel s ho dbg) m.
Proof.
  intros camel s ho dbg l m H1 H2 H3 H4 Hm. apply (C23_opposites_declared_partial camel s ho dbg l m) in Hm; [|done..].
  apply (C23_opposites_declared_partial camel s ho dbg m l); [done..|tauto].
Qed.
Print Assumptions C23_opposites_symmetric_partial.
Example C23_case : accepted cap S1 /\ groups_apart S1 /\ (forall A sd, (A, sd) ∈ sc_vars S1 -> one_attribute sd) /\ bidi_spelled S1 /\
  e_opp ES1 (Link 0 0) = [Link 1 1] /\ e_opp ES1 (Link 0 1) = [Link 1 1] /\ e_opp ES1 (Link 1 1) = [Link 0 0; Link 0 1] /\
  e_opp ES1 (Link 1 0) = [Link 1 0] /\ e_opp ES1 (Link 0 2) = [].
Proof. destruct S1_ok as (?&?&?&?&_). split_and!; try done; computes. Qed.

(** With two attributes on one field the generated tables do not match the declarations:
    [A.h <-> B.z] with [#[group(g)] #[group(h)] x, y] makes y, not x, the partner of B.z,
    and the partner of B.z is x. *)
Definition S2 : schema := Schema
  [("A", Struct [Field "x" (FLink KDirect) [["g"]; ["h"]]; Field "y" (FLink KDirect) []] []);
   ("B", Struct [Field "z" (FLink KDirect) []] [])]
  [Bidi "A" "h" "B" "z"] [] [].
Theorem C23_two_attributes_refuted : exists s l l' m,
  accepted cap s /\ groups_apart s /\ bidi_spelled s /\
  declares s l m /\ m ∉ opp cap s l /\
  ~ (declares s l' m \/ declares s m l') /\ m ∈ opp cap s l' /\ l' ∉ opp cap s m.
Proof.
  exists S2, (Link 0 0), (Link 0 1), (Link 1 0).
  split; [apply acceptedb_sound; computes|]. split; [apply groups_apartb_sound; computes|].
  split; [apply bidi_spelledb_sound; computes|]. split; [apply declaresb_iff; computes|].
  split; [decides|]. split; [rewrite <- !declaresb_iff; vm_compute; intuition congruence|]. split; decides.
Qed.
Print Assumptions C23_two_attributes_refuted.
(** Two groups of the same name: [bidirectional!] takes the last one. *)
Definition S3 : schema := Schema
  [("A", Struct [Field "x" (FLink KDirect) []] []); ("B", Struct [Field "x" (FLink KDirect) []] []); ("C", Struct [Field "z" (FLink (KSet SBTree)) []] [])]
  [Bidi "g" "x" "C" "z"] [("g", ["A"]); ("g", ["B"])] [].
Theorem C23_repeated_group_refuted : exists s l m,
  accepted cap s /\ (forall A sd, (A, sd) ∈ sc_vars s -> one_attribute sd) /\ bidi_spelled s /\
  declares s l m /\ m ∉ opp cap s l.
Proof.
  exists S3, (Link 0 0), (Link 2 0).
  split; [apply acceptedb_sound; computes|]. split; [apply one_attributeb_sound; computes|].
  split; [apply bidi_spelledb_sound; computes|]. split; [apply declaresb_iff; computes|]. decides.
Qed.
Print Assumptions C23_repeated_group_refuted.

(** C18 for the declared relation: if every declared link has one partner per variant and
    Vec links are not declared, a commit keeps the graph symmetric in the sense of the
    declarations. *)
Definition sym_declared {D} (s : schema) (g : graph D) : Prop :=
  forall a b na nb l m, graph_get g a = Some na -> graph_get g b = Some nb -> declares s l m \/ declares s m l ->
    l_var l = nvar na -> l_var m = nvar nb -> (has_link na l b <-> has_link nb m a).
Theorem C18_declared_symmetric :
  forall {D} (camel : string -> string) (sc : schema) ho dbg (g : graph D) (t : trans D) (s : tspec D) (g' : graph D),
  let E := env_of camel sc ho dbg in
  accepted camel sc -> groups_apart sc -> (forall A sd, (A, sd) ∈ sc_vars sc -> one_attribute sd) -> bidi_spelled sc ->
  (forall l m m', declares sc l m \/ declares sc m l -> declares sc l m' \/ declares sc m' l -> l_var m = l_var m' -> m = m') ->
  (forall l m, declares sc l m \/ declares sc m l -> nonvec E m) -> (forall l, NoDup (e_opp E l)) ->
  history E True g t s -> no_early g s -> sym_declared sc g ->
  commit E t g = Done g' tt -> sym_declared sc g'.
Proof.
  intros D camel sc ho dbg g t s g' E H1 H2 H3 H4 Hu Hv Hnd Hh Hne Hs Hc.
  assert (forall l m, m ∈ e_opp E l <-> declares sc l m \/ declares sc m l) as Hopp by (intros; by apply C23_opposites_declared_partial).
  assert (forall g0 : graph D, sym_declared sc g0 <-> bidi_symmetric E g0) as Heq.
  { intros g0. unfold sym_declared, bidi_symmetric. split.
    - intros H a b na nb l k Ha Hb Hk. apply H; [done|done|]. by apply Hopp.
    - intros H a b na nb l k Ha Hb Hk. apply H; [done|done|]. by apply Hopp. }
  apply Heq. apply (C18_bidirectional_symmetric E g t s g'); [done| |done|by apply Heq|done]. split.
  - intros l k ?%Hopp. apply Hopp. tauto.
  - intros l k k' ?%Hopp ?%Hopp ?. by eapply Hu.
  - done.
  - intros l k ?%Hopp. by eapply Hv.
Qed.
Print Assumptions C18_declared_symmetric.

Lemma S4_declares l m : declares S4 l m -> l = Link 0 0 /\ m = Link 1 1.
Proof. apply (declares_all S4 (fun l m => l = Link 0 0 /\ m = Link 1 1)). computes. Qed.
Lemma S4_opp l : l <> Link 0 0 -> l <> Link 1 1 -> e_opp ES4 l = [].
Proof.
  intros H1 H2. destruct (e_opp ES4 l) as [|m r] eqn:Hm; [done|]. destruct S4_ok as (?&?&?&?&_).
  assert (m ∈ e_opp ES4 l) as Hin by (rewrite Hm; left). apply C23_opposites_declared_partial in Hin; [|done..].
  destruct Hin as [[-> ->]%S4_declares|[-> ->]%S4_declares]; done.
Qed.
Lemma S4_dec l m : declares S4 l m \/ declares S4 m l -> (l = Link 0 0 /\ m = Link 1 1) \/ (l = Link 1 1 /\ m = Link 0 0).
Proof. intros [[-> ->]%S4_declares|[-> ->]%S4_declares]; tauto. Qed.
Lemma S4_support l k : k ∈ e_opp ES4 l -> l ∈ [Link 0 0; Link 1 1].
Proof.
  intros Hk. destruct (decide (l = Link 0 0)) as [->|]; [left|]. destruct (decide (l = Link 1 1)) as [->|]; [right; left|].
  rewrite S4_opp in Hk by done. by apply elem_of_nil in Hk.
Qed.
Lemma S4_mem l m : declares S4 l m \/ declares S4 m l -> m ∈ e_opp ES4 l.
Proof. destruct S4_ok as (?&?&?&?&_). by apply C23_opposites_declared_partial. Qed.
Example C18_declared_case :
  let g := hg ES4 bops in let g' := hc ES4 bops in
  accepted cap S4 /\ groups_apart S4 /\ (forall A sd, (A, sd) ∈ sc_vars S4 -> one_attribute sd) /\ bidi_spelled S4 /\
  (forall l m m', declares S4 l m \/ declares S4 m l -> declares S4 l m' \/ declares S4 m' l -> l_var m = l_var m' -> m = m') /\
  (forall l m, declares S4 l m \/ declares S4 m l -> nonvec ES4 m) /\ (forall l, NoDup (e_opp ES4 l)) /\
  history ES4 True g (ht ES4 bops) (hs ES4 bops) /\ no_early g (hs ES4 bops) /\ sym_declared S4 g /\
  commit ES4 (ht ES4 bops) g = Done g' tt /\ declares S4 (Link 0 0) (Link 1 1) /\ graph_get g' 2%N = Some (nB 0 [5; 3] 2)%N.
Proof.
  cbv zeta. assert (history ES4 True (hg ES4 bops) (ht ES4 bops) (hs ES4 bops)) as Hh.
  { apply run_hist_pick; [sides|]. vm_compute. eexists. reflexivity. }
  pose proof (hist_wf _ _ _ _ _ Hh) as Hwf. destruct S4_ok as (Ha&Hb&Hc&Hd&_).
  split; [done|]. split; [done|]. split; [done|]. split; [done|].
  split. { intros l m m' [[-> ->]|[-> ->]]%S4_dec [[? ->]|[? ->]]%S4_dec; done. }
  split. { intros l m [[-> ->]|[-> ->]]%S4_dec; vm_compute; done. }
  split. { intros l. destruct (decide (l = Link 0 0)) as [->|]; [decides|]. destruct (decide (l = Link 1 1)) as [->|]; [decides|].
    rewrite S4_opp by done. constructor. }
  split; [done|]. split; [apply (no_earlyb_sound ES4 _ _ Hwf); computes|]. split.
  { intros a b na nb l m Hna Hnb Hdec. assert (bidi_symmetric ES4 (hg ES4 bops)) as Hs.
    { apply (bidi_symmetricb_sound ES4 [Link 0 0; Link 1 1] _ Hwf); [exact S4_support|computes]. }
    apply Hs; [exact Hna|exact Hnb|]. apply S4_mem, Hdec. }
  split; [computes|]. split; [apply declaresb_iff; computes|computes].
Qed.

(** ** C27 *)
(** Provided a variant and a name are annotated at most once. *)
Theorem C27_annotations_meant_partial :
  forall (camel : string -> string) (s : schema) ho dbg t l,
  accepted camel s -> groups_apart s -> (forall A sd, (A, sd) ∈ sc_vars s -> one_attribute sd) -> anns_spelled s -> anns_single s ->
  e_chk (env_of camel s ho dbg) t l = true <->
  forall d, d ∈ sc_anns s -> denotes s (an_var d) (an_link d) l -> exists W, W ∈ an_targets d /\ covers_var s W t.
Proof.
  intros camel s ho dbg t l H1 H2 H3 H4 H5. apply (check_type_iff camel s H1 H2 H3 H4).
  intros x d d' (Hd&Hc&Hx) (Hd'&Hc'&Hx'). eapply H5; [done..|congruence].
Qed.
Print Assumptions C27_annotations_meant_partial.
Example C27_case : accepted cap S1 /\ groups_apart S1 /\ (forall A sd, (A, sd) ∈ sc_vars S1 -> one_attribute sd) /\ anns_spelled S1 /\ anns_single S1 /\
  e_chk ES1 0 (Link 0 0) = false /\ e_chk ES1 1 (Link 0 0) = true /\ e_chk ES1 0 (Link 1 0) = true /\ e_chk ES1 0 (Link 0 2) = true.
Proof. destruct S1_ok as (?&?&?&?&?&?). split_and!; try done; computes. Qed.

(** C24 for the declared annotations: every direct or set link to a node of the graph
    satisfies the annotations that name it, if it did before and the declarations of
    bidirectional links fit the annotations. *)
Definition meets (s : schema) (t : nat) (l : link) : Prop :=
  forall d, d ∈ sc_anns s -> denotes s (an_var d) (an_link d) l -> exists W, W ∈ an_targets d /\ covers_var s W t.
Definition no_vec (s : schema) (l : link) : Prop :=
  forall A sd f, sc_vars s !! l_var l = Some (A, sd) -> link_decls sd !! l_fld l = Some f -> f_ty f <> FLink KVec.
Definition typed_declared {D} (s : schema) (g : graph D) : Prop :=
  forall x y nx ny l, graph_get g x = Some nx -> has_link nx l y -> no_vec s l -> graph_get g y = Some ny -> meets s (nvar ny) l.
Lemma no_vec_iff camel s ho dbg l : no_vec s l <-> nonvec (env_of camel s ho dbg) l.
Proof.
  unfold nonvec, no_vec. cbn. rewrite list_lookup_fmap. destruct (sc_vars s !! l_var l) as [[A sd]|] eqn:Hv; cbn.
  - split.
    + intros H (f&Hf&Hk)%link_types_decl. by eapply H.
    + intros Hnv A' sd' f [= <- <-] Hf Hk. apply Hnv. apply link_types_decl. by exists f.
  - split; [done|]. by intros _ ?.
Qed.
Theorem C24_declared_types_kept :
  forall {D} (camel : string -> string) (sc : schema) ho dbg (g : graph D) (t : trans D) (s : tspec D) (g' : graph D),
  let E := env_of camel sc ho dbg in
  accepted camel sc -> groups_apart sc -> (forall A sd, (A, sd) ∈ sc_vars sc -> one_attribute sd) ->
  bidi_spelled sc -> anns_spelled sc -> anns_single sc ->
  (forall l m, declares sc l m \/ declares sc m l -> no_vec sc l /\ meets sc (l_var l) m) ->
  history E True g t s -> no_early g s -> typed_declared sc g ->
  commit E t g = Done g' tt -> typed_declared sc g'.
Proof.
  intros D camel sc ho dbg g t s g' E H1 H2 H3 H4 H5 H6 Hb Hh Hne Hs Hc.
  assert (forall t l, e_chk E t l = true <-> meets sc t l) as Hchk by (intros; by apply C27_annotations_meant_partial).
  assert (forall l m, m ∈ e_opp E l <-> declares sc l m \/ declares sc m l) as Hopp by (intros; by apply C23_opposites_declared_partial).
  assert (forall g0 : graph D, typed_declared sc g0 <-> links_typed E g0) as Heq.
  { intros g0. unfold typed_declared, links_typed. split; intros H x y nx ny l Hx Hl Hv Hy; apply Hchk.
    - eapply H; [exact Hx|exact Hl| |exact Hy]. by apply (no_vec_iff camel sc ho dbg).
    - eapply H; [exact Hx|exact Hl| |exact Hy]. by apply (no_vec_iff camel sc ho dbg). }
  apply Heq. apply (C24_link_types_kept E g t s g'); [done|..|done|by apply Heq|done].
  - intros l k Hk%Hopp. apply (no_vec_iff camel sc ho dbg), (Hb l k Hk).
  - intros l k Hk%Hopp. apply Hchk, (Hb l k Hk).
Qed.
Print Assumptions C24_declared_types_kept.
Lemma meets_iff t l : meets S4 t l <-> e_chk ES4 t l = true.
Proof. destruct S4_ok as (?&?&?&_&?&?). symmetry. by apply C27_annotations_meant_partial. Qed.
Example C24_declared_case :
  let g := hg ES4 bops in
  (forall l m, declares S4 l m \/ declares S4 m l -> no_vec S4 l /\ meets S4 (l_var l) m) /\
  history ES4 True g (ht ES4 bops) (hs ES4 bops) /\ no_early g (hs ES4 bops) /\ typed_declared S4 g /\
  commit ES4 (ht ES4 bops) g = Done (hc ES4 bops) tt /\ ~ meets S4 0 (Link 0 0).
Proof.
  cbv zeta. pose proof C18_declared_case as (_&_&_&_&_&_&_&Hh&Hne&_&Hc&_). pose proof (hist_wf _ _ _ _ _ Hh) as Hwf.
  split. { intros l m [[-> ->]|[-> ->]]%S4_dec; (split; [apply (no_vec_iff cap S4 (fun _ l => l) true); vm_compute; done|apply meets_iff; computes]). }
  split; [exact Hh|]. split; [exact Hne|]. split; [|split; [exact Hc|rewrite meets_iff; vm_compute; done]].
  intros x y nx ny l Hx Hl Hv Hy. apply meets_iff.
  assert (links_typed ES4 (hg ES4 bops)) as Hty by (apply (links_typedb_sound ES4 _ Hwf); computes).
  eapply Hty; [exact Hx|exact Hl| |exact Hy]. apply (no_vec_iff cap S4 (fun _ l => l) true), Hv.
Qed.

(** Of two annotations of the same link only one takes effect: [A.x: B, A.x: C] accepts B
    and rejects C. *)
Definition S5 : schema := Schema
  [("A", Struct [Field "x" (FLink KDirect) []] []); ("B", Struct [] []); ("C", Struct [] [])]
  [] [] [Anno "A" "x" ["B"]; Anno "A" "x" ["C"]].
Theorem C27_two_annotations_refuted : exists s d d' t l,
  accepted cap s /\ groups_apart s /\ (forall A sd, (A, sd) ∈ sc_vars s -> one_attribute sd) /\ anns_spelled s /\
  d ∈ sc_anns s /\ denotes s (an_var d) (an_link d) l /\ ~ (exists W, W ∈ an_targets d /\ covers_var s W t) /\
  check_type cap s t l = true /\
  d' ∈ sc_anns s /\ (exists W, W ∈ an_targets d /\ covers_var s W 2) /\ check_type cap s 2 l = false.
Proof.
  exists S5, (Anno "A" "x" ["C"]), (Anno "A" "x" ["B"]), 1, (Link 0 0).
  split; [apply acceptedb_sound; computes|]. split; [apply groups_apartb_sound; computes|].
  split; [apply one_attributeb_sound; computes|]. split; [apply anns_spelledb_sound; computes|].
  split; [right; left|]. split; [apply denotesb_iff; computes|]. split.
  { intros (W&HW&Hc). cbn in HW. apply elem_of_list_singleton in HW as ->. apply covers_varb_iff in Hc. vm_compute in Hc. done. }
  split; [computes|]. split; [left|]. split; [|computes]. exists "C". split; [left|]. apply covers_varb_iff. computes.
Qed.
Print Assumptions C27_two_annotations_refuted.
(** An annotation of a variant that does not exist is accepted and ignored. *)
Theorem C27_unknown_variant_refuted : exists s d,
  accepted cap s /\ d ∈ sc_anns s /\ (forall v, ~ covers_var s (an_var d) v) /\ forall t l, check_type cap s t l = true.
Proof.
  exists (Schema [("A", Struct [Field "x" (FLink KDirect) []] [])] [] [] [Anno "Aa" "x" ["A"]]), (Anno "Aa" "x" ["A"]).
  split; [apply acceptedb_sound; computes|]. split; [left|]. split.
  - intros v Hv. apply covers_varb_iff in Hv. destruct v; vm_compute in Hv; done.
  - intros t [v f]. destruct v as [|v]; [|reflexivity]. destruct f; [|reflexivity]. reflexivity.
Qed.
Print Assumptions C27_unknown_variant_refuted.

(** ** C45 *)
Theorem C45_by_name_partial :
  forall {D} (camel : string -> string) (sd : sdecl) E (n : node D) (x : string),
  struct_accepted camel sd -> length (nlinks n) = length (links sd) ->
  (forall f k l, nlinks n !! f = Some (LSet k l) -> 0%N ∉ l) ->
  (forall f fd lv, link_decls sd !! f = Some fd -> f_name fd = x -> nlinks n !! f = Some lv -> get_links_by_name sd E n x ≡ₚ targets lv) /\
  ((forall fd, fd ∈ link_decls sd -> f_name fd <> x) -> get_links_by_name sd E n x = []).
Proof. intros. by apply (by_name_iff camel). Qed.
Print Assumptions C45_by_name_partial.
(** For at most one [#[group]] attribute per field, without repeated names, and provided
    the Vec and set links of the group hold no empty index. *)
Theorem C45_by_group_partial :
  forall {D} (sd : sdecl) E (n : node D) (g : string),
  one_attribute sd -> attrs_distinct sd -> length (nlinks n) = length (links sd) ->
  (forall f fd lv, link_decls sd !! f = Some fd -> g ∈ concat (f_attrs fd) -> nlinks n !! f = Some lv -> no_empties lv) ->
  get_links_by_group sd E n g ≡ₚ group_targets sd n g.
Proof. intros. by apply by_group_targets. Qed.
Print Assumptions C45_by_group_partial.
Example C45_case :
  let n := nA 7 [3; 5]%N [0; 4]%N 1 in
  struct_accepted cap sA /\ one_attribute sA /\ attrs_distinct sA /\ length (nlinks n) = length (links sA) /\
  get_links_by_name sA E0 n "items" = [4]%N /\ get_links_by_name sA E0 n "n" = [] /\
  get_links_by_group sA E0 n "out" = [7; 3; 5]%N /\ get_links_by_group sA E0 n "any" = [7]%N /\
  forall f fd lv, link_decls sA !! f = Some fd -> "out" ∈ concat (f_attrs fd) -> nlinks n !! f = Some lv -> no_empties lv.
Proof.
  cbv zeta. destruct S1_ok as (Ha&_&Ho&_). split; [apply (ac_structs _ _ Ha "A"); left|]. split; [apply (Ho "A"); left|].
  split. { intros fd a Hfd Ha'. repeat (apply elem_of_cons in Hfd as [->|Hfd]; [cbn in Ha'; repeat (apply elem_of_cons in Ha' as [->|Ha']; [decides|]); by apply elem_of_nil in Ha'|]). by apply elem_of_nil in Hfd. }
  split; [computes|]. split; [computes|]. split; [computes|]. split; [computes|]. split; [computes|].
  intros f fd lv Hfd Hg Hlv. destruct f as [|[|[|f]]]; cbn in Hfd, Hlv; simplify_eq; cbn in *; [done|set_solver|set_solver].
Qed.
(** A Vec link of a group contributes its empty entries. *)
Theorem C45_group_empties_refuted : exists (sd : sdecl) (n : node nat) g,
  struct_accepted cap sd /\ one_attribute sd /\ attrs_distinct sd /\ length (nlinks n) = length (links sd) /\
  0%N ∈ get_links_by_group sd E0 n g /\ 0%N ∉ group_targets sd n g.
Proof.
  exists (Struct [Field "v" (FLink KVec) [["g"]]] []), (Node 0 [LVec [5; 0]%N] []), "g".
  split. { split; [decides|decides|]. intros f Hf _. apply elem_of_list_singleton in Hf as ->. by eexists. }
  split. { intros fd Hf. apply elem_of_list_singleton in Hf as ->. cbn. lia. }
  split. { intros fd a Hf Ha. apply elem_of_list_singleton in Hf as ->. apply elem_of_list_singleton in Ha as ->. decides. }
  split; [computes|]. split; decides.
Qed.
Print Assumptions C45_group_empties_refuted.
(** With two attributes on one field, another field is returned. *)
Theorem C45_two_attributes_refuted : exists (sd : sdecl) (n : node nat) g y,
  struct_accepted cap sd /\ length (nlinks n) = length (links sd) /\
  get_links_by_group sd E0 n g = [y] /\ group_targets sd n g <> [] /\ y ∉ group_targets sd n g.
Proof.
  exists (Struct [Field "x" (FLink KDirect) [["g"]; ["h"]]; Field "y" (FLink KDirect) []] []), (Node 0 [LDirect 5; LDirect 6]%N []), "h", 6%N.
  split. { split; [decides|decides|]. intros f Hf _. repeat (apply elem_of_cons in Hf as [->|Hf]; [by eexists|]). by apply elem_of_nil in Hf. }
  split; [computes|]. split; [computes|]. split; [vm_compute; done|decides].
Qed.
Print Assumptions C45_two_attributes_refuted.

(** ** C46 *)
(** [other_decls] lists the fields that are no links, [ndata] their values.  For fields
    whose type is written as a path. *)
Theorem C46_data_by_name_partial :
  forall {D} (camel : string -> string) (sd : sdecl) (n : node D) (T x : string) d, struct_accepted camel sd ->
  data_ref sd n T x = Some d <->
  exists i fd, other_decls sd !! i = Some fd /\ f_name fd = x /\ (exists ty, f_ty fd = FPath ty) /\ ndata n !! i = Some (T, d).
Proof. intros. by apply (data_ref_iff camel). Qed.
Print Assumptions C46_data_by_name_partial.
Definition nA2 : node nat := Node 0 [LDirect 7; LSet SBTree []; LVec []]%N [("usize", 5); ("(usize, usize)", 6)].
Example C46_case : struct_accepted cap sA /\ data_ref sA nA2 "usize" "n" = Some 5 /\ data_ref sA nA2 "String" "n" = None /\
  data_ref sA nA2 "usize" "next" = None.
Proof. destruct S1_ok as (Ha&_). split; [apply (ac_structs _ _ Ha "A"); left|]. split_and!; computes. Qed.
(** [data_names] lists, in the order of the declaration, exactly the names by which
    [data_ref_by_name] can return something. *)
Theorem C46_data_names :
  forall {D} (camel : string -> string) (sd : sdecl) (n : node D), struct_accepted camel sd -> length (ndata n) = length (other_decls sd) ->
  NoDup (data_names sd) /\ data_names sd `sublist_of` (f_name <$> sd_fields sd) /\
  forall x, x ∈ data_names sd <-> exists T d, data_ref sd n T x = Some d.
Proof.
  intros D camel sd n Hacc Hlen.
  assert (data_names sd `sublist_of` (f_name <$> sd_fields sd)) as Hsub.
  { unfold data_names, others. clear. induction (sd_fields sd) as [|fd fs IH]; [constructor|]. unfold field_data at 1. cbn.
    destruct (f_ty fd); cbn; [by constructor|by constructor|by constructor]. }
  split.
  { pose proof (sa_fields _ _ Hacc) as Hnd. apply sublist_submseteq, submseteq_Permutation in Hsub as (k'&Hk). rewrite Hk in Hnd. by apply NoDup_app in Hnd as [? _]. }
  split; [done|].
  intros x. unfold data_names. rewrite elem_of_list_fmap. split.
  - intros ([y b]&->&[Hb Hin]%elem_of_list_filter). cbn in Hb |- *. subst b.
    apply elem_of_list_lookup in Hin as [i Hi]. rewrite others_decls, list_lookup_fmap in Hi. apply fmap_Some in Hi as (fd&Hfd&[= -> Hty]).
    destruct (lookup_lt_is_Some_2 (ndata n) i) as [[T d] HT]; [rewrite Hlen; by eapply lookup_lt_Some|].
    exists T, d. apply (data_ref_iff camel); [done|]. exists i, fd. split; [done|]. split; [done|]. split; [|done].
    destruct (f_ty fd); [done|by eexists|done].
  - intros (T&d&H). apply (data_ref_iff camel) in H as (i&fd&Hfd&Hx&[ty Hty]&_); [|done]. exists (x, true). split; [done|].
    apply elem_of_list_filter. split; [done|]. rewrite others_decls. apply elem_of_list_fmap. exists fd. split; [by rewrite Hx, Hty|]. by eapply elem_of_list_lookup_2.
Qed.
Print Assumptions C46_data_names.
Example C46_names_case : struct_accepted cap sA /\ length (ndata nA2) = length (other_decls sA) /\ data_names sA = ["n"] /\ data_ref sA nA2 "usize" "n" = Some 5.
Proof. destruct S1_ok as (Ha&_). split; [apply (ac_structs _ _ Ha "A"); left|]. split_and!; computes. Qed.
(** A field of a tuple type cannot be reached. *)
Theorem C46_other_types_refuted : exists (sd : sdecl) (n : node nat) i fd T d,
  struct_accepted cap sd /\ other_decls sd !! i = Some fd /\ ndata n !! i = Some (T, d) /\ data_ref sd n T (f_name fd) = None.
Proof.
  exists sA, nA2, 1. eexists. exists "(usize, usize)", 6. destruct S1_ok as (Ha&_). split; [apply (ac_structs _ _ Ha "A"); left|].
  split; [reflexivity|]. split; computes.
Qed.
Print Assumptions C46_other_types_refuted.

(** ** C47 *)
(** The [f]-th entries of the three tables are the name, the kind and the mirror of the
    [f]-th link field; the targets that [iter_sources] reports for a link are those of
    [iter_links], in the same order; and [iter_sources] reports no other links. *)
Theorem C47_tables_aligned :
  forall {D} (camel : string -> string) (s : schema) ho dbg (n : node D) A sd,
  let E := env_of camel s ho dbg in
  sc_vars s !! nvar n = Some (A, sd) -> node_ok E n ->
  length (link_names sd) = length (link_decls sd) /\ length (link_types sd) = length (link_decls sd) /\
  length (link_mirrors sd (nvar n)) = length (link_decls sd) /\
  (forall f fd, link_decls sd !! f = Some fd ->
     link_names sd !! f = Some (f_name fd) /\ (FLink <$> link_types sd !! f) = Some (f_ty fd) /\
     exists l ys, link_mirrors sd (nvar n) !! f = Some l /\ iter_links E n l = Ok ys /\
       ys = (filter (fun p => src_link p.2 = l) (iter_sources E n)).*1) /\
  (forall y src, (y, src) ∈ iter_sources E n -> src_link src ∈ link_mirrors sd (nvar n)).
Proof.
  intros D camel s ho dbg n A sd E Hv Hok.
  assert (length (link_types sd) = length (link_decls sd)) as Hlt by (unfold link_types; by rewrite links_decls, !fmap_length).
  assert (length (links sd) = length (link_decls sd)) as Hll by (by rewrite links_decls, fmap_length).
  assert (length (nlinks n) = length (link_decls sd)) as Hln.
  { destruct Hok as (ks&Hks&Hf). cbn in Hks. rewrite list_lookup_fmap, Hv in Hks. injection Hks as <-.
    apply Forall2_length in Hf. by rewrite <- Hf, Hlt. }
  split; [by rewrite link_names_decls, fmap_length|]. split; [done|].
  split; [unfold link_mirrors; by rewrite fmap_length, seq_length|]. split.
  - intros f fd Hfd. split; [by rewrite link_names_lookup, Hfd|].
    pose proof (lookup_lt_Some _ _ _ Hfd) as Hlt'. split.
    { destruct (lookup_lt_is_Some_2 (link_types sd) f) as [k Hk]; [lia|]. rewrite Hk. cbn. f_equal.
      apply link_types_decl in Hk as (fd'&Hfd'&Hty). congruence. }
    assert (link_mirrors sd (nvar n) !! f = Some (Link (nvar n) f)) as Hm.
    { unfold link_mirrors. rewrite list_lookup_fmap, lookup_seq_lt by lia. done. }
    destruct (lookup_lt_is_Some_2 (nlinks n) f) as [lv Hlv]; [lia|].
    assert (iter_links E n (Link (nvar n) f) = Ok (field_links E lv)) as Hit.
    { unfold iter_links. cbn. by rewrite decide_True, Hlv. }
    exists (Link (nvar n) f), (field_links E lv). split; [done|]. split; [done|]. by rewrite (sources_of_link E n _ _ Hit).
  - intros y src (f&lv&Hlv&Hin)%elem_concat_imap. apply field_sources_link in Hin. cbn in Hin. rewrite Hin.
    unfold link_mirrors. apply elem_of_list_fmap_1, elem_of_seq. apply lookup_lt_Some in Hlv. lia.
Qed.
Print Assumptions C47_tables_aligned.
Example C47_case : sc_vars S1 !! nvar (nA 7 [3; 5]%N [0; 4]%N 1) = Some ("A", sA) /\ node_ok ES1 (nA 7 [3; 5]%N [0; 4]%N 1)%N /\
  link_names sA = ["next"; "peers"; "items"] /\ link_types sA = [KDirect; KSet SBTree; KVec] /\
  iter_sources ES1 (nA 7 [3; 5]%N [0; 4]%N 1) = [(7, Src 0 0 None); (3, Src 0 1 None); (5, Src 0 1 None); (4, Src 0 2 (Some 1%nat))]%N.
Proof.
  split; [reflexivity|]. split; [|split_and!; computes]. exists [KDirect; KSet SBTree; KVec]. split; [reflexivity|].
  repeat constructor; decides.
Qed.

(** ** C49 *)
(** Links and groups: resolving a name and asking a link for its names are inverse to each
    other.  [get_link_or_group_by_name] answers exactly for the names of the struct. *)
Theorem C49_groups_inverse_partial :
  forall (camel : string -> string) (sd : sdecl) (x : string), struct_accepted camel sd -> one_attribute sd ->
  (is_Some (log_by_name camel sd x) <-> struct_name sd x) /\
  forall c f, log_by_name camel sd x = Some c ->
    (f ∈ to_links camel sd c <-> covers_link sd x f) /\ (c ∈ to_logs camel sd f <-> covers_link sd x f).
Proof.
  intros camel sd x Hacc Hone. unfold log_by_name. split.
  - rewrite (struct_name_iff camel), <- elem_of_app. case_decide as Hx; (split; [intros [c Hc]|intros Hy]); [done|by eexists|done|done].
  - intros c f. case_decide as Hx; [|done]. intros [= <-]. apply elem_of_app, (struct_name_iff camel) in Hx.
    split; [by apply elem_to_links|]. rewrite (elem_to_logs camel sd f _ Hone). split; [|intros; by exists x].
    intros (y&Hy&Heq). by rewrite (log_names_inj camel sd Hacc x y Hx (or_introl (ex_intro _ f Hy)) Heq).
Qed.
Print Assumptions C49_groups_inverse_partial.
Example C49_case : struct_accepted cap sA /\ one_attribute sA /\ log_by_name cap sA "out" = Some "Out" /\
  to_links cap sA "Out" = [0; 1] /\ to_logs cap sA 0 = ["Next"; "Out"; "Any"] /\ log_by_name cap sA "n" = None.
Proof.
  destruct S1_ok as (Ha&_&Ho&_). split; [apply (ac_structs _ _ Ha "A"); left|]. split; [apply (Ho "A"); left|]. split_and!; computes.
Qed.
Theorem C49_groups_inverse_refuted : exists sd c f, struct_accepted cap sd /\ log_by_name cap sd "h" = Some c /\
  f ∈ to_links cap sd c /\ c ∉ to_logs cap sd f.
Proof.
  exists (Struct [Field "x" (FLink KDirect) [["g"]; ["h"]]; Field "y" (FLink KDirect) []] []), "H", 0.
  split. { split; [decides|decides|]. intros f Hf _. repeat (apply elem_of_cons in Hf as [->|Hf]; [by eexists|]). by apply elem_of_nil in Hf. }
  split; [computes|]. split; decides.
Qed.
Print Assumptions C49_groups_inverse_refuted.

(** ** C50 *)
Theorem C50_bidirectional_links_listed_partial :
  forall {D} (camel : string -> string) (s : schema) ho dbg (n : node D),
  let E := env_of camel s ho dbg in
  accepted camel s -> groups_apart s -> (forall A sd, (A, sd) ∈ sc_vars s -> one_attribute sd) -> bidi_spelled s -> node_ok E n ->
  (forall ys ms, (ys, ms) ∈ get_bidi_links camel s E n ->
     exists l, iter_links E n l = Ok ys /\ forall m, m ∈ ms <-> declares s l m \/ declares s m l) /\
  (forall l ys m, iter_links E n l = Ok ys -> declares s l m \/ declares s m l ->
     exists ms, (ys, ms) ∈ get_bidi_links camel s E n /\ forall m', m' ∈ ms <-> declares s l m' \/ declares s m' l).
Proof.
  intros D camel s ho dbg n E H1 H2 H3 H4 Hok. split.
  - intros ys ms Hin. destruct (get_bidi_links_sound camel s ho dbg n ys ms Hok Hin) as (f&lv&Hlv&->&->).
    exists (Link (nvar n) f). split; [|intros m; by apply opp_declares]. unfold iter_links. cbn. by rewrite decide_True, Hlv.
  - intros l ys m Hit Hm. exists (opp camel s l). split; [|intros m'; by apply opp_declares].
    unfold iter_links in Hit. destruct (decide (nvar n = l_var l)) as [Hn|]; [|done]. destruct (nlinks n !! l_fld l) as [lv|] eqn:Hlv; [|done].
    injection Hit as <-. destruct l as [v f]. cbn in *. subst v. apply get_bidi_links_complete; try done.
    apply (opp_declares camel s H1 H2 H3 H4) in Hm. intros Hnil. rewrite Hnil in Hm. by apply elem_of_nil in Hm.
Qed.
Print Assumptions C50_bidirectional_links_listed_partial.
Example C50_case : node_ok ES1 (nB 4 [3; 5]%N 1) /\ declares S1 (Link 0 0) (Link 1 1) /\
  get_bidi_links cap S1 ES1 (nB 4 [3; 5]%N 1) = [([4%N], [Link 1 0]); ([3; 5]%N, [Link 0 0; Link 0 1])].
Proof.
  split; [|split; [apply declaresb_iff; computes|computes]]. exists [KDirect; KSet SHash]. split; [reflexivity|]. repeat constructor; decides.
Qed.

(** ** C51 *)
(** The same group name means different things in [iter_group] and in [link_type!]:
    [group!{g{A}, g{B}}] with [link_type!{C.z: g}]. *)
Definition S6 : schema := Schema
  [("A", Struct [] []); ("B", Struct [] []); ("C", Struct [Field "z" (FLink KDirect) []] [])]
  [] [("g", ["A"]); ("g", ["B"])] [Anno "C" "z" ["g"]].
Theorem C51_repeated_group_refuted : exists s x d (l : link) (n : node nat),
  accepted cap s /\ d ∈ sc_anns s /\ an_targets d = [x] /\ denotes s (an_var d) (an_link d) l /\
  in_group s n x = true /\ check_type cap s (nvar n) l = false.
Proof.
  exists S6, "g", (Anno "C" "z" ["g"]), (Link 2 0), (Node 0 [] []).
  split; [apply acceptedb_sound; computes|]. split; [left|]. split; [done|]. split; [apply denotesb_iff; computes|]. split; computes.
Qed.
Print Assumptions C51_repeated_group_refuted.
(** Without repeated group names they agree. *)
Theorem C51_group_meaning_partial :
  forall {D} (camel : string -> string) (s : schema) ho dbg x d l (n : node D),
  accepted camel s -> groups_apart s -> (forall A sd, (A, sd) ∈ sc_vars s -> one_attribute sd) -> anns_spelled s -> anns_single s ->
  (forall d', d' ∈ sc_anns s -> denotes s (an_var d') (an_link d') l -> d' = d) ->
  d ∈ sc_anns s -> an_targets d = [x] -> x ∈ (sc_groups s).*1 -> denotes s (an_var d) (an_link d) l ->
  e_chk (env_of camel s ho dbg) (nvar n) l = in_group s n x.
Proof.
  intros D camel s ho dbg x d l n H1 H2 H3 H4 H5 Hu Hd Hx Hg Hl. apply eq_true_iff_eq.
  rewrite C27_annotations_meant_partial by done. destruct H2 as [Hnd Hap].
  unfold in_group. apply omap_key_get in Hg as Hg'. destruct Hg' as [ms Hms]. rewrite Hms. apply omap_get_elem in Hms. split.
  - intros H. destruct (H d Hd Hl) as (W&HW&(A&sd&Hv&Hc)). rewrite Hx in HW. apply elem_of_list_singleton in HW as ->.
    unfold var_name. rewrite Hv. cbn. apply bool_decide_eq_true. destruct Hc as [->|(ms'&Hms'&Hin)].
    + exfalso. apply (Hap A Hg). apply elem_of_list_fmap. exists (A, sd). split; [done|]. by eapply elem_of_list_lookup_2.
    + apply (omap_get_NoDup _ _ _ Hnd) in Hms, Hms'. congruence.
  - destruct (var_name s (nvar n)) as [A|] eqn:HA; [|done]. intros Hin%bool_decide_eq_true d' Hd' Hl'.
    rewrite (Hu d' Hd' Hl'). exists x. rewrite Hx. split; [left|]. apply var_name_inv in HA as (sd&Hv). exists A, sd. split; [done|]. right. by exists ms.
Qed.
Print Assumptions C51_group_meaning_partial.
Example C51_case : Anno "B" "owner" ["all"] ∈ sc_anns S1 /\ "all" ∈ (sc_groups S1).*1 /\ denotes S1 "B" "owner" (Link 1 0) /\
  (forall d', d' ∈ sc_anns S1 -> denotes S1 (an_var d') (an_link d') (Link 1 0) -> d' = Anno "B" "owner" ["all"]) /\
  e_chk ES1 0 (Link 1 0) = true /\ in_group S1 (nA 0 [] [] 0) "all" = true.
Proof.
  split; [decides|]. split; [decides|]. split; [apply denotesb_iff; computes|]. split; [|split; computes].
  intros d' Hd' Hl. apply denotesb_iff in Hl. repeat (apply elem_of_cons in Hd' as [->|Hd']; [by vm_compute in Hl|]). by apply elem_of_nil in Hd'.
Qed.
