(** * Property theorems: what the declarations say holds in the graphs (C92) *)
From Coq Require Import Ascii.
From Verif Require Import Front FrontFacts SchemaFacts Tidy Text PropsFront PropsSchema PropsTidy.
From Verif Require Import ExHist Decide DecideSchema Examples PropsBidi PropsOrder.
Open Scope string_scope.
Open Scope list_scope.

(** C92.  [is] is the text inside [node_enum!], [structs t] the text of the struct [t], and
    [s] what the macros read there.  [text_bidi word structs is A f B h]: a line
    [X.x <-> Y.y] is written, where [X] is the variant [A] or a group that lists it, [x] is
    the field [f] of [A]'s struct or a group in its attribute, and the same for [Y.y], [B]
    and [h].  Then in every graph of a tidy program (C63) the two fields mirror each other. *)
Theorem C92_bidirectional_as_written :
  forall {D} word structs is camel s ho dbg (w : world (D:=D)) kg c g,
  let E := env_of camel s ho dbg in
  node_enum word (read_struct structs) is = Some s ->
  (forall A t, text_variant is A t -> is_Some (typed_node (structs t))) ->
  well_declared camel s -> tidy E w -> w_graphs w !! kg = Some (c, g) ->
  forall i j ni nj A f B h,
  graph_get g i = Some ni -> graph_get g j = Some nj ->
  var_name s (nvar ni) = Some A -> var_name s (nvar nj) = Some B ->
  text_bidi word structs is A f B h ->
  j ∈ get_links_by_name (struct_of s (nvar ni)) E ni (rf_name f) <->
  i ∈ get_links_by_name (struct_of s (nvar nj)) E nj (rf_name h).
Proof.
  intros D word structs is camel s ho dbg w kg c g E H1 H2 H3 H4 H5 i j ni nj A f B h.
  exact (final_text_sym word structs is camel s ho dbg H1 H2 H3 w kg c g H4 H5 i j ni nj A f B h).
Qed.
Print Assumptions C92_bidirectional_as_written.

(** [text_type word structs is A f Ws]: a line [X.x: {Ws}] is written for the field [f] of
    the variant [A].  If [f] is not a Vec, what it links is a node whose variant is one of
    [Ws] or listed by a group among them. *)
Theorem C92_types_as_written :
  forall {D} word structs is camel s ho dbg (w : world (D:=D)) kg c g,
  let E := env_of camel s ho dbg in
  node_enum word (read_struct structs) is = Some s ->
  (forall A t, text_variant is A t -> is_Some (typed_node (structs t))) ->
  well_declared camel s -> tidy E w -> w_graphs w !! kg = Some (c, g) ->
  forall i j ni A f Ws,
  graph_get g i = Some ni -> var_name s (nvar ni) = Some A ->
  text_type word structs is A f Ws -> field_ty (rf_ty f) <> FLink KVec -> j <> 0%N ->
  j ∈ get_links_by_name (struct_of s (nvar ni)) E ni (rf_name f) ->
  exists nj B W, graph_get g j = Some nj /\ var_name s (nvar nj) = Some B /\ W ∈ Ws /\ stands_for word is W B.
Proof.
  intros D word structs is camel s ho dbg w kg c g E H1 H2 H3 H4 H5 i j ni A f Ws.
  exact (final_text_type word structs is camel s ho dbg H1 H2 H3 w kg c g H4 H5 i j ni A f Ws).
Qed.
Print Assumptions C92_types_as_written.

(** ** A text *)
Definition group_attr (xs : list string) : attr := Attr false ["group"] (Some (concat ((fun x => [TIdent x; comma]) <$> xs))).
Definition f_next : rfield := RField "next" (TyPath ["NodeIndex"]) [group_attr ["out"; "any"]].
Definition f_users : rfield := RField "users" (TyPath (set_of "HashSet")) [group_attr ["any"]].
Definition text_structs (t : ty) : rstruct :=
  if decide (t = pth "A") then RStruct (Some [f_next; rf "n" ["usize"]; RField "peers" (TyPath (set_of "BTreeSet")) [group_attr ["out"]];
      RField "pair" (TyOther ["(usize, usize)"]) []; rf "items" (set_of "Vec")]) []
  else RStruct (Some [rf "owner" ["NodeIndex"]; f_users; rf "n" ["usize"]]) [Attr false ["phantom_group"] (Some [TIdent "out"])].
Definition text_items : list item :=
  [IEnum [var "A"; var "B"]; IMacro false ["group"] [TIdent "first"; braces ["A"]; comma; TIdent "second"; braces ["B"]];
   IMacro false ["bidirectional"] (lk "first" "any" ++ PropsFront.arrow ++ lk "second" "any" ++ [comma]);
   IMacro false ["group"] [TIdent "all"; braces ["B"; "A"]];
   IMacro false ["link_type"] (lk "A" "next" ++ [TPunct ":" false; TIdent "second"; comma] ++ lk "B" "any" ++ [TPunct ":" false; braces ["first"]])].
Lemma text_reads : node_enum any_word (read_struct text_structs) text_items = Some S4.
Proof. vm_compute. reflexivity. Qed.
Lemma S4_well : well_declared cap S4.
Proof.
  destruct S4_ok as (?&?&?&?&?&?). constructor; try done.
  - intros l m m' [[-> ->]|[-> ->]]%S4_dec [[? ->]|[? ->]]%S4_dec; done.
  - intros l. change (opp cap S4 l) with (e_opp ES4 l). destruct (decide (l = Link 0 0)) as [->|]; [decides|]. destruct (decide (l = Link 1 1)) as [->|]; [decides|].
    rewrite S4_opp by done. constructor.
  - intros l m Hd. split.
    + apply S4_dec in Hd as [[-> ->]|[-> ->]]; intros A sd f; cbn; intros [= <- <-]; vm_compute; by intros [= <-].
    + assert (e_chk ES4 (l_var l) m = true) as Hc by (apply S4_dec in Hd as [[-> ->]|[-> ->]]; computes).
      exact (proj1 (C27_annotations_meant_partial cap S4 (fun _ l => l) true (l_var l) m ltac:(done) ltac:(done) ltac:(done) ltac:(done) ltac:(done)) Hc).
Qed.
Definition e92 : list opn := bops ++ [OCommit 0 1]%N.
Definition g92 : graph nat := rgr ES4 e92 0.
Example C92_case :
  node_enum any_word (read_struct text_structs) text_items = Some S4 /\
  (forall A t, text_variant text_items A t -> is_Some (typed_node (text_structs t))) /\
  well_declared cap S4 /\ tidy ES4 (rw ES4 e92) /\ (exists c, w_graphs (rw ES4 e92) !! 0 = Some (c, g92)) /\
  (exists n3 n2, graph_get g92 3%N = Some n3 /\ graph_get g92 2%N = Some n2 /\ var_name S4 (nvar n3) = Some "A" /\ var_name S4 (nvar n2) = Some "B" /\
    get_links_by_name sA ES4 n3 "next" = [2%N] /\ get_links_by_name sB ES4 n2 "users" = [5; 3]%N) /\
  text_bidi any_word text_structs text_items "A" f_next "B" f_users /\
  text_type any_word text_structs text_items "A" f_next ["second"] /\
  text_type any_word text_structs text_items "B" f_users ["first"] /\
  stands_for any_word text_items "second" "B" /\ field_ty (rf_ty f_next) <> FLink KVec.
Proof.
  destruct (text_schema any_word text_structs text_items S4 text_reads) as (Hb&Hg&Ha&_).
  assert (stands_for any_word text_items "first" "A") as HA. { right. exists ["A"]. split; [apply Hg; decides|left]. }
  assert (stands_for any_word text_items "second" "B") as HB. { right. exists ["B"]. split; [apply Hg; decides|left]. }
  assert (text_field text_structs text_items "A" f_next) as HfA.
  { eexists (pth "A"), _, _. split; [eexists _, _; split; [reflexivity|left]|]. split; [reflexivity|]. split; [left|reflexivity]. }
  assert (text_field text_structs text_items "B" f_users) as HfB.
  { eexists (pth "B"), _, _. split; [eexists _, _; split; [reflexivity|right; left]|]. split; [reflexivity|]. split; [right; left|reflexivity]. }
  assert (names_field "any" f_next) as HnA.
  { right. exists (group_attr ["out"; "any"]), ["out"; "any"]. split; [left|]. split; [reflexivity|]. split; [reflexivity|].
    split; [apply (names_iff (fun _ => true)); vm_compute; reflexivity|right; left]. }
  assert (names_field "any" f_users) as HnB.
  { right. exists (group_attr ["any"]), ["any"]. split; [left|]. split; [reflexivity|]. split; [reflexivity|].
    split; [apply (names_iff (fun _ => true)); vm_compute; reflexivity|left]. }
  split; [exact text_reads|]. split.
  { intros A t (vs&rest&[= <- <-]&Hin). repeat (apply elem_of_cons in Hin as [[= -> ->]|Hin]; [eexists; vm_compute; reflexivity|]). by apply elem_of_nil in Hin. }
  split; [exact S4_well|]. split; [apply tidy_run_sound; [sides|computes]|]. split; [eexists; vm_compute; reflexivity|].
  split. { eexists _, _. split; [vm_compute; reflexivity|]. split; [vm_compute; reflexivity|]. split; [reflexivity|]. split; [reflexivity|]. split; vm_compute; reflexivity. }
  split. { exists "first", "any", "second", "any". split; [apply Hb; left|]. split; [exact HA|]. split; [exact HfA|]. split; [exact HnA|]. split; [exact HB|]. split; [exact HfB|exact HnB]. }
  split. { exists "A", "next". split; [apply Ha; left|]. split; [left; reflexivity|]. split; [exact HfA|left; reflexivity]. }
  split. { exists "B", "any". split; [apply Ha; right; left|]. split; [left; reflexivity|]. split; [exact HfB|exact HnB]. }
  split; [exact HB|]. vm_compute. discriminate.
Qed.
