(** * Reading the declarations: C87, C88, C89 *)
From Coq Require Import Ascii.
From Verif Require Import FrontFacts Examples RepoTests.
Open Scope string_scope.
Open Scope list_scope.

(** ** C87 *)
(** [word] says which words are identifiers; [written W xs ts]: the text [ts] is the items
    [xs], each written as [W] says, separated by commas and perhaps followed by one.
    The three blocks accept exactly the texts that are written like this, and read the
    declarations that are written there, in their order. *)
Theorem C87_bidirectional_read : forall word ts ds,
  terminated (p_bidi word) ts = Some ds <-> written (w_bidi word) ds ts.
Proof. exact bidis_iff. Qed.
Print Assumptions C87_bidirectional_read.
Theorem C87_group_read : forall word ts ds,
  terminated (p_group word) ts = Some ds <-> written (w_group word) ds ts.
Proof. exact groups_iff. Qed.
Print Assumptions C87_group_read.
Theorem C87_link_type_read : forall word ts ds,
  terminated (p_anno word) ts = Some ds <-> written (w_anno word) ds ts.
Proof. exact annos_iff. Qed.
Print Assumptions C87_link_type_read.

(** One text is one list of declarations. *)
Theorem C87_unambiguous : forall word ts,
  (forall ds ds', written (w_bidi word) ds ts -> written (w_bidi word) ds' ts -> ds = ds') /\
  (forall ds ds', written (w_group word) ds ts -> written (w_group word) ds' ts -> ds = ds') /\
  (forall ds ds', written (w_anno word) ds ts -> written (w_anno word) ds' ts -> ds = ds').
Proof.
  intros word ts. split; [|split]; intros ds ds'; eapply written_one; [apply bidis_iff|apply groups_iff|apply annos_iff].
Qed.
Print Assumptions C87_unambiguous.

(** [node_enum!] accepts exactly an enum whose variants have one unnamed field each, followed
    by any number of the three kinds of blocks in any order, provided the blocks can be read
    and [bidirectional!] names variants and groups; what it reads are the variants and, for
    each kind, the declarations of its blocks one after the other. *)
Theorem C87_node_enum_read : forall word struct_of is s,
  node_enum word struct_of is = Some s <->
  exists vs vars rest bss gss ass, is = IEnum vs :: rest /\ Forall is_block rest /\
    Forall2 (fun v w => v.1 = w.1 /\ v.2 = VUnnamed [w.2]) vs vars /\
    Forall2 (written (w_bidi word)) bss (bodies "bidirectional" rest) /\
    Forall2 (written (w_group word)) gss (bodies "group" rest) /\
    Forall2 (written (w_anno word)) ass (bodies "link_type" rest) /\
    (forall d, d ∈ concat bss -> (b_var1 d ∈ vars.*1 \/ b_var1 d ∈ (concat gss).*1) /\ (b_var2 d ∈ vars.*1 \/ b_var2 d ∈ (concat gss).*1)) /\
    s = Schema (prod_map id struct_of <$> vars) (concat bss) (concat gss) (concat ass).
Proof. exact node_enum_iff. Qed.
Print Assumptions C87_node_enum_read.

(** So the order between blocks of different kinds does not matter. *)
Theorem C87_block_order : forall word struct_of vs rest rest',
  Forall is_block rest -> Forall is_block rest' ->
  (forall x, bodies x rest = bodies x rest') ->
  node_enum word struct_of (IEnum vs :: rest) = node_enum word struct_of (IEnum vs :: rest').
Proof.
  intros word so vs rest rest' Hr Hr' Hb. apply option_eq. intros s. rewrite !node_enum_iff. split.
  - intros (vs'&vars&rest0&bss&gss&ass&[= <- <-]&_&H). exists vs, vars, rest', bss, gss, ass. rewrite <- !Hb. done.
  - intros (vs'&vars&rest0&bss&gss&ass&[= <- <-]&_&H). exists vs, vars, rest, bss, gss, ass. rewrite !Hb. done.
Qed.
Print Assumptions C87_block_order.

(** [discriminant!(a::b::V)] is the discriminant [V] of the enum [a::b]; a path of one
    segment is rejected. *)
Theorem C87_discriminant : forall path e x, discriminant path = Some (e, x) <-> path = e ++ [x] /\ e <> [].
Proof.
  intros path e x. unfold discriminant. case_decide as Hl.
  - split; [done|]. intros [-> He]. rewrite app_length in Hl. cbn in Hl. destruct e; [done|]. cbn in Hl. lia.
  - destruct path as [|y path _] using rev_ind; [cbn in Hl; lia|]. rewrite last_snoc, app_length. cbn. rewrite Nat.add_1_r. cbn. rewrite take_app. split.
    + intros [= <- <-]. split; [done|]. intros ->. cbn in Hl. lia.
    + intros [[<- [= ->]]%app_inj_2 _]; [done|done].
Qed.
Print Assumptions C87_discriminant.

(** The declarations of tests/test_bidirectional.rs:42-58, word by word, and those of
    tests/test_group.rs style blocks: a group, annotations with and without braces. *)
Definition any_word (x : string) : bool := negb (bool_decide (x = "_")).
Definition dot : token := TPunct "." false.
Definition comma : token := TPunct "," false.
Definition arrow : list token := [TPunct "<" true; TPunct "-" true; TPunct ">" false].
Definition lk (A x : string) : list token := [TIdent A; dot; TIdent x].
Definition nodeType_bidi : list token :=
  lk "GraphNode" "tos" ++ arrow ++ lk "GraphNode" "froms" ++ [comma] ++ lk "PairNode" "the_other" ++ arrow ++ lk "PairNode" "the_other" ++ [comma] ++
  lk "TreeNode" "father" ++ arrow ++ lk "TreeNode" "children" ++ [comma] ++ lk "BoxNode" "inside" ++ arrow ++ lk "DataNode" "parent".
Definition pth (x : string) : ty := TyPath [x].
Definition var (x : string) : string * vfields := (x, VUnnamed [pth x]).
Definition rf (x : string) (t : list string) : rfield := RField x (TyPath t) [].
Definition set_of (x : string) : list string := [x; "<"; "NodeIndex"; ">"].
(** the structs of L12-40, read by the derive macro *)
Definition nodeType_struct (t : ty) : sdecl :=
  default (Struct [] []) (
    if decide (t = pth "GraphNode") then typed_node (RStruct (Some [rf "tos" (set_of "BTreeSet"); rf "froms" (set_of "BTreeSet"); rf "data" ["usize"]]) [])
    else if decide (t = pth "PairNode") then typed_node (RStruct (Some [rf "the_other" ["NodeIndex"]]) [])
    else if decide (t = pth "TreeNode") then typed_node (RStruct (Some [rf "children" (set_of "HashSet"); rf "father" ["NodeIndex"]]) [])
    else if decide (t = pth "BoxNode") then typed_node (RStruct (Some [rf "inside" (set_of "OrderSet")]) [])
    else if decide (t = pth "DataNode") then typed_node (RStruct (Some [rf "parent" ["NodeIndex"]; rf "data" ["usize"]]) []) else None).
Definition nodeType_items : list item :=
  [IEnum [var "GraphNode"; var "PairNode"; var "TreeNode"; var "BoxNode"; var "DataNode"]; IMacro false ["bidirectional"] nodeType_bidi].
Definition braces (xs : list string) : token := TGroup Brace (concat ((fun x => [TIdent x; comma]) <$> xs)).
(** two [group!] blocks around a [link_type!] block *)
Definition mixed_items : list item :=
  [IEnum [var "A"; var "B"]; IMacro false ["group"] [TIdent "g"; braces ["A"; "B"]; comma];
   IMacro false ["link_type"] (lk "A" "x" ++ [TPunct ":" false; TIdent "B"; comma] ++ lk "g" "y" ++ [TPunct ":" false; braces ["A"; "B"]]);
   IMacro false ["group"] [TIdent "h"; braces ["B"]]; IMacro false ["bidirectional"] (lk "g" "x" ++ arrow ++ lk "h" "z")].
Example C87_case :
  node_enum any_word nodeType_struct nodeType_items = Some nodeType /\
  (exists s, node_enum any_word (fun _ => Struct [] []) mixed_items = Some s /\ sc_groups s = [("g", ["A"; "B"]); ("h", ["B"])] /\
    sc_anns s = [Anno "A" "x" ["B"]; Anno "g" "y" ["A"; "B"]] /\ sc_bidi s = [Bidi "g" "x" "h" "z"]) /\
  (** a missing comma, [< ->] instead of [<->], an unknown name, another macro, another item *)
  terminated (p_bidi any_word) (lk "A" "x" ++ arrow ++ lk "B" "y" ++ lk "A" "x" ++ arrow ++ lk "B" "z") = None /\
  terminated (p_bidi any_word) (lk "A" "x" ++ [TPunct "<" false; TPunct "-" true; TPunct ">" false] ++ lk "B" "y") = None /\
  node_enum any_word (fun _ => Struct [] []) [IEnum [var "A"]; IMacro false ["bidirectional"] (lk "A" "x" ++ arrow ++ lk "B" "y")] = None /\
  node_enum any_word (fun _ => Struct [] []) [IEnum [var "A"]; IMacro false ["groups"] []] = None /\
  node_enum any_word (fun _ => Struct [] []) [IMacro false ["group"] []; IEnum [var "A"]] = None /\
  discriminant ["m"; "Node"; "A"] = Some (["m"; "Node"], "A").
Proof.
  split; [vm_compute; reflexivity|]. split; [eexists; split; [vm_compute; reflexivity|]; split; [reflexivity|split; reflexivity]|].
  split; [vm_compute; reflexivity|]. split; [vm_compute; reflexivity|]. split; [vm_compute; reflexivity|]. split; [vm_compute; reflexivity|].
  split; vm_compute; reflexivity.
Qed.
Example C87_order_case : exists rest rest', Forall is_block rest /\ Forall is_block rest' /\ rest <> rest' /\ (forall x, bodies x rest = bodies x rest') /\
  is_Some (node_enum any_word (fun _ => Struct [] []) (IEnum [var "A"; var "B"] :: rest)).
Proof.
  exists (tail mixed_items), [IMacro false ["bidirectional"] (lk "g" "x" ++ arrow ++ lk "h" "z"); IMacro false ["group"] [TIdent "g"; braces ["A"; "B"]; comma];
   IMacro false ["group"] [TIdent "h"; braces ["B"]];
   IMacro false ["link_type"] (lk "A" "x" ++ [TPunct ":" false; TIdent "B"; comma] ++ lk "g" "y" ++ [TPunct ":" false; braces ["A"; "B"]])].
  split. { unfold mixed_items. cbn [tail]. constructor; [eexists _, _; split; [reflexivity|auto]|]. constructor; [eexists _, _; split; [reflexivity|auto]|].
    constructor; [eexists _, _; split; [reflexivity|auto]|]. constructor; [eexists _, _; split; [reflexivity|auto]|]. constructor. }
  split. { constructor; [eexists _, _; split; [reflexivity|auto]|]. constructor; [eexists _, _; split; [reflexivity|auto]|].
    constructor; [eexists _, _; split; [reflexivity|auto]|]. constructor; [eexists _, _; split; [reflexivity|auto]|]. constructor. }
  split; [unfold mixed_items; cbn [tail]; congruence|]. split; [|vm_compute; eexists; reflexivity].
  intros x. destruct (decide (x = "group")) as [->|H1]; [vm_compute; reflexivity|]. destruct (decide (x = "link_type")) as [->|H2]; [vm_compute; reflexivity|].
  destruct (decide (x = "bidirectional")) as [->|H3]; [vm_compute; reflexivity|].
  assert (forall y, x <> y -> is_ident false [y] x = false) as Hn. { intros y Hy. unfold is_ident. cbn [negb andb]. apply bool_decide_eq_false. congruence. }
  unfold mixed_items, bodies. cbn [tail omap list_omap]. rewrite !Hn by done. reflexivity.
Qed.

(** ** C88 *)
(** [lists xs a]: between the delimiters of the attribute [a] stand the words [xs] with
    commas.  [#[derive(TypedNode)]] accepts exactly the structs with named fields whose
    [group] and [phantom_group] attributes list words, the former on link fields only
    ([field_reads]); it reads the fields in their order with one list of groups per
    attribute, and all phantom groups. *)
Theorem C88_derive_read : forall r sd,
  typed_node r = Some sd <->
  exists fs pss, rs_fields r = Some fs /\ Forall2 field_reads fs (sd_fields sd) /\
    Forall2 lists pss (named "phantom_group" (rs_attrs r)) /\ sd_phantom sd = concat pss.
Proof. exact (typed_node_iff (fun _ => true)). Qed.
Print Assumptions C88_derive_read.
(** What is read is what is written: a field has the groups that its attributes list. *)
Theorem C88_groups_read : forall f d g,
  read_field f = Some d ->
  (exists gs, gs ∈ f_attrs d /\ g ∈ gs) <->
  exists a xs ts, a ∈ rf_attrs f /\ at_lead a = false /\ at_path a = ["group"] /\ at_args a = Some ts /\ written w_word xs ts /\ g ∈ xs.
Proof.
  intros f d g H. apply (read_field_iff (fun _ => true)) in H as (_&_&HF&_). split.
  - intros (gs&Hgs&Hg). apply elem_of_list_lookup in Hgs as [i Hi]. destruct (Forall2_lookup_l _ _ _ _ _ HF Hi) as (a&Ha&ts&Hts&Hw).
    apply elem_of_list_lookup_2, elem_of_list_filter in Ha as [[H1 H2] Ha]. by exists a, gs, ts.
  - intros (a&xs&ts&Ha&H1&H2&Hts&Hw&Hg).
    assert (a ∈ named "group" (rf_attrs f)) as [i Hi]%elem_of_list_lookup by by apply elem_of_list_filter.
    destruct (Forall2_lookup_r _ _ _ _ _ HF Hi) as (gs&Hgs&ts'&Hts'&Hw'). exists gs. split; [by eapply elem_of_list_lookup_2|].
    assert (gs = xs) as ->; [|done]. assert (ts' = ts) as -> by congruence.
    assert (read_names (Attr false [] (Some ts)) = Some gs) as G1 by (apply (names_iff (fun _ => true)); eauto).
    assert (read_names (Attr false [] (Some ts)) = Some xs) as G2 by (apply (names_iff (fun _ => true)); eauto). congruence.
Qed.
Print Assumptions C88_groups_read.
(** the struct [PropsSchema.sA] style: two attributes on one field, a phantom group, an
    unrelated attribute; a group on a data field and a group that is a path are rejected *)
Definition grp (ts : list token) : attr := Attr false ["group"] (Some ts).
Definition r88 : rstruct := RStruct (Some
  [RField "next" (TyPath ["NodeIndex"]) [Attr false ["doc"] None; grp [TIdent "out"; comma; TIdent "any"; comma]; grp [TIdent "type"]];
   RField "n" (TyPath ["usize"]) []; RField "pair" (TyOther ["("; "usize"; ","; "usize"; ")"]) []])
  [Attr false ["derive"] (Some [TIdent "Debug"]); Attr false ["phantom_group"] (Some [TIdent "p"; comma; TIdent "q"])].
Example C88_case :
  typed_node r88 = Some (Struct [Field "next" (FLink KDirect) [["out"; "any"]; ["type"]]; Field "n" (FPath "usize") []; Field "pair" (FOther "(usize,usize)") []] ["p"; "q"]) /\
  typed_node (RStruct (Some [RField "n" (TyPath ["usize"]) [grp [TIdent "out"]]]) []) = None /\
  typed_node (RStruct (Some [RField "n" (TyPath ["NodeIndex"]) [grp [TIdent "a"; TPunct ":" true; TPunct ":" false; TIdent "b"]]]) []) = None /\
  typed_node (RStruct None []) = None.
Proof. split; [vm_compute; reflexivity|]. split; [vm_compute; reflexivity|]. split; vm_compute; reflexivity. Qed.

(** ** C89 *)
(** [NodeIndex], also by the name of the crate *)
Definition index_path (d : list string) : Prop := d = ["NodeIndex"] \/ d = ["ttgraph"; "::"; "NodeIndex"].
(** the documented spellings (README.md:59-62) and the ones by full path *)
Inductive documented : list string -> lkind -> Prop :=
| doc_direct d : index_path d -> documented d KDirect
| doc_vec d : index_path d -> documented (["Vec"; "<"] ++ d ++ [">"]) KVec
| doc_hash d : index_path d -> documented (["HashSet"; "<"] ++ d ++ [">"]) (KSet SHash)
| doc_btree d : index_path d -> documented (["BTreeSet"; "<"] ++ d ++ [">"]) (KSet SBTree)
| doc_order d : index_path d -> documented (["ordermap"; "::"; "OrderSet"; "<"] ++ d ++ [">"]) (KSet SOrder)
| doc_index d : index_path d -> documented (["indexmap"; "::"; "IndexSet"; "<"] ++ d ++ [">"]) (KSet SIndex).
Theorem C89_documented_links : forall x k, documented x k -> field_ty (TyPath x) = FLink k.
Proof. destruct 1 as [d H|d H|d H|d H|d H|d H]; destruct H as [->| ->]; vm_compute; reflexivity. Qed.
Print Assumptions C89_documented_links.

(** Every field that is taken for a link has a type of the right form: [NodeIndex] for a
    direct link, otherwise a path that ends in the name of a set or [Vec], applied to
    [NodeIndex]. *)
Definition container (k : lkind) : string :=
  match k with KDirect => "" | KVec => "Vec" | KSet SHash => "HashSet" | KSet SBTree => "BTreeSet" | KSet SOrder => "OrderSet" | KSet SIndex => "IndexSet" end.
Lemma set_paths_form : Forall (fun p => exists pre d, p.1 = pre ++ [container (KSet p.2); "<"] ++ d ++ [">"] /\ index_path d) set_paths.
Proof.
  assert (Forall (fun q : list string * setkind => exists pre, q.1 = pre ++ [container (KSet q.2)]) set_names) as Hn.
  { unfold set_names. repeat (constructor; [cbn [fst snd container]; first
      [by exists []|eexists [_; _]; reflexivity|eexists [_; _; _]; reflexivity|eexists [_; _; _; _]; reflexivity|eexists [_; _; _; _; _]; reflexivity]|]). constructor. }
  rewrite Forall_forall in Hn. apply Forall_forall. intros p Hp. unfold set_paths in Hp. apply elem_of_list_bind in Hp as (d&Hp&Hd).
  apply elem_of_list_bind in Hp as ([q k]&Hp&Hq). apply elem_of_list_singleton in Hp as ->. destruct (Hn _ Hq) as (pre&Hpre). cbn [fst snd] in *.
  exists pre, d. split; [unfold of; rewrite Hpre, <- app_assoc; done|]. unfold direct_paths in Hd.
  apply elem_of_cons in Hd as [->| ->%elem_of_list_singleton]; [by right|by left].
Qed.
Lemma vec_paths_form : Forall (fun p => exists pre d, p = pre ++ ["Vec"; "<"] ++ d ++ [">"] /\ index_path d) vec_paths.
Proof.
  apply Forall_forall. intros p Hp. unfold vec_paths in Hp. apply elem_of_list_bind in Hp as (d&Hp&Hd). apply elem_of_list_bind in Hp as (q&Hp&Hq).
  apply elem_of_list_singleton in Hp as ->. assert (index_path d) as Hi.
  { apply elem_of_cons in Hd as [->| ->%elem_of_list_singleton]; [by right|by left]. }
  apply elem_of_cons in Hq as [->|Hq]; [by exists ["std"; "::"; "vec"; "::"], d|]. apply elem_of_cons in Hq as [->| ->%elem_of_list_singleton]; [by exists ["vec"; "::"], d|by exists [], d].
Qed.
Theorem C89_only_links : forall t k, field_ty t = FLink k ->
  exists x, t = TyPath x /\ ((k = KDirect /\ index_path x) \/ (k <> KDirect /\ exists pre d, x = pre ++ [container k; "<"] ++ d ++ [">"] /\ index_path d)).
Proof.
  intros [x|x] k H; [|done]. exists x. split; [done|]. unfold field_ty in H. case_decide as Hd.
  - injection H as <-. left. split; [done|]. apply elem_of_cons in Hd as [->| ->%elem_of_list_singleton]; [by right|by left].
  - right. destruct (list_find _ set_paths) as [[i [p k']]|] eqn:Hf.
    + apply list_find_Some in Hf as (Hi&Hp&_). cbn in Hp. subst p. injection H as <-. split; [done|].
      exact (proj1 (Forall_forall _ _) set_paths_form (x, k') (elem_of_list_lookup_2 _ _ _ Hi)).
    + case_decide as Hv; [|done]. injection H as <-. split; [done|]. exact (proj1 (Forall_forall _ _) vec_paths_form x Hv).
Qed.
Print Assumptions C89_only_links.

(** Which spelling of a type is used should not matter.  A leading [::] before the name of a
    crate does not change what a path means.  It does not matter for sets: *)
Definition crates : list string := ["std"; "ttgraph"; "ordermap"; "indexmap"].
Theorem C89_leading_colons_partial : forall c x k, c ∈ crates -> field_ty (TyPath (c :: x)) = FLink (KSet k) ->
  field_ty (TyPath ("::" :: c :: x)) = FLink (KSet k).
Proof.
  intros c x k Hc H. unfold field_ty in H. case_decide as Hd; [done|]. destruct (list_find _ set_paths) as [[i [p k']]|] eqn:Hf; [|by case_decide].
  apply list_find_Some in Hf as (Hi&Hp&_). cbn in Hp. subst p. injection H as ->. apply elem_of_list_lookup_2 in Hi.
  assert (Forall (fun p : list string * setkind => match p.1 with h :: _ => h ∈ crates -> field_ty (TyPath ("::" :: p.1)) = FLink (KSet p.2) | [] => True end) set_paths) as HF.
  { unfold set_paths, direct_paths, set_names. cbn [mbind list_bind app]. unfold crates.
    repeat (constructor; [cbn [fst snd of app]; intros Hin; first [vm_compute; reflexivity|exfalso; revert Hin; rewrite !elem_of_cons, elem_of_nil; naive_solver congruence]|]). constructor. }
  rewrite Forall_forall in HF. exact (HF _ Hi Hc).
Qed.
Print Assumptions C89_leading_colons_partial.
(** It does for [::ttgraph::NodeIndex], [::std::vec::Vec<NodeIndex>] and
    [HashSet<::ttgraph::NodeIndex>]: such a field is silently taken for data.  The struct has
    no links, and removals and redirections pass its field by. *)
Theorem C89_spelling_refuted : exists c x k, c ∈ crates /\ field_ty (TyPath (c :: x)) = FLink k /\
  (forall k', field_ty (TyPath ("::" :: c :: x)) <> FLink k') /\
  exists sd, typed_node (RStruct (Some [RField "next" (TyPath ("::" :: c :: x)) []]) []) = Some sd /\ links sd = [] /\ data_names sd = ["next"].
Proof.
  exists "ttgraph", ["::"; "NodeIndex"], KDirect. split; [apply (bool_decide_unpack _); vm_compute; exact I|]. split; [vm_compute; reflexivity|]. split; [vm_compute; congruence|].
  eexists. split; [vm_compute; reflexivity|]. split; vm_compute; reflexivity.
Qed.
Print Assumptions C89_spelling_refuted.
Theorem C89_more_spellings_refuted :
  (exists c x, c ∈ crates /\ field_ty (TyPath (c :: x)) = FLink KVec /\ forall k, field_ty (TyPath ("::" :: c :: x)) <> FLink k) /\
  (exists p x q k, field_ty (TyPath (p ++ x ++ q)) = FLink (KSet k) /\ x = ["ttgraph"; "::"; "NodeIndex"] /\ forall k', field_ty (TyPath (p ++ "::" :: x ++ q)) <> FLink k').
Proof.
  split.
  - exists "std", ["::"; "vec"; "::"; "Vec"; "<"; "NodeIndex"; ">"]. split; [apply (bool_decide_unpack _); vm_compute; exact I|]. split; [vm_compute; reflexivity|vm_compute; congruence].
  - exists ["HashSet"; "<"], ["ttgraph"; "::"; "NodeIndex"], [">"], SHash. split; [vm_compute; reflexivity|]. split; [done|vm_compute; congruence].
Qed.
Print Assumptions C89_more_spellings_refuted.
Example C89_case : documented (set_of "HashSet") (KSet SHash) /\ documented ["ttgraph"; "::"; "NodeIndex"] KDirect /\
  field_ty (TyPath (set_of "HashSet")) = FLink (KSet SHash) /\ field_ty (TyPath ["std"; "::"; "collections"; "::"; "BTreeSet"; "<"; "NodeIndex"; ">"]) = FLink (KSet SBTree) /\
  field_ty (TyPath ["Option"; "<"; "NodeIndex"; ">"]) = FPath "Option<NodeIndex>" /\ field_ty (TyPath ["Vec"; "<"; "NodeIndex"; ","; ">"]) = FPath "Vec<NodeIndex,>".
Proof. split; [apply (doc_hash ["NodeIndex"]); by left|]. split; [apply doc_direct; by right|]. split; [vm_compute; reflexivity|]. split; [vm_compute; reflexivity|]. split; vm_compute; reflexivity. Qed.
