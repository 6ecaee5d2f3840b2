(** * Reading the declarations

    Model of the front ends of the two macros, which turn the text of a [node_enum!] and of
    a [#[derive(TypedNode)]] struct into the declarations of [Schema.v]: the [Parse]
    implementations of /repo/ttgraph_macros/src/bidirectional.rs:22-54, group.rs:10-39 and
    link_check.rs:20-46, the loop over the items of [node_enum!] (lib.rs:51-127) and the
    loop over the fields of a struct (lib.rs:156-271).

    Trusted: what the crate [syn] does with tokens.  [Ident::parse] takes one word that is
    no keyword (any predicate [word] here); [Token![..]] takes its characters, all but the
    last one joined to the next; [parse_terminated] reads items separated by commas up to
    the end of the input, with an optional last comma; [parse_nested_meta] reads paths in
    the same way; two types are equal if they are written with the same tokens.

    Simplifications: spans and error messages are dropped, every error is a failed
    compilation ([None]); invisible groups (from [macro_rules!] fragments), generics and
    visibility are left out. *)
From Coq Require Import Ascii.
From Verif Require Export Schema.

Inductive delim := Paren | Brace | Bracket.
(** [proc_macro2::TokenTree]; [joint]: the next token follows without a space *)
Inductive token :=
| TIdent (x : string)
| TPunct (c : ascii) (joint : bool)
| TLit (x : string)
| TGroup (d : delim) (ts : list token).

Section parse.
  Context (word : string -> bool).
  Implicit Types (ts : list token).

  (** [syn::Ident::parse] *)
  Definition p_ident ts : option (string * list token) :=
    match ts with TIdent x :: r => if word x then Some (x, r) else None | _ => None end.
  (** [Token![..]] and [custom_punctuation!] (bidirectional.rs:13) *)
  Fixpoint p_punct (cs : list ascii) ts : option (list token) :=
    match cs, ts with
    | [], _ => Some ts
    | [c], TPunct c' _ :: r => if Ascii.eqb c c' then Some r else None
    | c :: cs', TPunct c' true :: r => if Ascii.eqb c c' then p_punct cs' r else None
    | _, _ => None
    end.
  (** [braced!] *)
  Definition p_braced ts : option (list token * list token) :=
    match ts with TGroup Brace inner :: r => Some (inner, r) | _ => None end.
  (** [parse_terminated(.., Token![,])] and the end of the input; [fuel]: more than the tokens *)
  Fixpoint p_terminated {A} (p : list token -> option (A * list token)) (fuel : nat) ts : option (list A) :=
    match fuel with
    | 0 => None
    | S fuel' =>
      match ts with
      | [] => Some []
      | _ =>
        match p ts with
        | None => None
        | Some (x, []) => Some [x]
        | Some (x, r) =>
          match p_punct [","%char] r with
          | None => None
          | Some r' => cons x <$> p_terminated p fuel' r'
          end
        end
      end
    end.
  (** the lists of declarations: bidirectional.rs:42-55, group.rs:33-36, link_check.rs:40-45 *)
  Definition terminated {A} (p : list token -> option (A * list token)) ts : option (list A) :=
    p_terminated p (S (length ts)) ts.

  (** [BidirectionalLink::parse], bidirectional.rs:22-36 *)
  Definition p_bidi ts : option (bdecl * list token) :=
    '(var1, ts) ← p_ident ts; ts ← p_punct ["."%char] ts;
    '(link1, ts) ← p_ident ts; ts ← p_punct ["<"%char; "-"%char; ">"%char] ts;
    '(var2, ts) ← p_ident ts; ts ← p_punct ["."%char] ts;
    '(link2, ts) ← p_ident ts;
    Some (Bidi var1 link1 var2 link2, ts).
  (** [NamedGroup::parse], group.rs:15-26 *)
  Definition p_group ts : option (string * list string * list token) :=
    '(name, ts) ← p_ident ts; '(content, ts) ← p_braced ts;
    inside ← terminated p_ident content;
    Some (name, inside, ts).
  (** [TypeAnnotation::parse], link_check.rs:21-37 *)
  Definition p_anno ts : option (adecl * list token) :=
    '(var, ts) ← p_ident ts; ts ← p_punct ["."%char] ts;
    '(link, ts) ← p_ident ts; ts ← p_punct [":"%char] ts;
    match ts with
    | TGroup Brace content :: r => var2 ← terminated p_ident content; Some (Anno var link var2, r)
    | _ => '(x, r) ← p_ident ts; Some (Anno var link [x], r)
    end.

  (** ** [node_enum!] *)
  (** The type of a field as the macros see it: its tokens, and whether it is a path *)
  Inductive ty := TyPath (x : list string) | TyOther (x : list string).
  Global Instance ty_eq_dec : EqDecision ty.
  Proof. solve_decision. Defined.
  (** the fields of a variant: a tuple, or none or named ones *)
  Inductive vfields := VUnnamed (tys : list ty) | VOther.
  (** the items of [syn::File]; a macro has a path, perhaps with a leading [::], and a body *)
  Inductive item := IEnum (vs : list (string * vfields)) | IMacro (lead : bool) (path : list string) (ts : list token) | IOther.

  (** [Path::is_ident] *)
  Definition is_ident (lead : bool) (p : list string) (x : string) : bool := negb lead && bool_decide (p = [x]).

  (** the variants, lib.rs:62-77; the flag: an error was emitted *)
  Fixpoint read_vars (vs : list (string * vfields)) : list (string * ty) * bool :=
    match vs with
    | [] => ([], false)
    | (x, VUnnamed [t]) :: r => let '(l, e) := read_vars r in ((x, t) :: l, e)
    | (_, _) :: r => ((read_vars r).1, true)
    end.

  Record blocks := Blocks { bl_bidi : list bdecl; bl_groups : list (string * list string); bl_anns : list adecl; bl_err : bool }.
  (** the loop over the other items, lib.rs:89-124; [None]: [abort!] *)
  Fixpoint read_blocks (is : list item) (b : blocks) : option blocks :=
    match is with
    | [] => Some b
    | IMacro lead path ts :: r =>
      if is_ident lead path "bidirectional" then
        read_blocks r match terminated p_bidi ts with
          | Some x => Blocks (bl_bidi b ++ x) (bl_groups b) (bl_anns b) (bl_err b)
          | None => Blocks (bl_bidi b) (bl_groups b) (bl_anns b) true
          end
      else if is_ident lead path "group" then
        read_blocks r match terminated p_group ts with
          | Some x => Blocks (bl_bidi b) (bl_groups b ++ x) (bl_anns b) (bl_err b)
          | None => Blocks (bl_bidi b) (bl_groups b) (bl_anns b) true
          end
      else if is_ident lead path "link_type" then
        read_blocks r match terminated p_anno ts with
          | Some x => Blocks (bl_bidi b) (bl_groups b) (bl_anns b ++ x) (bl_err b)
          | None => Blocks (bl_bidi b) (bl_groups b) (bl_anns b) true
          end
      else None
    | _ :: _ => None
    end.

  (** [check_bidirectional_links], bidirectional.rs:56-71: the names of the declarations are
      variants or groups *)
  Definition bidi_known (vars : list string) (bs : list bdecl) (gs : list (string * list string)) : bool :=
    forallb (fun d => bool_decide (b_var1 d ∈ vars ++ gs.*1) && bool_decide (b_var2 d ∈ vars ++ gs.*1)) bs.

  (** [node_enum], lib.rs:53-127; [struct_of]: the struct a type names *)
  Definition node_enum (struct_of : ty -> sdecl) (is : list item) : option schema :=
    match is with
    | IEnum vs :: rest =>
      let '(vars, err) := read_vars vs in
      b ← read_blocks rest (Blocks [] [] [] err);
      if bl_err b || negb (bidi_known vars.*1 (bl_bidi b) (bl_groups b)) then None
      else Some (Schema (prod_map id struct_of <$> vars) (bl_bidi b) (bl_groups b) (bl_anns b))
    | _ => None
    end.

  (** ** [#[derive(TypedNode)]] *)
  (** the path lists, lib.rs:170-202 *)
  Definition direct_paths : list (list string) := [["ttgraph"; "::"; "NodeIndex"]; ["NodeIndex"]].
  Definition of (p d : list string) : list string := p ++ ["<"] ++ d ++ [">"].
  Definition set_names : list (list string * setkind) :=
    [(["::"; "std"; "::"; "collections"; "::"; "HashSet"], SHash); (["std"; "::"; "collections"; "::"; "HashSet"], SHash);
     (["collections"; "::"; "HashSet"], SHash); (["HashSet"], SHash);
     (["::"; "std"; "::"; "collections"; "::"; "BTreeSet"], SBTree); (["std"; "::"; "collections"; "::"; "BTreeSet"], SBTree);
     (["collections"; "::"; "BTreeSet"], SBTree); (["BTreeSet"], SBTree);
     (["::"; "ordermap"; "::"; "set"; "::"; "OrderSet"], SOrder); (["::"; "ordermap"; "::"; "OrderSet"], SOrder);
     (["ordermap"; "::"; "set"; "::"; "OrderSet"], SOrder); (["ordermap"; "::"; "OrderSet"], SOrder);
     (["map"; "::"; "OrderSet"], SOrder); (["tgraph"; "::"; "ordermap"; "::"; "OrderSet"], SOrder); (["OrderSet"], SOrder);
     (["::"; "indexmap"; "::"; "set"; "::"; "IndexSet"], SIndex); (["::"; "indexmap"; "::"; "IndexSet"], SIndex);
     (["indexmap"; "::"; "set"; "::"; "IndexSet"], SIndex); (["indexmap"; "::"; "IndexSet"], SIndex);
     (["map"; "::"; "IndexSet"], SIndex); (["IndexSet"], SIndex)].
  Definition set_paths : list (list string * setkind) := d ← direct_paths; '(p, k) ← set_names; [(of p d, k)].
  Definition vec_names : list (list string) := [["std"; "::"; "vec"; "::"; "Vec"]; ["vec"; "::"; "Vec"]; ["Vec"]].
  Definition vec_paths : list (list string) := d ← direct_paths; p ← vec_names; [of p d].
  (** lib.rs:204-219.  The macro only knows that a field is a set; which set type is what Rust
      finds under the name. *)
  Definition field_ty (t : ty) : fty :=
    match t with
    | TyPath x =>
      if decide (x ∈ direct_paths) then FLink KDirect
      else match list_find (fun p => p.1 = x) set_paths with
           | Some (_, (_, k)) => FLink (KSet k)
           | None => if decide (x ∈ vec_paths) then FLink KVec else FPath (String.concat "" x)
           end
    | TyOther x => FOther (String.concat "" x)
    end.

  (** an attribute: its path and the tokens between its delimiters, if it has any *)
  Record attr := Attr { at_lead : bool; at_path : list string; at_args : option (list token) }.
  Record rfield := RField { rf_name : string; rf_ty : ty; rf_attrs : list attr }.
  (** a struct: its named fields ([None]: it has no named fields) and its attributes *)
  Record rstruct := RStruct { rs_fields : option (list rfield); rs_attrs : list attr }.

  (** [parse_meta_path] of syn: any words, separated by [::] *)
  Fixpoint p_segments (fuel : nat) ts : option (list string * list token) :=
    match fuel with
    | 0 => None
    | S fuel' =>
      match ts with
      | TIdent x :: r =>
        match p_punct [":"%char; ":"%char] r with
        | Some r' => '(xs, r'') ← p_segments fuel' r'; Some (x :: xs, r'')
        | None => Some ([x], r)
        end
      | _ => None
      end
    end.
  Definition p_meta ts : option ((bool * list string) * list token) :=
    match p_punct [":"%char; ":"%char] ts with
    | Some r => '(xs, r') ← p_segments (S (length ts)) r; Some ((true, xs), r')
    | None => '(xs, r') ← p_segments (S (length ts)) ts; Some ((false, xs), r')
    end.
  (** [Path::get_ident], lib.rs:226, 259 *)
  Definition get_ident (p : bool * list string) : option string :=
    match p with (false, [x]) => Some x | _ => None end.
  (** the names of a [group] or [phantom_group] attribute, lib.rs:224-233, 256-269 *)
  Definition read_names (a : attr) : option (list string) :=
    ts ← at_args a; ps ← terminated p_meta ts; mapM get_ident ps.
  Definition attrs_named (x : string) (l : list attr) : list attr := filter (fun a => Is_true (is_ident (at_lead a) (at_path a) x)) l.
  (** one field, lib.rs:204-249 *)
  Definition read_field (f : rfield) : option fdecl :=
    let t := field_ty (rf_ty f) in
    gs ← mapM read_names (attrs_named "group" (rf_attrs f));
    match t, gs with
    | FLink _, _ => Some (Field (rf_name f) t gs)
    | _, [] => Some (Field (rf_name f) t [])
    | _, _ => None
    end.
  (** [typed_node], lib.rs:156-271 *)
  Definition typed_node (s : rstruct) : option sdecl :=
    fs ← rs_fields s; fs ← mapM read_field fs;
    ps ← mapM read_names (attrs_named "phantom_group" (rs_attrs s));
    Some (Struct fs (concat ps)).

  (** ** [discriminant!] *)
  (** lib.rs:300-316: the enum's path and the variant *)
  Definition discriminant (path : list string) : option (list string * string) :=
    if decide (length path < 2) then None
    else match last path with Some x => Some (take (pred (length path)) path, x) | None => None end.
End parse.
