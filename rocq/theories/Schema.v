(** * The declarations and what the macros generate from them

    Model of the parts of [#[derive(TypedNode)]] and [node_enum!] that turn names into
    tables: /repo/ttgraph_macros/src/lib.rs:57-277, group.rs, bidirectional.rs,
    link_check.rs, the name-based methods of typed_node.rs and node_enum.rs and the
    default methods of /repo/src/typed_graph/macro_traits.rs:147-160.
    [env_of] yields the [env] the rest of the development is parametrized by.

    Simplifications: a declaration is its syntax tree here, [Front.v] reads it; generics
    and visibility are dropped; [upper_camel] (utils.rs:6-8, crate [change_case]) is an
    arbitrary function [camel]; the placeholder [LinkType::Empty] of a struct without link
    fields (lib.rs:251-254) yields no target and is not represented. *)
From Verif Require Export Graph.

(** ** Library maps *)
(** [BTreeSet::insert] *)
Section btree.
  Context {K V : Type} `{EqK : EqDecision K} (ltb : K -> K -> bool).
  Fixpoint bplace (x : K) (l : list K) : list K :=
    match l with [] => [x] | y :: r => if ltb x y then x :: y :: r else y :: bplace x r end.
  Definition bset_insert (x : K) (l : list K) : list K := if decide (x ∈ l) then l else bplace x l.
  Fixpoint bmap_place (k : K) (v : V) (m : list (K * V)) : list (K * V) :=
    match m with [] => [(k, v)] | (k', v') :: r => if ltb k k' then (k, v) :: (k', v') :: r else (k', v') :: bmap_place k v r end.
  (** [BTreeMap]: replace or create the entry of [k] *)
  Definition bmap_entry (k : K) (f : option V -> V) (m : list (K * V)) : list (K * V) :=
    match omap_get k m with
    | Some v => omap_insert k (f (Some v)) m
    | None => bmap_place k (f None) m
    end.
End btree.

(** [Ord] of identifiers: of their text; tuples and vectors are lexicographic *)
Definition pair_ltb (p q : string * string) : bool :=
  String.ltb p.1 q.1 || (bool_decide (p.1 = q.1) && String.ltb p.2 q.2).
Fixpoint strs_ltb (l k : list string) : bool :=
  match l, k with
  | _, [] => false
  | [], _ :: _ => true
  | a :: l', b :: k' => String.ltb a b || (bool_decide (a = b) && strs_ltb l' k')
  end.
Definition ann_ltb (p q : string * list string) : bool :=
  String.ltb p.1 q.1 || (bool_decide (p.1 = q.1) && strs_ltb p.2 q.2).

(** ** Declarations *)
(** The type of a field as the derive macro sees it (lib.rs:204-219): one of the listed link
    paths (lib.rs:171-202), another path, or a type that is no path (tuple, array, ...). *)
Inductive fty := FLink (k : lkind) | FPath (ty : string) | FOther (ty : string).
(** a field with its [#[group(..)]] attributes *)
Record fdecl := Field { f_name : string; f_ty : fty; f_attrs : list (list string) }.
(** a struct with its [#[phantom_group(..)]] names *)
Record sdecl := Struct { sd_fields : list fdecl; sd_phantom : list string }.
(** [A.x <-> B.y], bidirectional.rs:15-36 *)
Record bdecl := Bidi { b_var1 : string; b_link1 : string; b_var2 : string; b_link2 : string }.
(** [A.x: {W1, W2}], link_check.rs:11-38 *)
Record adecl := Anno { an_var : string; an_link : string; an_targets : list string }.
(** [node_enum!], lib.rs:57-143 *)
Record schema := Schema {
  sc_vars : list (string * sdecl);
  sc_bidi : list bdecl;
  sc_groups : list (string * list string);
  sc_anns : list adecl }.

Section typed_node.
  Implicit Types (sd : sdecl).

  (** the list [links], lib.rs:204-219 *)
  Definition field_link (f : fdecl) : option (string * lkind) :=
    match f_ty f with FLink k => Some (f_name f, k) | _ => None end.
  Definition links sd : list (string * lkind) := omap field_link (sd_fields sd).

  (** the list [groups], lib.rs:220-249: one entry per attribute, or one empty entry *)
  Definition field_groups (f : fdecl) : list (list string) :=
    match f_ty f with FLink _ => match f_attrs f with [] => [[]] | a => a end | _ => [] end.
  Definition groups sd : list (list string) := concat (field_groups <$> sd_fields sd).

  (** the map [group_map], lib.rs:237-239, 256-269 *)
  Definition map_push (g x : string) (m : list (string * list string)) : list (string * list string) :=
    bmap_entry String.ltb g (fun o => default [] o ++ [x]) m.
  Definition map_field (m : list (string * list string)) (f : fdecl) : list (string * list string) :=
    match f_ty f with
    | FLink _ => fold_left (fun m g => map_push g (f_name f) m) (concat (f_attrs f)) m
    | _ => m
    end.
  Definition group_map sd : list (string * list string) :=
    fold_left (fun m g => bmap_entry String.ltb g (default []) m) (sd_phantom sd)
      (fold_left map_field (sd_fields sd) []).

  (** the struct's other fields, and whether the macro lists them as [data] (lib.rs:217) *)
  Definition field_data (f : fdecl) : option (string * bool) :=
    match f_ty f with FLink _ => None | FPath _ => Some (f_name f, true) | FOther _ => Some (f_name f, false) end.
  Definition others sd : list (string * bool) := omap field_data (sd_fields sd).

  (** [link_names], [link_types], [link_mirrors], [data_names]: typed_node.rs:337-369, 399-403.
      [link_types] forgets which set type is used (typed_node.rs:341). *)
  Definition link_names sd : list string := fst <$> links sd.
  Definition link_types sd : list lkind := snd <$> links sd.
  Definition link_mirrors sd (v : nat) : list link := Link v <$> seq 0 (length (links sd)).
  Definition data_names sd : list string := fst <$> filter (fun p => p.2 = true) (others sd).

  (** ** Links and groups *)
  (** A value of [LoGMirror] is given by its (camel case) name, typed_node.rs:104-152. *)
  Context (camel : string -> string).

  (** the link field whose mirror has the name [c] *)
  Definition mirror_named sd (c : string) : option nat :=
    fst <$> list_find (fun p => camel p.1 = c) (links sd).

  (** the variants of [LoGMirror], typed_node.rs:112-139 *)
  Definition log_names sd : list string := (camel <$> link_names sd) ++ (camel <$> (group_map sd).*1).

  (** [to_links], typed_node.rs:122-139: arms of the links, then of the groups *)
  Definition to_links sd (c : string) : list nat :=
    match mirror_named sd c with
    | Some f => [f]
    | None =>
      match list_find (fun p => camel p.1 = c) (group_map sd) with
      | Some (_, (_, xs)) => omap (fun x => mirror_named sd (camel x)) xs
      | None => []
      end
    end.

  (** [to_link_or_groups], typed_node.rs:413-427: arms from [zip(links, groups)] *)
  Definition to_logs sd (f : nat) : list string :=
    match zip (links sd) (groups sd) !! f with
    | Some ((x, _), gs) => camel x :: (camel <$> gs)
    | None => []
    end.

  (** [get_link_or_group_by_name], group.rs:79-104 *)
  Definition log_by_name sd (x : string) : option string :=
    if decide (x ∈ link_names sd ++ (group_map sd).*1) then Some (camel x) else None.

  (** the map local to [make_get_links_by_group], group.rs:40-46 *)
  Definition by_group_map sd : list (string * list nat) :=
    fold_left (fun m (p : nat * list string) =>
        fold_left (fun m g => bmap_entry String.ltb g (fun o => default [] o ++ [p.1]) m) p.2 m)
      (imap (fun f (q : (string * lkind) * list string) => (f, q.2)) (zip (links sd) (groups sd))) [].
End typed_node.

Section node_methods.
  Context {D : Type}.
  Implicit Types (n : node D) (sd : sdecl).

  (** [get_links_by_name], typed_node.rs:371-386, 467-472 *)
  Definition get_links_by_name sd E n (x : string) : list idx :=
    match list_find (fun p => p.1 = x) (links sd) with
    | Some (f, _) => match nlinks n !! f with Some lv => field_links E lv | None => [] end
    | None => []
    end.

  (** group.rs:48-61: unlike [iter_links], a Vec is copied with its empty entries *)
  Definition all_links E (lv : linkval) : list idx :=
    match lv with
    | LDirect i => if (i =? 0)%N then [] else [i]
    | LSet k l => set_iter (e_ho E) k l
    | LVec l => l
    end.
  (** [get_links_by_group], group.rs:40-77 *)
  Definition get_links_by_group sd E n (g : string) : list idx :=
    match omap_get g (by_group_map sd) with
    | Some fs => concat ((fun f => match nlinks n !! f with Some lv => all_links E lv | None => [] end) <$> fs)
    | None => []
    end.

  (** [data_ref_by_name::<T>], typed_node.rs:405-411, 480-485.  [ndata] lists the struct's
      other fields in declaration order; [downcast_ref] compares the type. *)
  Definition data_ref sd n (T x : string) : option D :=
    match list_find (fun p => p = (x, true)) (others sd) with
    | Some (i, _) =>
      match ndata n !! i with
      | Some (ty, d) => if decide (ty = T) then Some d else None
      | None => None
      end
    | None => None
    end.
End node_methods.

Section node_enum.
  Context (camel : string -> string).
  Implicit Types (s : schema).

  (** variants are numbered in declaration order *)
  Definition var_no s (A : string) : option nat := fst <$> list_find (fun p => p.1 = A) (sc_vars s).
  Definition var_name s (v : nat) : option string := fst <$> sc_vars s !! v.
  Definition struct_of s (v : nat) : sdecl := default (Struct [] []) (snd <$> sc_vars s !! v).

  (** [in_group], group.rs:106-130: the first arm with that name *)
  Definition in_group s {D} (n : node D) (x : string) : bool :=
    match omap_get x (sc_groups s) with
    | Some ms => match var_name s (nvar n) with Some A => bool_decide (A ∈ ms) | None => false end
    | None => false
    end.

  (** [iter_group], /repo/src/typed_graph.rs:344-346 *)
  Definition iter_group s {D} (g : graph D) (x : string) : list (idx * node D) :=
    filter (fun p => in_group s p.2 x = true) (graph_iter g).

  (** collecting the groups in a [BTreeMap]: bidirectional.rs:76, link_check.rs:76-79 (a later
      group of the same name replaces an earlier one) *)
  Definition var_groups s : list (string * list string) :=
    fold_left (fun m (p : string * list string) => bmap_entry String.ltb p.1 (fun _ => p.2) m) (sc_groups s) [].
  Definition expand_var s (A : string) : list string :=
    match omap_get A (var_groups s) with Some ms => ms | None => [A] end.

  (** [expand_bidirectional_links], bidirectional.rs:72-97 *)
  Definition expand_bidi s : list bdecl :=
    d ← sc_bidi s; A ← expand_var s (b_var1 d); B ← expand_var s (b_var2 d);
    [Bidi A (b_link1 d) B (b_link2 d)].

  (** the map [b_links], bidirectional.rs:102-122 *)
  Definition bmap := list (string * list (string * list (string * string))).
  Definition add_half (A x B y : string) (m : bmap) : bmap :=
    bmap_entry String.ltb A (fun o =>
      bmap_entry String.ltb x (fun o' => bset_insert pair_ltb (B, y) (default [] o')) (default [] o)) m.
  Definition add_bidi (m : bmap) (d : bdecl) : bmap :=
    add_half (b_var2 d) (b_link2 d) (b_var1 d) (b_link1 d)
      (add_half (b_var1 d) (b_link1 d) (b_var2 d) (b_link2 d) m).
  Definition b_links s : bmap := fold_left add_bidi (expand_bidi s) [].

  (** [expand_link_groups] of the mirror [c] of the variant named [A]: node_enum.rs:219-222, 308-312 *)
  Definition expand_log s (A c : string) : list link :=
    match var_no s A with
    | Some v => Link v <$> to_links camel (struct_of s v) c
    | None => []
    end.

  (** [get_bidiretional_link_mirrors_of_log], bidirectional.rs:124-149, 180-185 *)
  Definition opp_log s (v : nat) (c : string) : list link :=
    match var_name s v ≫= fun A => omap_get A (b_links s) with
    | Some xs =>
      match list_find (fun p => camel p.1 = c) xs with
      | Some (_, (_, to)) => p ← to; expand_log s p.1 (camel p.2)
      | None => []
      end
    | None => []
    end.
  (** [get_bidiretional_link_mirrors_of], macro_traits.rs:147-149 with [to_log_mirror_enums],
      node_enum.rs:214-217, 303-307 *)
  Definition opp s (l : link) : list link :=
    c ← to_logs camel (struct_of s (l_var l)) (l_fld l); opp_log s (l_var l) c.

  (** [get_bidiretional_links], bidirectional.rs:151-178 *)
  Definition get_bidi_links s {D} E (n : node D) : list (list idx * list link) :=
    match var_name s (nvar n) ≫= fun A => omap_get A (b_links s) with
    | Some xs =>
      p ← xs; f ← to_links camel (struct_of s (nvar n)) (camel p.1);
      [(match nlinks n !! f with Some lv => field_links E lv | None => [] end, opp s (Link (nvar n) f))]
    | None => []
    end.

  (** [expand_group], link_check.rs:49-70 *)
  Definition expand_anns s : list adecl :=
    d ← sc_anns s; A ← expand_var s (an_var d); [Anno A (an_link d) (W ← an_targets d; expand_var s W)].

  (** the map [anno_map], link_check.rs:75, 81-84 *)
  Definition anno_map s : list (string * list (string * list string)) :=
    fold_left (fun m d => bmap_entry String.ltb (an_var d)
        (fun o => bset_insert ann_ltb (camel (an_link d), an_targets d) (default [] o)) m)
      (expand_anns s) [].

  (** [check_link_type_by_group], link_check.rs:85-122: the first arm for the mirror decides *)
  Definition check_log s (t v : nat) (c : string) : bool :=
    match var_name s v ≫= fun A => omap_get A (anno_map s) with
    | Some xs =>
      match list_find (fun p => p.1 = c) xs with
      | Some (_, (_, ws)) => match var_name s t with Some W => bool_decide (W ∈ ws) | None => false end
      | None => true
      end
    | None => true
    end.
  (** [check_link_type], macro_traits.rs:154-159 *)
  Definition check_type s (t : nat) (l : link) : bool :=
    forallb (check_log s t (l_var l)) (to_logs camel (struct_of s (l_var l)) (l_fld l)).

  (** The [env] of a schema. *)
  Definition env_of s (ho : N -> list idx -> list idx) (dbg : bool) : env :=
    Env ((fun p => link_types p.2) <$> sc_vars s) (opp s) (check_type s) ho dbg.

  (** ** What the macros and the Rust compiler accept *)
  (** distinct field names; distinct variants of the generated [LoGMirror] enum
      (typed_node.rs:141-145); groups only on link fields (lib.rs:234-236) *)
  Record struct_accepted (sd : sdecl) : Prop := {
    sa_fields : NoDup (f_name <$> sd_fields sd);
    sa_mirrors : NoDup (log_names camel sd);
    sa_attrs : forall f, f ∈ sd_fields sd -> f_attrs f <> [] -> is_Some (field_link f) }.
  (** the mirror name used by a declaration exists on the variant *)
  Definition mirror_of s (A x : string) : Prop :=
    exists v sd, sc_vars s !! v = Some (A, sd) /\ camel x ∈ log_names camel sd.
  Record accepted s : Prop := {
    ac_vars : NoDup (sc_vars s).*1;
    ac_structs : forall A sd, (A, sd) ∈ sc_vars s -> struct_accepted sd;
    (** [Self::#i(_)] patterns, group.rs:108-118; an empty group is a syntax error *)
    ac_groups : forall x ms, (x, ms) ∈ sc_groups s -> ms <> [] /\ forall A, A ∈ ms -> A ∈ (sc_vars s).*1;
    (** bidirectional.rs:56-69 and the paths of L131-140 *)
    ac_bidi : forall d, d ∈ expand_bidi s -> mirror_of s (b_var1 d) (b_link1 d) /\ mirror_of s (b_var2 d) (b_link2 d);
    (** the paths of link_check.rs:91-101; annotations of unknown variants are not looked at *)
    ac_anns : forall d, d ∈ expand_anns s -> an_var d ∈ (sc_vars s).*1 ->
      mirror_of s (an_var d) (an_link d) /\ an_targets d <> [] /\ forall W, W ∈ an_targets d -> W ∈ (sc_vars s).*1 }.
End node_enum.
