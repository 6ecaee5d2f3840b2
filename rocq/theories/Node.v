(** * Nodes and the generated per-node methods

    Model of the code generated by [#[derive(TypedNode)]]
    (/repo/ttgraph_macros/src/typed_node.rs) and by [node_enum!]
    (/repo/ttgraph_macros/src/node_enum.rs:88-348).

    Variants of the node enum and link fields of a struct are numbered in
    declaration order; the generated enums then become:
    - [Discriminant]  = variant number,
    - [LinkMirrorEnum] = [link] (variant, field),
    - [SourceEnum]     = [source] (variant, field, position for a Vec link,
      typed_node.rs:18-30).
    The generated placeholder [Empty] link of a struct without link fields
    (lib.rs:251-254) yields no source and no link, so it is not represented. *)
From Coq Require Export Sorted.
From Verif Require Export OMap.

(** typed_graph.rs:41-65, [NodeIndex(pub usize)], [empty() = NodeIndex(0)] *)
Notation idx := N (only parsing).
Definition idx_empty : idx := 0%N.

(** The set types accepted as link fields, lib.rs:173-197. *)
Inductive setkind := SHash | SBTree | SOrder | SIndex.
Global Instance setkind_eq_dec : EqDecision setkind.
Proof. solve_decision. Defined.

(** typed_node.rs:10-16 / macro_traits.rs:179-184 [LinkType] *)
Inductive lkind := KDirect | KSet (k : setkind) | KVec.
Global Instance lkind_eq_dec : EqDecision lkind.
Proof. solve_decision. Defined.

(** [LinkMirrorEnum], node_enum.rs (make_link_mirror_enum) + typed_node.rs:61-102 *)
Record link := Link { l_var : nat; l_fld : nat }.
Global Instance link_eq_dec : EqDecision link.
Proof. solve_decision. Defined.

(** [SourceEnum], typed_node.rs:18-59: only Vec sources carry a position *)
Record source := Src { s_var : nat; s_fld : nat; s_pos : option nat }.
Global Instance source_eq_dec : EqDecision source.
Proof. solve_decision. Defined.

(** [to_link_mirror_enum], typed_node.rs:33-40, node_enum.rs:209-212 *)
Definition src_link (s : source) : link := Link (s_var s) (s_fld s).

(** Everything the graph code knows about the node enum and the build.
    [e_kinds]: the link fields of each variant; [e_opp]:
    [get_bidiretional_link_mirrors_of]; [e_chk t l]: [check_link_type(t,l).is_ok()];
    these three are computed from the declarations in Schema.v.
    [e_ho h]: iteration order of a [HashSet] with hasher [h], an arbitrary oracle;
    [e_dbg]: [debug_assertions] / overflow checks on. *)
Record env := Env {
  e_kinds : list (list lkind);
  e_opp : link -> list link;
  e_chk : nat -> link -> bool;
  e_ho : N -> list idx -> list idx;
  e_dbg : bool }.

(** A set value belongs to a set type and has a hasher ([RandomState] of a [HashSet], given
    to it when it is created; the other set types do not use theirs). *)
Record settype := SetType { st_kind : setkind; st_hash : N }.
Global Instance settype_eq_dec : EqDecision settype.
Proof. solve_decision. Defined.
Definition some_hasher (k : setkind) : settype := SetType k 0.
Coercion some_hasher : setkind >-> settype.

(** A link field value: [NodeIndex], a set of them, or a [Vec] of them.
    A set is the duplicate-free list of its elements (in insertion-history
    order, sorted for BTreeSet). *)
Inductive linkval := LDirect (i : idx) | LSet (k : settype) (l : list idx) | LVec (l : list idx).

Definition kind_of (lv : linkval) : lkind :=
  match lv with LDirect _ => KDirect | LSet k _ => KSet (st_kind k) | LVec _ => KVec end.

(** A value of the node enum.  [ndata]: the fields that are no links, in declaration order,
    each with its type. *)
Record node (D : Type) := Node { nvar : nat; nlinks : list linkval; ndata : list (string * D) }.
Arguments Node {D} _ _ _.
Arguments nvar {D} _.
Arguments nlinks {D} _.
Arguments ndata {D} _.

(** ** Library sets *)

(** insertion point of a sorted set *)
Fixpoint sorted_insert (x : idx) (l : list idx) : list idx :=
  match l with
  | [] => [x]
  | y :: r => if (x <? y)%N then x :: y :: r else y :: sorted_insert x r
  end.

(** [Set::insert] *)
Definition set_insert (k : settype) (x : idx) (l : list idx) : list idx :=
  if decide (x ∈ l) then l
  else match st_kind k with SBTree => sorted_insert x l | _ => l ++ [x] end.

(** [Set::remove]; [IndexSet::remove] is the swapping one *)
Definition set_remove (k : settype) (x : idx) (l : list idx) : list idx :=
  match st_kind k with SIndex => oset_del x l | _ => oset_shift x l end.

(** the lists that represent a set: without duplicates, and a BTreeSet in increasing order *)
Definition set_rep (k : settype) (l : list idx) : Prop :=
  NoDup l /\ (st_kind k = SBTree -> StronglySorted N.lt l).

(** [Set::iter]: any permutation for HashSet, depending on the hasher *)
Definition set_iter (ho : N -> list idx -> list idx) (k : settype) (l : list idx) : list idx :=
  match st_kind k with
  | SHash => if decide (ho (st_hash k) l ≡ₚ l) then ho (st_hash k) l else l
  | _ => l
  end.

Section node.
  Context {D : Type}.
  Implicit Types (n : node D) (E : env).

  (** replace link field [f] *)
  Definition set_field n (f : nat) (lv : linkval) : node D :=
    Node (nvar n) (<[f := lv]> (nlinks n)) (ndata n).

  (** typed_node.rs:165-186: sources of one field.  Direct and Vec skip the empty
      index, Set does not (L172-176). *)
  Definition field_sources E (v f : nat) (lv : linkval) : list (idx * source) :=
    match lv with
    | LDirect i => if (i =? 0)%N then [] else [(i, Src v f None)]
    | LSet k l => (fun i => (i, Src v f None)) <$> set_iter (e_ho E) k l
    | LVec l => concat (imap (fun p i => if (i =? 0)%N then [] else [(i, Src v f (Some p))]) l)
    end.

  (** [iter_sources], typed_node.rs:165-186, node_enum.rs:93-99 *)
  Definition iter_sources E n : list (idx * source) :=
    concat (imap (field_sources E (nvar n)) (nlinks n)).

  (** typed_node.rs:190-205 *)
  Definition field_links E (lv : linkval) : list idx :=
    match lv with
    | LDirect i => if (i =? 0)%N then [] else [i]
    | LSet k l => set_iter (e_ho E) k l
    | LVec l => filter (fun i => i <> 0%N) l
    end.

  (** [iter_links], node_enum.rs:101-111: panics if the variant does not match *)
  Definition iter_links E n (l : link) : res (list idx) :=
    if decide (nvar n = l_var l) then
      match nlinks n !! l_fld l with
      | Some lv => Ok (field_links E lv)
      | None => Err PIllTyped
      end
    else Err PMismatch.

  (** [modify_link], typed_node.rs:208-242, node_enum.rs:113-129.
      Result: new node, [removed], [added].
      (The unused [bd_link_mirrors] component of ModifyResult is dropped.) *)
  Definition modify_link n (s : source) (old new : idx) : res (node D * (bool * bool)) :=
    if decide (nvar n = s_var s) then
      match nlinks n !! s_fld s, s_pos s with
      | Some (LDirect i), None =>
        let replaced := negb (i =? new)%N in
        Ok (set_field n (s_fld s) (LDirect new),
            (replaced && negb (i =? 0)%N, replaced && negb (new =? 0)%N))
      | Some (LSet k l), None =>
        let removed := bool_decide (old ∈ l) in
        let l1 := set_remove k old l in
        if (new =? 0)%N then Ok (set_field n (s_fld s) (LSet k l1), (removed, false))
        else Ok (set_field n (s_fld s) (LSet k (set_insert k new l1)),
                 (removed, negb (bool_decide (new ∈ l1))))
      | Some (LVec l), Some p =>
        match l !! p with
        | None => Err PBounds
        | Some i =>
          let replaced := negb (i =? new)%N in
          Ok (set_field n (s_fld s) (LVec (<[p := new]> l)),
              (replaced && negb (i =? 0)%N, replaced && negb (new =? 0)%N))
        end
      | _, _ => Err PIllTyped
      end
    else Err PMismatch.

  (** [add_link], typed_node.rs:245-275, node_enum.rs:131-142 *)
  Definition add_link n (l : link) (target : idx) : res (node D * bool) :=
    if decide (nvar n = l_var l) then
      match nlinks n !! l_fld l with
      | Some (LDirect i) =>
        if (i =? 0)%N then
          if negb (i =? target)%N then Ok (set_field n (l_fld l) (LDirect target), true)
          else Ok (n, false)
        else if (i =? target)%N then Ok (n, false) else Err PAddOccupied
      | Some (LSet k ls) =>
        Ok (set_field n (l_fld l) (LSet k (set_insert k target ls)),
            negb (bool_decide (target ∈ ls)))
      | Some (LVec _) => Err PVecAdd
      | None => Err PIllTyped
      end
    else Ok (n, false).

  (** [remove_link], typed_node.rs:278-307, node_enum.rs:144-155 *)
  Definition remove_link n (l : link) (target : idx) : res (node D * bool) :=
    if decide (nvar n = l_var l) then
      match nlinks n !! l_fld l with
      | Some (LDirect i) =>
        if (i =? 0)%N then Ok (n, false)
        else if (i =? target)%N then Ok (set_field n (l_fld l) (LDirect 0), true)
        else Ok (n, false)
      | Some (LSet k ls) =>
        Ok (set_field n (l_fld l) (LSet k (set_remove k target ls)), bool_decide (target ∈ ls))
      | Some (LVec _) => Err PVecRemove
      | None => Err PIllTyped
      end
    else Ok (n, false).

  (** [contains_link], typed_node.rs:310-334, node_enum.rs:170-181 *)
  Definition field_contains (lv : linkval) (target : idx) : bool :=
    match lv with
    | LDirect i => negb (i =? 0)%N && (i =? target)%N
    | LSet _ ls => bool_decide (target ∈ ls)
    | LVec ls => bool_decide (target ∈ ls)
    end.
  Definition contains_link n (l : link) (target : idx) : bool :=
    if decide (nvar n = l_var l) then
      match nlinks n !! l_fld l with Some lv => field_contains lv target | None => false end
    else false.

  (** [check_link], node_enum.rs:157-168 *)
  Definition check_link n (l : link) : bool := bool_decide (nvar n = l_var l).

  (** [match_bd_link_group], node_enum.rs:224-233, 332-338 *)
  Definition match_bd n (ls : list link) : list link := filter (fun l => l_var l = nvar n) ls.

  (** [to_source_enum], typed_node.rs:75-83, node_enum.rs:204-207: panics for Vec *)
  Definition to_source E (l : link) : res source :=
    match e_kinds E !! l_var l ≫= (fun ks => ks !! l_fld l) with
    | Some KVec => Err PVecSource
    | Some _ => Ok (Src (l_var l) (l_fld l) None)
    | None => Err PIllTyped
    end.

  (** What Rust's type checker guarantees about a value of the node enum: the
      variant exists, the fields have the declared kinds, sets hold no
      duplicates, and a BTreeSet is listed in increasing order. *)
  Definition linkval_ok (k : lkind) (lv : linkval) : Prop :=
    kind_of lv = k /\ match lv with LSet k l => set_rep k l | _ => True end.
  Definition node_ok E n : Prop :=
    exists ks, e_kinds E !! nvar n = Some ks /\ Forall2 linkval_ok ks (nlinks n).
End node.
