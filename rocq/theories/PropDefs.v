(** * Vocabulary of the property statements about graphs

    Everything here is phrased with [graph_get] (the API call [get]) and node values. *)
From Verif Require Export WorldInv.

Section defs.
  Context {D : Type} (E : env).
  Implicit Types (g : graph D) (t : trans D) (n : node D) (l k : link) (m : gmap N (node D)).

  (** [k] is declared as the bidirectional opposite of something *)
  Definition declared k : Prop := exists l, k ∈ e_opp E l.

  (** same variant, same data, same links in all fields not declared bidirectional *)
  Definition agree_nonbidi n n' : Prop :=
    nvar n' = nvar n /\ ndata n' = ndata n /\
    forall f, ~ declared (Link (nvar n) f) -> nlinks n' !! f = nlinks n !! f.

  (** the graph holds exactly the nodes of [m], up to fields declared bidirectional *)
  Definition holds_nonbidi g m : Prop :=
    forall i, option_Forall2 agree_nonbidi (m !! i) (graph_get g i).

  (** [i] is one of the transaction's own nodes *)
  Definition own_node t (i : idx) n : Prop := arena_get (t_inc t) i = Some n.

  (** the transaction names [i] in no mutate, update or remove call *)
  Definition unnamed t (i : idx) : Prop :=
    i ∉ (t_mut t).*1 /\ i ∉ (t_upd t).*1 /\ i ∉ t_dec t.

  (** no link of [n] goes to an index that is redirected or removed (by the calls listed) *)
  Definition avoids n (xs : list idx) : Prop := forall y, links_to n y -> y ∉ xs.

  (** [i] occurs in some link field of [n] *)
  Definition mentions n (i : idx) : Prop :=
    exists f lv, nlinks n !! f = Some lv /\ i ∈ lv_elems lv.

  (** no old node holds a link to an index that only the transaction fills *)
  Definition no_early_link g t : Prop :=
    forall x n y, graph_get g x = Some n -> links_to n y -> arena_get (t_inc t) y = None.

  (** same variant and data, link fields pairwise related *)
  Definition node_rel (R : linkval -> linkval -> Prop) n n' : Prop :=
    nvar n' = nvar n /\ ndata n' = ndata n /\ Forall2 R (nlinks n) (nlinks n').

  (** ** Bidirectional declarations *)
  (** every link has at most one opposite per variant, the relation is symmetric and
      no Vec link takes part *)
  Record single_choice : Prop := {
    sc_sym : forall l k, k ∈ e_opp E l -> l ∈ e_opp E k;
    sc_uniq : forall l k k', k ∈ e_opp E l -> k' ∈ e_opp E l -> l_var k = l_var k' -> k = k';
    sc_nodup : forall l, NoDup (e_opp E l);
    sc_nonvec : forall l k, k ∈ e_opp E l -> nonvec E k }.

  (** a links to b through a declared link exactly if b links back through the opposite *)
  Definition bidi_symmetric g : Prop :=
    forall a b na nb l k,
      graph_get g a = Some na -> graph_get g b = Some nb ->
      k ∈ e_opp E l -> l_var l = nvar na -> l_var k = nvar nb ->
      (has_link na l b <-> has_link nb k a).

  (** ** Link types *)
  (** every direct or set link to a node of the graph goes to an allowed variant *)
  Definition links_typed g : Prop :=
    forall x y nx ny l, graph_get g x = Some nx -> has_link nx l y -> nonvec E l ->
      graph_get g y = Some ny -> e_chk E (nvar ny) l = true.
  Definition bidi_typed : Prop :=
    forall l k, k ∈ e_opp E l -> e_chk E (l_var l) k = true.
  (** the annotations hold in the map [m] *)
  Definition map_typed m : Prop :=
    forall x y nx ny l, m !! x = Some nx -> has_link nx l y -> m !! y = Some ny ->
      e_chk E (nvar ny) l = true.

  (** closures raise no panic of the library's own kinds *)
  Definition lib_panic (p : panic) : Prop :=
    match p with PUser _ | PTypeMacro => False | _ => True end.
  Definition closures_plain t : Prop :=
    (forall i f n n' p, (i, f) ∈ t_mut t -> f n = Panicked p n' -> ~ lib_panic p) /\
    (forall i f n p, (i, f) ∈ t_upd t -> f n = Err p -> ~ lib_panic p).

  (** every link of every node of the graph targets a node of the graph *)
  Definition closed g : Prop :=
    forall x n y, graph_get g x = Some n -> links_to n y -> is_Some (graph_get g y).
  Definition no_empty_in_sets g : Prop :=
    forall x n f sk xs, graph_get g x = Some n -> nlinks n !! f = Some (LSet sk xs) -> 0%N ∉ xs.
End defs.
