(** * Transactions

    Model of /repo/src/typed_graph/transaction.rs. *)
From Verif Require Export Arena.

(** [MutFunc], typed_graph.rs:860: edits the node in place; a panic leaves the node
    in the state reached.  [UpdateFunc], typed_graph.rs:862: consumes the node. *)
Definition mut_fn (D : Type) : Type := M (node D) unit.
Definition upd_fn (D : Type) : Type := node D -> res (node D).

(** transaction.rs:17-24 *)
Record trans (D : Type) := Trans {
  t_ctx : N;
  t_alloc : list idx;
  t_inc : arena D;
  t_dec : list idx;
  t_mut : list (idx * mut_fn D);
  t_upd : list (idx * upd_fn D);
  t_redir_all : list (idx * idx);
  t_redir : list (idx * idx) }.
Arguments Trans {D} _ _ _ _ _ _ _ _.
Arguments t_ctx {D} _.
Arguments t_alloc {D} _.
Arguments t_inc {D} _.
Arguments t_dec {D} _.
Arguments t_mut {D} _.
Arguments t_upd {D} _.
Arguments t_redir_all {D} _.
Arguments t_redir {D} _.

Section trans.
  Context {D : Type}.
  Implicit Types (t : trans D) (n : node D) (E : env) (i : idx).

  (* record updates *)
  Definition with_alloc t x := Trans (t_ctx t) x (t_inc t) (t_dec t) (t_mut t) (t_upd t) (t_redir_all t) (t_redir t).
  Definition with_inc t x := Trans (t_ctx t) (t_alloc t) x (t_dec t) (t_mut t) (t_upd t) (t_redir_all t) (t_redir t).
  Definition with_dec t x := Trans (t_ctx t) (t_alloc t) (t_inc t) x (t_mut t) (t_upd t) (t_redir_all t) (t_redir t).
  Definition with_mut t x := Trans (t_ctx t) (t_alloc t) (t_inc t) (t_dec t) x (t_upd t) (t_redir_all t) (t_redir t).
  Definition with_upd t x := Trans (t_ctx t) (t_alloc t) (t_inc t) (t_dec t) (t_mut t) x (t_redir_all t) (t_redir t).
  Definition with_redir_all t x := Trans (t_ctx t) (t_alloc t) (t_inc t) (t_dec t) (t_mut t) (t_upd t) x (t_redir t).
  Definition with_redir t x := Trans (t_ctx t) (t_alloc t) (t_inc t) (t_dec t) (t_mut t) (t_upd t) (t_redir_all t) x.

  (** transaction.rs:58-70; [ctx] is the context id *)
  Definition trans_new E (ctx : N) : trans D := Trans ctx [] (arena_new E) [] [] [] [] [].

  (** transaction.rs:110-114 (state: shared counter and transaction) *)
  Definition trans_alloc E (d : nat) : M (idx * trans D) idx := fun '(c, t) =>
    match arena_alloc E d (c, t_inc t) with
    | Panicked p (c', a') => Panicked p (c', with_inc t a')
    | Done (c', a') i => Done (c', with_alloc (with_inc t a') (oset_insert i (t_alloc t))) i
    end.

  (** transaction.rs:146-150 *)
  Definition trans_alloc_untyped E : M (idx * trans D) idx := fun '(c, t) =>
    match arena_alloc_untyped E (c, t_inc t) with
    | Panicked p (c', a') => Panicked p (c', with_inc t a')
    | Done (c', a') i => Done (c', with_alloc (with_inc t a') (oset_insert i (t_alloc t))) i
    end.

  (** transaction.rs:153-156 *)
  Definition trans_fill_back i n : M (trans D) unit := fun t =>
    match arena_fill_back i n (t_inc t) with
    | Panicked p a' => Panicked p (with_inc t a')
    | Done a' _ => Done (with_alloc (with_inc t a') (oset_del i (t_alloc t))) tt
    end.

  (** transaction.rs:159-162 *)
  Definition trans_fill_back_untyped i n : M (trans D) unit := fun t =>
    match arena_fill_back_untyped i n (t_inc t) with
    | Panicked p a' => Panicked p (with_inc t a')
    | Done a' _ => Done (with_alloc (with_inc t a') (oset_del i (t_alloc t))) tt
    end.

  (** transaction.rs:189-191 *)
  Definition trans_insert E n : M (idx * trans D) idx := fun '(c, t) =>
    match arena_insert E n (c, t_inc t) with
    | Panicked p (c', a') => Panicked p (c', with_inc t a')
    | Done (c', a') i => Done (c', with_inc t a') i
    end.

  (** transaction.rs:227-231: [inc_nodes.remove(node)] runs first; only if it gave
      nothing is [alloc_nodes.swap_remove] evaluated, only if that gave false is the
      node queued for removal *)
  Definition trans_remove i t : trans D :=
    let '(a', o) := arena_remove (t_inc t) i in
    let t1 := with_inc t a' in
    match o with
    | Some _ => t1
    | None =>
      if decide (i ∈ t_alloc t) then with_alloc t1 (oset_del i (t_alloc t))
      else with_dec t1 (oset_insert i (t_dec t))
    end.

  (** transaction.rs:274-282: immediate on nodes of this transaction, queued otherwise *)
  Definition trans_mutate i (f : mut_fn D) : M (trans D) unit := fun t =>
    if arena_contains (t_inc t) i then
      match arena_get (t_inc t) i with
      | None => Panicked PUnwrap t
      | Some n =>
        match f n with
        | Done n' _ => Done (with_inc t (arena_set (t_inc t) i n')) tt
        | Panicked p n' => Panicked p (with_inc t (arena_set (t_inc t) i n'))
        end
      end
    else Done (with_mut t (t_mut t ++ [(i, f)])) tt.

  (** transaction.rs:328-337 *)
  Definition trans_update i (f : upd_fn D) : M (trans D) unit := fun t =>
    if arena_contains (t_inc t) i then
      match arena_update_with i f (t_inc t) with
      | Done a' _ => Done (with_inc t a') tt
      | Panicked p a' => Panicked p (with_inc t a')
      end
    else Done (with_upd t (t_upd t ++ [(i, f)])) tt.

  (** transaction.rs:387-389, 449-451 *)
  Definition trans_redirect_all (old new : idx) t : trans D :=
    with_redir_all t (t_redir_all t ++ [(old, new)]).
  Definition trans_redirect (old new : idx) t : trans D :=
    with_redir t (t_redir t ++ [(old, new)]).

  (** transaction.rs:555-557 *)
  Definition trans_is_empty t : bool :=
    bool_decide (t_alloc t = []) && (arena_len (t_inc t) =? 0) && bool_decide (t_dec t = [])
    && (length (t_mut t) =? 0) && (length (t_upd t) =? 0)
    && bool_decide (t_redir t = []) && bool_decide (t_redir_all t = []).

  (** [Extend::extend], transaction.rs:579-585 *)
  Fixpoint trans_extend E (l : list (node D)) : M (idx * trans D) (list idx) :=
    match l with
    | [] => retM []
    | n :: r => do! i <- trans_insert E n; do! is <- trans_extend E r; retM (i :: is)
    end.

  (** [mut_node!], macros.rs:137-146, and [update_node!], macros.rs:213-222: the block
      only sees the struct inside variant [v], so it cannot change the variant. *)
  Definition mut_node_closure (v : nat) (f : M (list linkval * list (string * D)) unit) : mut_fn D :=
    fun n =>
      if decide (nvar n = v) then
        match f (nlinks n, ndata n) with
        | Done (ls, d) _ => Done (Node v ls d) tt
        | Panicked p (ls, d) => Panicked p (Node v ls d)
        end
      else Panicked PTypeMacro n.
  Definition update_node_closure (v : nat)
      (f : list linkval * list (string * D) -> res (list linkval * list (string * D))) : upd_fn D :=
    fun n =>
      if decide (nvar n = v) then
        match f (nlinks n, ndata n) with
        | Ok (ls, d) => Ok (Node v ls d)
        | Err p => Err p
        end
      else Err PTypeMacro.
End trans.
