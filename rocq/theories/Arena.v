(** * The generated arena

    Model of the arena generated by /repo/ttgraph_macros/src/cate_arena.rs:307-383
    and of the provided methods of the trait /repo/src/cate_arena.rs:46-105.
    The shared counter [_id_distributer] is passed explicitly to the functions
    that allocate. *)
From Verif Require Export Node Ids.

(** macros cate_arena.rs:308-312: [_dispatcher] and one [OrderMap] per variant *)
Record arena (D : Type) := Arena {
  a_disp : list (idx * nat);
  a_cont : list (list (idx * node D)) }.
Arguments Arena {D} _ _.
Arguments a_disp {D} _.
Arguments a_cont {D} _.

Section arena.
  Context {D : Type}.
  Implicit Types (a : arena D) (n : node D) (E : env) (i : idx).

  (** macros cate_arena.rs:340-345 [get_container], [get_container_mut] *)
  Definition cont a (d : nat) : list (idx * node D) := default [] (a_cont a !! d).
  Definition set_cont a (d : nat) (c : list (idx * node D)) : arena D :=
    Arena (a_disp a) (<[d := c]> (a_cont a)).
  Definition set_disp a (m : list (idx * nat)) : arena D := Arena m (a_cont a).

  (** macros cate_arena.rs:321-323 *)
  Definition arena_new E : arena D := Arena [] (replicate (length (e_kinds E)) []).

  (** macros cate_arena.rs:337-339 *)
  Definition arena_dispatch a i : option nat := omap_get i (a_disp a).

  (** cate_arena.rs:92-94 *)
  Definition arena_get a i : option (node D) :=
    match arena_dispatch a i with Some d => omap_get i (cont a d) | None => None end.

  (** cate_arena.rs:89-91 *)
  Definition arena_contains a i : bool :=
    match arena_dispatch a i with
    | Some d => match omap_get i (cont a d) with Some _ => true | None => false end
    | None => false
    end.

  (** cate_arena.rs:95-97: [*get_mut(i).unwrap() = n] (position in the container is kept) *)
  Definition arena_set a i n : arena D :=
    match arena_dispatch a i with
    | Some d => set_cont a d (omap_insert i n (cont a d))
    | None => a
    end.

  (** macros cate_arena.rs:346-352 [alloc] *)
  Definition arena_alloc E (d : nat) : M (idx * arena D) idx := fun '(c, a) =>
    match dist_alloc (e_dbg E) c with
    | Panicked p c' => Panicked p (c', a)
    | Done c' i =>
      let a' := set_disp a (omap_insert i d (a_disp a)) in
      match arena_dispatch a i with
      | Some _ => Panicked PDupAlloc (c', a')
      | None => Done (c', a') i
      end
    end.

  (** macros cate_arena.rs:353-355 [alloc_untyped] *)
  Definition arena_alloc_untyped E : M (idx * arena D) idx := fun '(c, a) =>
    match dist_alloc (e_dbg E) c with
    | Panicked p c' => Panicked p (c', a)
    | Done c' i => Done (c', a) i
    end.

  (** insert into a container, panic [p] if it was occupied (the old value is
      already overwritten then) *)
  Definition cont_insert (p : panic) (d : nat) i n : M (arena D) unit := fun a =>
    let a' := set_cont a d (omap_insert i n (cont a d)) in
    match omap_get i (cont a d) with Some _ => Panicked p a' | None => Done a' tt end.

  (** cate_arena.rs:72-79 [insert] *)
  Definition arena_insert E n : M (idx * arena D) idx := fun s =>
    match arena_alloc E (nvar n) s with
    | Panicked p s' => Panicked p s'
    | Done (c', a') i =>
      match cont_insert PInsertExists (nvar n) i n a' with
      | Panicked p a'' => Panicked p (c', a'')
      | Done a'' _ => Done (c', a'') i
      end
    end.

  (** cate_arena.rs:80-88 [fill_back] *)
  Definition arena_fill_back i n : M (arena D) unit :=
    do! a <- getM;
    do! d <- unwrapM PFillMissing (arena_dispatch a i);
    if decide (nvar n = d) then cont_insert PFillOccupied d i n else panicM PFillType.

  (** macros cate_arena.rs:356-362 [fill_back_untyped]: the dispatcher entry is
      overwritten unconditionally *)
  Definition arena_fill_back_untyped i n : M (arena D) unit :=
    do! a <- getM;
    run! putM (set_disp a (omap_insert i (nvar n) (a_disp a)));
    cont_insert PFillOccupied (nvar n) i n.

  (** macros cate_arena.rs:324-336 [new_from_iter] *)
  Definition arena_new_from_iter E (l : list (idx * node D)) : out (arena D) unit :=
    mfor l (fun '(i, n) =>
      do! a <- getM;
      run! putM (set_disp a (omap_insert i (nvar n) (a_disp a)));
      match arena_dispatch a i with
      | Some _ => panicM PDupIndex
      | None => cont_insert PDupIndex (nvar n) i n
      end) (arena_new E).

  (** macros cate_arena.rs:363-366 [remove] *)
  Definition arena_remove a i : arena D * option (node D) :=
    match arena_dispatch a i with
    | None => (a, None)
    | Some d =>
      let a' := set_disp a (omap_del i (a_disp a)) in
      (set_cont a' d (omap_del i (cont a d)), omap_get i (cont a d))
    end.

  (** macros cate_arena.rs:367-370 [merge] *)
  Definition arena_merge a b : arena D :=
    Arena (omap_append (a_disp a) (a_disp b)) (zip_with omap_append (a_cont a) (a_cont b)).

  (** macros cate_arena.rs:371-373 [len]: sum of the container lengths *)
  Definition arena_len a : nat := foldr Nat.add 0 (length <$> a_cont a).

  (** cate_arena.rs:98-105 [update_with]: the node is taken out, the closure runs,
      the result goes to the end of the container of the OLD variant.  If the
      closure panics the node is gone (its dispatcher entry stays). *)
  Definition arena_update_with i (f : node D -> res (node D)) : M (arena D) unit :=
    do! a <- getM;
    do! d <- unwrapM PUpdateMissing (arena_dispatch a i);
    do! x <- unwrapM PUpdateMissing (omap_get i (cont a d));
    run! putM (set_cont a d (omap_del i (cont a d)));
    do! x' <- liftM (f x);
    do! a' <- getM;
    putM (set_cont a' d (omap_insert i x' (cont a' d))).

  (** ** Iterators, macros cate_arena.rs:49-228 (Iter, IterMut and IntoIter are
      generated by the same code and differ only in ownership) *)
  Record iter := Iter { it_state : option nat; it_rest : list (list (idx * node D)) }.

  (** macros cate_arena.rs:16-25, 36-41 [NodeDiscriminant::first / next] *)
  Definition disc_first : nat := 0.
  Definition disc_next (nv d : nat) : option nat := if S d <? nv then Some (S d) else None.

  (** macros cate_arena.rs:374-382 *)
  Definition iter_start a : iter := Iter (Some disc_first) (a_cont a).

  (** macros cate_arena.rs:60-70, 87-92 [Iterator::next].  The Rust function
      calls itself; [fuel] bounds the depth of that recursion, [None] = fuel
      exhausted (excluded in the theorems). *)
  Fixpoint iter_next (fuel : nat) (it : iter) : option (option (idx * node D) * iter) :=
    match fuel with
    | O => None
    | S fuel' =>
      match it_state it with
      | None => Some (None, it)
      | Some d =>
        match it_rest it !! d with
        | Some (kv :: r) => Some (Some kv, Iter (Some d) (<[d := r]> (it_rest it)))
        | _ => iter_next fuel' (Iter (disc_next (length (it_rest it)) d) (it_rest it))
        end
      end
    end.
  Definition iter_fuel (it : iter) : nat := S (S (length (it_rest it))).

  (** macros cate_arena.rs:72-75, 93-95 [size_hint] (lower = upper bound) *)
  Definition iter_size_hint (it : iter) : nat :=
    match length <$> it_rest it with
    | [] => 0
    | x :: r => fold_left Nat.add r x
    end.

  (** The pairs in iteration order; [iter_drain_items] in ArenaOps.v proves
      that draining the iterator yields exactly this list. *)
  Definition arena_items a : list (idx * node D) := concat (a_cont a).
End arena.
Arguments iter D : clear implicits.
