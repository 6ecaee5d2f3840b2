(** * Property theorems: arenas used on their own *)
From Verif Require Import Slots Examples.

(** C69.  [arena_prog] runs the calls on arenas, [slot_prog] on plain tables that give
    every index a slot of one variant holding at most one node.  Both answer every call
    alike (the same indices, nodes and panics; panics are caught and the program goes on),
    and at the end everything that can be seen of an arena agrees with its table. *)
Theorem C69_arenas_are_slot_tables {D} E (os : list (acall D)) c : all_proper E os (c, ∅) ->
  (arena_prog E os (c, ∅)).2 = (slot_prog os (c, ∅)).2 /\
  (arena_prog E os (c, ∅)).1.1 = (slot_prog os (c, ∅)).1.1 /\
  forall k, option_Forall2 shows ((arena_prog E os (c, ∅)).1.2 !! k) ((slot_prog os (c, ∅)).1.2 !! k).
Proof. apply arenas_are_tables. Qed.
Print Assumptions C69_arenas_are_slot_tables.


(** a decision procedure for the premise, used by the example *)
Section properb.
  Context {D : Type} (E : env).
  Notation tables := (N * gmap nat (gmap N (nat * option (node D))))%type.
  Definition knownb (d : nat) : bool := d <? length (e_kinds E).
  Definition properb (w : tables) (o : acall D) : bool :=
    match o with
    | ANewFrom _ l => forallb (fun kv => (kv.1 <=? w.1)%N && knownb (nvar kv.2)) l
    | AAlloc _ d => knownb d && (w.1 + 1 <? usize_mod)%N
    | AAllocUntyped _ => (w.1 + 1 <? usize_mod)%N
    | AInsert _ n => knownb (nvar n) && (w.1 + 1 <? usize_mod)%N
    | AFillUntyped k i n => (i <=? w.1)%N && knownb (nvar n) &&
        match w.2 !! k with
        | Some s => match s !! i with Some (d, Some _) => d =? nvar n | _ => true end
        | None => true
        end
    | AMerge k k' =>
      match w.2 !! k, w.2 !! k' with
      | Some s, Some s' => forallb (fun kv => match s' !! kv.1 with Some _ => false | None => true end) (map_to_list s)
      | _, _ => true
      end
    | _ => true
    end.
  Fixpoint all_properb (os : list (acall D)) (w : tables) : bool :=
    match os with
    | [] => true
    | o :: os' => properb w o && all_properb os' (slot_call o w).1
    end.
  Lemma knownb_sound d : knownb d = true -> known_variant E d.
  Proof. apply Nat.ltb_lt. Qed.
  Lemma properb_sound w o : properb w o = true -> proper E w o.
  Proof.
    destruct o as [k|k l|k d|k|k n|k i n|k i n|k i|k i f|k i f|k f|k k']; cbn; try done.
    - rewrite forallb_forall. intros H i n Hin. apply elem_of_list_In, H in Hin. apply andb_prop in Hin as [H1 H2]. cbn in *.
      split; [by apply N.leb_le|by apply knownb_sound].
    - intros [H1 H2]%andb_prop. split; [by apply knownb_sound|by apply N.ltb_lt].
    - apply N.ltb_lt.
    - intros [H1 H2]%andb_prop. split; [by apply knownb_sound|by apply N.ltb_lt].
    - intros [[H1 H2]%andb_prop H3]%andb_prop. split; [by apply N.leb_le|]. split; [by apply knownb_sound|].
      intros s d m Hk Hi. rewrite Hk, Hi in H3. by apply Nat.eqb_eq.
    - intros H s s' Hk Hk'. rewrite Hk, Hk' in H. rewrite forallb_forall in H. apply map_disjoint_spec.
      intros i x y Hx Hy. specialize (H (i, x)). cbn in H. rewrite Hy in H. apply diff_false_true, H.
      by apply elem_of_list_In, elem_of_map_to_list.
  Qed.
  Lemma all_properb_sound os w : all_properb os w = true -> all_proper E os w.
  Proof.
    revert w. induction os as [|o os IH]; intros w; cbn; [done|]. intros [H1 H2]%andb_prop.
    split; [by apply properb_sound|by apply IH].
  Qed.
End properb.

Definition fails : upd_fn nat := fun _ => Err (PUser 1).
Definition fails_in_place : mut_fn nat := fun n => Panicked (PUser 2) (bump n).
Definition to_B : upd_fn nat := fun n => Ok (nB 0 [] 9).
(** two arenas on one distributer; every kind of call, seven panics *)
Definition arena_case : list (acall nat) :=
  [ANew 0; AInsert 0 (nA 0 [] [] 1); AAlloc 0 1; AAllocUntyped 0; AInsert 0 (nB 0 [] 4);
   AFill 0 2 (nA 0 [] [] 9); AFill 0 2 (nB 0 [] 2); AFill 0 2 (nB 0 [] 22); AFill 0 7 (nB 0 [] 9);
   AFillUntyped 0 3 (nA 0 [] [] 3); AFillUntyped 0 3 (nA 0 [] [] 33);
   AUpdate 0 4 fails; AUpdate 0 4 bump_upd; AUpdate 0 1 to_B; AGetMut 0 2 fails_in_place; AGetMut 0 9 bump_mut;
   ANew 1; AInsert 1 (nB 1 [2] 5); AAlloc 1 0; ANewFrom 2 [(3, nA 0 [] [] 7); (3, nB 0 [] 8)]; 
   ANewFrom 2 [(6, nA 0 [] [] 7)]; ARemove 1 5; ARemove 1 5; AInsert 1 (nB 1 [2] 6);
   AMerge 0 1; AIterMut 0 (fun i => bump)]%N.

Definition no_arena : arena nat := arena_new E0.
Definition the_arena (os : list (acall nat)) (k : nat) : arena nat :=
  default no_arena ((arena_prog E0 os (0%N, ∅)).1.2 !! k).
Definition is_panic (r : ares nat) : option panic := match r with RPanic p => Some p | _ => None end.
Example C69_case : all_proper E0 arena_case (0%N, ∅) /\
  omap is_panic (arena_prog E0 arena_case (0%N, ∅)).2 =
    [PFillType; PFillOccupied; PFillMissing; PFillOccupied; PUser 1; PUpdateMissing; PUser 2; PDupIndex] /\
  arena_items (the_arena arena_case 0) =
    [(3, nA 0 [] [] 133); (1, nB 0 [] 109); (2, nB 0 [] 222); (7, nB 1 [2] 106)]%N /\
  arena_dispatch (the_arena arena_case 0) 4 = Some 1 /\ arena_dispatch (the_arena arena_case 0) 6 = Some 0 /\
  (arena_prog E0 arena_case (0%N, ∅)).1.2 !! 1 = None.
Proof.
  split; [apply all_properb_sound; computes|]. repeat (split; [computes|]). computes.
Qed.

(** The proviso on [fill_back_untyped] is needed.  Filled in over a node of another
    variant it does not panic; [get] then finds the new node only, but the old one is
    still counted and iterated over, and neither can be removed by [remove] alone. *)
Definition ghost : list (acall nat) := [ANew 0; AInsert 0 (nA 0 [] [] 1); AFillUntyped 0 1 (nB 0 [] 2)]%N.
Theorem C69_ghost_refuted :
  (arena_prog E0 ghost (0%N, ∅)).2 = [RUnit; RIdx 1%N; RUnit] /\
  arena_get (the_arena ghost 0) 1 = Some (nB 0 [] 2) /\
  arena_len (the_arena ghost 0) = 2 /\
  arena_items (the_arena ghost 0) = [(1, nA 0 [] [] 1); (1, nB 0 [] 2)]%N /\
  let os := ghost ++ [ARemove 0 1%N; ARemove 0 1%N] in
  (arena_prog E0 os (0%N, ∅)).2 = [RUnit; RIdx 1%N; RUnit; RNode (Some (nB 0 [] 2)); RNode None] /\
  arena_contains (the_arena os 0) 1 = false /\ arena_items (the_arena os 0) = [(1, nA 0 [] [] 1)]%N.
Proof. repeat (split; [computes|]). computes. Qed.
Print Assumptions C69_ghost_refuted.

(** The proviso on [new_from_iter] is needed: with a distributer that still has the listed
    indices to hand out, [insert] panics, and a caller that catches the panic has lost the
    listed node: [get] no longer finds it. *)
Definition collide : list (acall nat) := [ANewFrom 0 [(1, nA 0 [] [] 1)]; AInsert 0 (nB 0 [] 2)]%N.
Theorem C69_collision_refuted :
  (arena_prog E0 collide (0%N, ∅)).2 = [RUnit; RPanic PDupAlloc] /\
  arena_get (the_arena collide 0) 1 = None /\ arena_len (the_arena collide 0) = 1.
Proof. repeat (split; [computes|]). computes. Qed.
Print Assumptions C69_collision_refuted.

(** The proviso on [merge] is needed: merging arenas that both know an index does not
    panic.  The node of the first arena is lost if the variants are the same and becomes a
    ghost otherwise. *)
Definition clash (n : node nat) : list (acall nat) :=
  [ANew 0; AInsert 0 (nA 0 [] [] 1); ANew 1; AFillUntyped 1 1 n; AMerge 0 1]%N.
Theorem C69_merge_refuted :
  (arena_prog E0 (clash (nA 0 [] [] 2)) (0%N, ∅)).2 = [RUnit; RIdx 1%N; RUnit; RUnit; RUnit] /\
  arena_items (the_arena (clash (nA 0 [] [] 2)) 0) = [(1, nA 0 [] [] 2)]%N /\
  (arena_prog E0 (clash (nB 0 [] 2)) (0%N, ∅)).2 = [RUnit; RIdx 1%N; RUnit; RUnit; RUnit] /\
  arena_items (the_arena (clash (nB 0 [] 2)) 0) = [(1, nA 0 [] [] 1); (1, nB 0 [] 2)]%N.
Proof. repeat (split; [computes|]). computes. Qed.
Print Assumptions C69_merge_refuted.
