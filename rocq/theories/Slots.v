(** * Arenas used on their own

    The trait [CateArena] (/repo/src/cate_arena.rs:46-105) and the arenas generated for it
    (/repo/ttgraph_macros/src/cate_arena.rs:307-383) are public, so a program may use them
    without graphs and transactions.  This file runs arbitrary programs over any number of
    arenas that share one id distributer, and compares them with programs over tables of
    slots. *)
From stdpp Require Export gmap.
From Verif Require Export ArenaOps.

(** One call.  [k] names an arena; closures are arbitrary. *)
Inductive acall (D : Type) : Type :=
| ANew (k : nat)                                        (* new *)
| ANewFrom (k : nat) (l : list (idx * node D))          (* new_from_iter *)
| AAlloc (k : nat) (d : nat)                            (* alloc *)
| AAllocUntyped (k : nat)                               (* alloc_untyped *)
| AInsert (k : nat) (n : node D)                        (* insert *)
| AFill (k : nat) (i : idx) (n : node D)                (* fill_back *)
| AFillUntyped (k : nat) (i : idx) (n : node D)         (* fill_back_untyped *)
| ARemove (k : nat) (i : idx)                           (* remove *)
| AGetMut (k : nat) (i : idx) (f : M (node D) unit)     (* get_mut, then edit in place *)
| AUpdate (k : nat) (i : idx) (f : node D -> res (node D)) (* update_with *)
| AIterMut (k : nat) (f : idx -> node D -> node D)      (* a loop over iter_mut *)
| AMerge (k k' : nat).                                  (* k.merge(k'), which consumes k' *)
Arguments ANew {D} k.
Arguments ANewFrom {D} k l.
Arguments AAlloc {D} k d.
Arguments AAllocUntyped {D} k.
Arguments AInsert {D} k n.
Arguments AFill {D} k i n.
Arguments AFillUntyped {D} k i n.
Arguments ARemove {D} k i.
Arguments AGetMut {D} k i f.
Arguments AUpdate {D} k i f.
Arguments AIterMut {D} k f.
Arguments AMerge {D} k k'.

(** What the caller sees: a panic is caught and the program goes on. *)
Inductive ares (D : Type) : Type :=
| RUnit | RIdx (i : idx) | RNode (o : option (node D)) | RPanic (p : panic).
Arguments RUnit {D}.
Arguments RIdx {D} i.
Arguments RNode {D} o.
Arguments RPanic {D} p.

Section slots.
  Context {D : Type} (E : env).
  Implicit Types (a b : arena D) (n : node D) (i : idx) (c : N) (o : acall D).

  (** ** The program over arenas *)
  (** macros cate_arena.rs:377-379: [iter_mut] visits every pair of every container once
      (C14) and lends the node, not the key *)
  Definition arena_iter_mut (f : idx -> node D -> node D) a : arena D :=
    Arena (a_disp a) (map (map (fun kv => (kv.1, f kv.1 kv.2))) (a_cont a)).
  (** cate_arena.rs:95-97 followed by the caller's edit *)
  Definition arena_edit i (f : M (node D) unit) a : arena D * ares D :=
    match arena_get a i with
    | None => (a, RUnit)
    | Some n =>
      match f n with
      | Done n' _ => (arena_set a i n', RUnit)
      | Panicked p n' => (arena_set a i n', RPanic p)
      end
    end.

  (** what a caller that catches unwinds gets *)
  Definition caught {S A} (w : A -> ares D) (x : out S A) : S * ares D :=
    match x with Done s r => (s, w r) | Panicked p s => (s, RPanic p) end.

  Notation arenas := (N * gmap nat (arena D))%type.
  Definition on_arena (w : arenas) k (f : N -> arena D -> (N * arena D) * ares D) : arenas * ares D :=
    match w.2 !! k with
    | None => (w, RUnit)
    | Some a => let '((c', a'), r) := f w.1 a in ((c', <[k := a']> w.2), r)
    end.
  Definition arena_only (f : arena D -> arena D * ares D) c a : (N * arena D) * ares D :=
    let '(a', r) := f a in ((c, a'), r).
  Definition arena_call o (w : arenas) : arenas * ares D :=
    match o with
    | ANew k => ((w.1, <[k := arena_new E]> w.2), RUnit)
    | ANewFrom k l =>
      match arena_new_from_iter E l with
      | Done a _ => ((w.1, <[k := a]> w.2), RUnit)
      | Panicked p _ => (w, RPanic p)
      end
    | AAlloc k d => on_arena w k (fun c a => caught RIdx (arena_alloc E d (c, a)))
    | AAllocUntyped k => on_arena w k (fun c a => caught RIdx (arena_alloc_untyped E (c, a)))
    | AInsert k n => on_arena w k (fun c a => caught RIdx (arena_insert E n (c, a)))
    | AFill k i n => on_arena w k (arena_only (fun a => caught (fun _ => RUnit) (arena_fill_back i n a)))
    | AFillUntyped k i n => on_arena w k (arena_only (fun a => caught (fun _ => RUnit) (arena_fill_back_untyped i n a)))
    | ARemove k i => on_arena w k (arena_only (fun a => let '(a', x) := arena_remove a i in (a', RNode x)))
    | AGetMut k i f => on_arena w k (arena_only (arena_edit i f))
    | AUpdate k i f => on_arena w k (arena_only (fun a => caught (fun _ => RUnit) (arena_update_with i f a)))
    | AIterMut k f => on_arena w k (arena_only (fun a => (arena_iter_mut f a, RUnit)))
    | AMerge k k' =>
      if decide (k = k') then (w, RUnit) else
      match w.2 !! k, w.2 !! k' with
      | Some a, Some b => ((w.1, <[k := arena_merge a b]> (delete k' w.2)), RUnit)
      | _, _ => (w, RUnit)
      end
    end.
  Fixpoint arena_prog (os : list (acall D)) (w : arenas) : arenas * list (ares D) :=
    match os with
    | [] => (w, [])
    | o :: os' =>
      let '(w1, r) := arena_call o w in
      let '(w2, rs) := arena_prog os' w1 in (w2, r :: rs)
    end.

  (** ** The same calls on tables of slots: every index the arena knows has a slot, which
      belongs to a variant and holds at most one node *)
  Notation slots := (gmap N (nat * option (node D))).
  Definition slot_node (s : slots) (i : idx) : option (node D) :=
    match s !! i with Some (_, x) => x | None => None end.
  Notation tables := (N * gmap nat slots)%type.
  Implicit Types (s : slots).

  Definition on_table (w : tables) k (f : slots -> slots * ares D) : tables * ares D :=
    match w.2 !! k with
    | None => (w, RUnit)
    | Some s => let '(s', r) := f s in ((w.1, <[k := s']> w.2), r)
    end.
  (** the next index is one more than the last *)
  Definition on_fresh (w : tables) k (f : N -> slots -> slots) : tables * ares D :=
    match w.2 !! k with
    | None => (w, RUnit)
    | Some s => (((w.1 + 1)%N, <[k := f (w.1 + 1)%N s]> w.2), RIdx (w.1 + 1)%N)
    end.
  Definition slot_call o (w : tables) : tables * ares D :=
    match o with
    | ANew k => ((w.1, <[k := ∅]> w.2), RUnit)
    | ANewFrom k l =>
      if decide (NoDup l.*1)
      then ((w.1, <[k := list_to_map (map (fun kv => (kv.1, (nvar kv.2, Some kv.2))) l)]> w.2), RUnit)
      else (w, RPanic PDupIndex)
    | AAlloc k d => on_fresh w k (fun i s => <[i := (d, None)]> s)
    | AAllocUntyped k => on_fresh w k (fun i s => s)
    | AInsert k n => on_fresh w k (fun i s => <[i := (nvar n, Some n)]> s)
    | AFill k i n => on_table w k (fun s =>
        match s !! i with
        | None => (s, RPanic PFillMissing)
        | Some (d, x) =>
          if decide (nvar n = d)
          then (<[i := (d, Some n)]> s, match x with None => RUnit | Some _ => RPanic PFillOccupied end)
          else (s, RPanic PFillType)
        end)
    | AFillUntyped k i n => on_table w k (fun s =>
        (<[i := (nvar n, Some n)]> s,
         match s !! i with Some (_, Some _) => RPanic PFillOccupied | _ => RUnit end))
    | ARemove k i => on_table w k (fun s => (delete i s, RNode (slot_node s i)))
    | AGetMut k i f => on_table w k (fun s =>
        match s !! i with
        | Some (d, Some n) =>
          match f n with
          | Done n' _ => (<[i := (d, Some n')]> s, RUnit)
          | Panicked p n' => (<[i := (d, Some n')]> s, RPanic p)
          end
        | _ => (s, RUnit)
        end)
    | AUpdate k i f => on_table w k (fun s =>
        match s !! i with
        | Some (d, Some n) =>
          match f n with
          | Ok n' => (<[i := (d, Some n')]> s, RUnit)
          | Err p => (<[i := (d, None)]> s, RPanic p)
          end
        | _ => (s, RPanic PUpdateMissing)
        end)
    | AIterMut k f => on_table w k (fun s => (map_imap (fun i x => Some (x.1, option_map (f i) x.2)) s, RUnit))
    | AMerge k k' =>
      if decide (k = k') then (w, RUnit) else
      match w.2 !! k, w.2 !! k' with
      | Some s, Some s' => ((w.1, <[k := s ∪ s']> (delete k' w.2)), RUnit)
      | _, _ => (w, RUnit)
      end
    end.
  Fixpoint slot_prog (os : list (acall D)) (w : tables) : tables * list (ares D) :=
    match os with
    | [] => (w, [])
    | o :: os' =>
      let '(w1, r) := slot_call o w in
      let '(w2, rs) := slot_prog os' w1 in (w2, r :: rs)
    end.

  (** ** The calls the comparison covers
      - variants exist (in Rust the type says so);
      - the distributer has not handed out 2^64 - 1 indices;
      - [new_from_iter] and [fill_back_untyped] are given indices that were handed out before;
      - [fill_back_untyped] does not name an index that holds a node of another variant
        (see [C69_ghost_refuted]);
      - merged arenas have no index in common. *)
  Definition known_variant (d : nat) : Prop := d < length (e_kinds E).
  Definition proper (w : tables) o : Prop :=
    match o with
    | ANewFrom _ l => forall i n, (i, n) ∈ l -> (i <= w.1)%N /\ known_variant (nvar n)
    | AAlloc _ d => known_variant d /\ (w.1 + 1 < usize_mod)%N
    | AAllocUntyped _ => (w.1 + 1 < usize_mod)%N
    | AInsert _ n => known_variant (nvar n) /\ (w.1 + 1 < usize_mod)%N
    | AFillUntyped k i n => (i <= w.1)%N /\ known_variant (nvar n) /\
        forall s d m, w.2 !! k = Some s -> s !! i = Some (d, Some m) -> d = nvar n
    | AMerge k k' => forall s s', w.2 !! k = Some s -> w.2 !! k' = Some s' -> s ##ₘ s'
    | _ => True
    end.
  Fixpoint all_proper (os : list (acall D)) (w : tables) : Prop :=
    match os with
    | [] => True
    | o :: os' => proper w o /\ all_proper os' (slot_call o w).1
    end.

  (** ** What can be seen of an arena agrees with the table *)
  Record shows a s : Prop := {
    sh_dispatch : forall i, arena_dispatch a i = fst <$> s !! i;
    sh_get : forall i, arena_get a i = slot_node s i;
    sh_contains : forall i, arena_contains a i = true <-> exists d n, s !! i = Some (d, Some n);
    sh_container : forall d i n, (i, n) ∈ cont a d <-> s !! i = Some (d, Some n);
    sh_container_once : forall d, NoDup (cont a d).*1;
    (* [next], called as often as [len] says and once more *)
    sh_iter : exists l it, iter_steps (S (arena_len a)) (iter_start a) = Some ((Some <$> l) ++ [None], it) /\
      NoDup l.*1 /\ forall i n, (i, n) ∈ l <-> exists d, s !! i = Some (d, Some n);
    sh_len : arena_len a = size (omap snd s) }.

  Definition rep a s : Prop :=
    arena_ok E a /\ (forall i, arena_dispatch a i = fst <$> s !! i) /\ (forall i, arena_get a i = slot_node s i).

  Lemma rep_shows a s : rep a s -> shows a s.
  Proof.
    intros (Hok&Hd&Hg). assert (forall i n, arena_get a i = Some n <-> exists d, s !! i = Some (d, Some n)) as Hgs.
    { intros i n. rewrite Hg. unfold slot_node. destruct (s !! i) as [[d x]|]; cbn; naive_solver. }
    split; [done|done|..].
    - intros i. rewrite arena_contains_get. unfold is_Some. setoid_rewrite Hgs. naive_solver.
    - intros d i n. split.
      + intros Hin. destruct (arena_get_cont E a i n d Hok Hin) as [H1 H2]. rewrite Hg in H1. unfold slot_node in H1. rewrite Hd in H2.
        destruct (s !! i) as [[d' x]|]; cbn in *; naive_solver.
      + intros Hs. assert (arena_get a i = Some n) as (d'&Hd'&_&Hc)%arena_get_inv by (apply Hgs; eauto).
        rewrite Hd, Hs in Hd'. cbn in Hd'. injection Hd' as <-. by apply omap_get_elem.
    - intros d. by apply (arena_ok_cont E).
    - exists (arena_items a). destruct (iter_drain_items a (S (arena_len a))) as (it&Hit&_). exists it. split; [|split].
      + rewrite Hit, arena_len_items. do 2 f_equal. rewrite seq_S, fmap_app. f_equal.
        * apply list_eq. intros j. rewrite !list_lookup_fmap. destruct (decide (j < length (arena_items a))) as [Hj|Hj].
          -- rewrite lookup_seq_lt by done. cbn. by destruct (lookup_lt_is_Some_2 _ _ Hj) as [x ->].
          -- rewrite lookup_seq_ge, lookup_ge_None_2 by lia. done.
        * cbn. by rewrite lookup_ge_None_2.
      + by apply (arena_items_NoDup E).
      + intros i n. rewrite <- (arena_get_items E) by done. apply Hgs.
    - rewrite arena_len_items. replace (length (arena_items a)) with (size (list_to_map (arena_items a) : gmap N (node D))).
      + f_equal. apply map_eq. intros i. apply option_eq. intros n.
        rewrite lookup_omap. rewrite <- elem_of_list_to_map by by apply (arena_items_NoDup E).
        rewrite <- (arena_get_items E), Hg by done. done.
      + unfold size, map_size. apply Permutation_length, map_to_list_to_map. by apply (arena_items_NoDup E).
  Qed.

  (** ** Simulation *)
  Lemma rep_new : rep (arena_new E) ∅.
  Proof. split; [apply arena_new_ok|]. split; intros i; unfold slot_node; by rewrite lookup_empty. Qed.

  Lemma rep_put a s i n a' : rep a s -> arena_put E a i n a' -> rep a' (<[i := (nvar n, Some n)]> s).
  Proof.
    intros (Hok&Hd&Hg) []. split; [done|]. split; intros j.
    - rewrite ap_disp, Hd. case_decide; [subst; by rewrite lookup_insert|by rewrite lookup_insert_ne].
    - rewrite ap_get, Hg. unfold slot_node. case_decide; [subst; by rewrite lookup_insert|by rewrite lookup_insert_ne].
  Qed.
  Lemma rep_set a s i d n0 n : rep a s -> s !! i = Some (d, Some n0) -> rep (arena_set a i n) (<[i := (d, Some n)]> s).
  Proof.
    intros (Hok&Hd&Hg) Hs. split; [by apply arena_set_ok|]. split; intros j.
    - rewrite arena_set_dispatch, Hd. destruct (decide (j = i)) as [->|Hj]; [by rewrite lookup_insert, Hs|by rewrite lookup_insert_ne].
    - rewrite (arena_set_get a i n0) by by (rewrite Hg; unfold slot_node; by rewrite Hs). rewrite Hg. unfold slot_node.
      case_decide; [subst; by rewrite lookup_insert|by rewrite lookup_insert_ne].
  Qed.
  Lemma rep_merge a b s s' : rep a s -> rep b s' -> s ##ₘ s' -> rep (arena_merge a b) (s ∪ s').
  Proof.
    intros (Hok&Hd&Hg) (Hok'&Hd'&Hg') Hdis.
    assert (arena_disj a b) as Hab.
    { intros i. rewrite Hd, Hd'. specialize (Hdis i). destruct (s !! i), (s' !! i); cbn in *; try done. by intros [? ?]. }
    split; [by apply arena_merge_ok|]. split; intros i.
    - rewrite (arena_merge_dispatch E), Hd, Hd' by done. specialize (Hdis i). unfold slot_node. rewrite lookup_union.
      destruct (s !! i), (s' !! i); cbn in *; done.
    - rewrite (arena_merge_get E), Hg, Hg' by done. specialize (Hdis i). unfold slot_node. rewrite lookup_union.
      destruct (s !! i) as [[? []]|], (s' !! i) as [[? []]|]; cbn in *; done.
  Qed.
  Lemma cont_iter_mut f a d : cont (arena_iter_mut f a) d = map (fun kv => (kv.1, f kv.1 kv.2)) (cont a d).
  Proof. unfold cont, arena_iter_mut. cbn. rewrite list_lookup_fmap. by destruct (a_cont a !! d). Qed.
  Lemma keys_iter_mut (f : idx -> node D -> node D) (l : list (idx * node D)) :
    (map (fun kv => (kv.1, f kv.1 kv.2)) l).*1 = l.*1.
  Proof. induction l as [|[i n] l IH]; cbn; [done|]. by rewrite IH. Qed.
  Lemma get_iter_mut (f : idx -> node D -> node D) (l : list (idx * node D)) i :
    omap_get i (map (fun kv => (kv.1, f kv.1 kv.2)) l) = f i <$> omap_get i l.
  Proof.
    induction l as [|[j n] l IH]; cbn; [done|]. case_decide; [by subst|done].
  Qed.
  Lemma rep_iter_mut f a s : rep a s -> rep (arena_iter_mut f a) (map_imap (fun i x => Some (x.1, option_map (f i) x.2)) s).
  Proof.
    intros (Hok&Hd&Hg). pose proof Hok as (Hn&Hl&Hc). split; [|split].
    - split; [done|]. split; [cbn; by rewrite map_length|]. intros d c Hdc.
      apply list_lookup_fmap_Some in Hdc as (c0&Hc0&->). destruct (Hc d c0 Hc0) as [Hnd Hx]. split.
      + by rewrite keys_iter_mut.
      + intros i n Hin. apply elem_of_list_fmap in Hin as ([j m]&[= -> ->]&Hin). by eapply Hx.
    - intros i. rewrite map_lookup_imap. change (arena_dispatch (arena_iter_mut f a) i) with (arena_dispatch a i). rewrite Hd.
      by destruct (s !! i).
    - intros i. unfold slot_node. rewrite map_lookup_imap. unfold arena_get. change (arena_dispatch (arena_iter_mut f a) i) with (arena_dispatch a i).
      specialize (Hg i). unfold arena_get, slot_node in Hg. destruct (arena_dispatch a i) as [d|].
      + rewrite cont_iter_mut, get_iter_mut, Hg. destruct (s !! i) as [[? ?]|]; done.
      + destruct (s !! i) as [[? []]|]; done.
  Qed.

  Lemma alloc_run d c a s : rep a s -> s !! (c + 1)%N = None -> (c + 1 < usize_mod)%N -> known_variant d ->
    exists a', arena_alloc E d (c, a) = Done ((c + 1)%N, a') (c + 1)%N /\ rep a' (<[(c + 1)%N := (d, None)]> s).
  Proof.
    intros (Hok&Hd&Hg) Hs Hc Hv. unfold arena_alloc. rewrite dist_alloc_ok by done. rewrite Hd, Hs. cbn [fmap option_fmap option_map].
    eexists. split; [reflexivity|].
    destruct (set_disp_spec E a (c + 1)%N d Hok) as (Hok'&Hd'&Hg'&_). { rewrite Hg. unfold slot_node. by rewrite Hs. }
    split; [done|]. split; intros j.
    - rewrite Hd', Hd. case_decide; [subst; by rewrite lookup_insert|by rewrite lookup_insert_ne].
    - rewrite Hg', Hg. unfold slot_node. destruct (decide (j = (c + 1)%N)) as [->|Hj].
      + by rewrite Hs, lookup_insert.
      + by rewrite lookup_insert_ne.
  Qed.
  Lemma alloc_untyped_run c a : (c + 1 < usize_mod)%N -> arena_alloc_untyped E (c, a) = Done ((c + 1)%N, a) (c + 1)%N.
  Proof. intros Hc. unfold arena_alloc_untyped. by rewrite dist_alloc_ok. Qed.
  Lemma insert_run n c a s : rep a s -> s !! (c + 1)%N = None -> (c + 1 < usize_mod)%N -> known_variant (nvar n) ->
    exists a', arena_insert E n (c, a) = Done ((c + 1)%N, a') (c + 1)%N /\ rep a' (<[(c + 1)%N := (nvar n, Some n)]> s).
  Proof.
    intros Hr Hs Hc Hv. pose proof Hr as (Hok&Hd&Hg). unfold arena_insert, arena_alloc. rewrite dist_alloc_ok by done.
    rewrite Hd, Hs. cbn [fmap option_fmap option_map].
    destruct (arena_put_spec E PInsertExists a (c + 1)%N n Hok) as (a'&->&Hput); [|done|].
    { rewrite Hg. unfold slot_node. by rewrite Hs. }
    exists a'. split; [done|]. by eapply rep_put.
  Qed.
  Lemma cont_insert_over p d i n a n0 : arena_dispatch a i = Some d -> arena_get a i = Some n0 ->
    cont_insert p d i n a = Panicked p (arena_set a i n).
  Proof. intros Hd Hg. unfold cont_insert, arena_set. unfold arena_get in Hg. rewrite Hd in *. by rewrite Hg. Qed.

  Definition table_ok c s : Prop := forall i d x, s !! i = Some (d, x) -> (i <= c)%N /\ known_variant d.
  Definition sim1 (x : arena D * ares D) (y : slots * ares D) : Prop := rep x.1 y.1 /\ x.2 = y.2.

  Lemma fill_run i n c a s : rep a s -> table_ok c s -> sim1 (caught (fun _ => RUnit) (arena_fill_back i n a))
    (match s !! i with
     | None => (s, RPanic PFillMissing)
     | Some (d, x) =>
       if decide (nvar n = d)
       then (<[i := (d, Some n)]> s, match x with None => RUnit | Some _ => RPanic PFillOccupied end)
       else (s, RPanic PFillType)
     end).
  Proof.
    intros Hr Ht. pose proof Hr as (Hok&Hd&Hg). unfold arena_fill_back, bindM, getM, unwrapM.
    rewrite Hd. destruct (s !! i) as [[d x]|] eqn:Hs; cbn; [|done].
    destruct (decide (nvar n = d)) as [Hv|Hv]; [|done]. subst d.
    assert (arena_dispatch a i = Some (nvar n)) as Hdi by by rewrite Hd, Hs.
    assert (arena_get a i = x) as Hgi by (rewrite Hg; unfold slot_node; by rewrite Hs).
    destruct x as [n0|].
    - rewrite (cont_insert_over _ _ _ _ _ n0) by done. split; [|done]. by eapply rep_set.
    - assert (known_variant (nvar n)) as Hlt by by eapply Ht.
      destruct (cont_insert_spec E PFillOccupied a (nvar n) i n Hok Hgi Hdi Hlt) as (a'&->&Hok'&Hd'&Hg'&_).
      split; [|done]. split; [done|]. split; intros j; cbn.
      + rewrite Hd', Hd. destruct (decide (j = i)) as [->|Hj]; [by rewrite Hs, lookup_insert|by rewrite lookup_insert_ne].
      + rewrite Hg', Hg. unfold slot_node. case_decide; [subst; by rewrite lookup_insert|by rewrite lookup_insert_ne].
  Qed.

  Lemma fill_untyped_run i n a s : rep a s -> known_variant (nvar n) ->
    (forall d m, s !! i = Some (d, Some m) -> d = nvar n) ->
    sim1 (caught (fun _ => RUnit) (arena_fill_back_untyped i n a))
      (<[i := (nvar n, Some n)]> s, match s !! i with Some (_, Some _) => RPanic PFillOccupied | _ => RUnit end).
  Proof.
    intros Hr Hv Hsame. pose proof Hr as (Hok&Hd&Hg). unfold arena_fill_back_untyped, bindM, getM, putM.
    destruct (slot_node s i) as [n0|] eqn:Hn.
    - unfold slot_node in Hn. destruct (s !! i) as [[d x]|] eqn:Hs; [|done]. subst x. assert (d = nvar n) as -> by by eapply Hsame.
      assert (omap_insert i (nvar n) (a_disp a) = a_disp a) as ->.
      { specialize (Hd i). rewrite Hs in Hd. cbn in Hd. unfold arena_dispatch in Hd. clear -Hd Hok. destruct Hok as (Hnd&_&_). revert Hnd Hd.
        induction (a_disp a) as [|[j v] l IH]; cbn; [done|]. intros Hnd. case_decide as Hj; [intros [= ->]; by subst|].
        intros Hl. f_equal. apply IH; [|done]. by inversion Hnd. }
      replace (set_disp a (a_disp a)) with a by by destruct a.
      rewrite (cont_insert_over _ _ _ _ _ n0); [|by rewrite Hd, Hs|rewrite Hg; unfold slot_node; by rewrite Hs].
      split; [|done]. by eapply rep_set.
    - destruct (arena_put_spec E PFillOccupied a i n Hok) as (a'&->&Hput); [by rewrite Hg|done|]. split; [by eapply rep_put|]. cbn.
      unfold slot_node in Hn. destruct (s !! i) as [[d x]|]; by subst.
  Qed.
  Lemma remove_run i a s : rep a s ->
    sim1 (let '(a', x) := arena_remove a i in (a', RNode x)) (delete i s, RNode (slot_node s i)).
  Proof.
    intros (Hok&Hd&Hg). pose proof (arena_remove_result a i) as Hr. pose proof (arena_remove_dispatch E a i) as H1.
    pose proof (arena_remove_get E a i) as H2. pose proof (arena_remove_ok E a i Hok) as H3.
    destruct (arena_remove a i) as [a' x]. cbn in *. split; [|cbn; by rewrite Hr, Hg].
    split; [done|]. split; intros j; cbn.
    - rewrite H1, Hd by done. case_decide; [subst; by rewrite lookup_delete|by rewrite lookup_delete_ne].
    - rewrite H2, Hg by done. unfold slot_node. case_decide; [subst; by rewrite lookup_delete|by rewrite lookup_delete_ne].
  Qed.
  Lemma edit_run i f a s : rep a s -> sim1 (arena_edit i f a)
    (match s !! i with
     | Some (d, Some n) =>
       match f n with
       | Done n' _ => (<[i := (d, Some n')]> s, RUnit)
       | Panicked p n' => (<[i := (d, Some n')]> s, RPanic p)
       end
     | _ => (s, RUnit)
     end).
  Proof.
    intros Hr. pose proof Hr as (Hok&Hd&Hg). unfold arena_edit. rewrite Hg. unfold slot_node.
    destruct (s !! i) as [[d [n|]]|] eqn:Hs; [|done|done]. destruct (f n); split; try done; by eapply rep_set.
  Qed.
  Lemma drop_cont a i d : arena_ok E a -> arena_dispatch a i = Some d -> d < length (a_cont a) ->
    arena_ok E (set_cont a d (omap_del i (cont a d))) /\
    forall j, arena_get (set_cont a d (omap_del i (cont a d))) j = if decide (j = i) then None else arena_get a j.
  Proof.
    intros Hok Hd Hlt. assert (NoDup (cont a d).*1) as Hnd by by apply (arena_ok_cont E). pose proof Hok as (Hdd&Hl&Hcc). split.
    - split; [done|]. split; [cbn; by rewrite insert_length|]. intros d' c' [[-> ->]|[Hne Hl']]%set_cont_lookup; [|by apply Hcc].
      split; [by apply omap_del_NoDup|]. intros j m Hin. apply omap_get_NoDup in Hin; [|by apply omap_del_NoDup].
      rewrite omap_get_del in Hin by done. case_decide; [done|]. apply omap_get_elem in Hin. by eapply (arena_cont_dispatch E a).
    - intros j. unfold arena_get. rewrite set_cont_dispatch. case_decide as Hj.
      + subst j. rewrite Hd, cont_set_cont, decide_True, omap_get_del, decide_True by done. done.
      + destruct (arena_dispatch a j) as [d'|]; [|done]. rewrite cont_set_cont by done. case_decide; [subst d'|done].
        by rewrite omap_get_del, decide_False.
  Qed.
  Lemma update_run i f c a s : rep a s -> table_ok c s -> sim1 (caught (fun _ => RUnit) (arena_update_with i f a))
    (match s !! i with
     | Some (d, Some n) =>
       match f n with
       | Ok n' => (<[i := (d, Some n')]> s, RUnit)
       | Err p => (<[i := (d, None)]> s, RPanic p)
       end
     | _ => (s, RPanic PUpdateMissing)
     end).
  Proof.
    intros Hr Ht. pose proof Hr as (Hok&Hd&Hg). destruct (slot_node s i) as [n|] eqn:Hn.
    - unfold slot_node in Hn. destruct (s !! i) as [[d x]|] eqn:Hs; [subst x|done].
      assert (arena_get a i = Some n) as Hgi by (rewrite Hg; unfold slot_node; by rewrite Hs).
      assert (arena_dispatch a i = Some d) as Hdi by by rewrite Hd, Hs.
      destruct (f n) as [n'|p] eqn:Hf.
      + pose proof (arena_update_wp E a i f
          (fun _ a' => rep a' (<[i := (d, Some n')]> s)) (fun _ _ => False) Hok) as Hwp.
        unfold wp in Hwp. destruct (arena_update_with i f a) as [a' []|p a'] eqn:Hu.
        * split; [|done]. cbn. apply Hwp; [|].
          -- intros n1 n2 a2 H1 H2 H3 H4 H5. assert (n1 = n) as -> by congruence. assert (n2 = n') as -> by congruence.
             split; [done|]. split; intros j.
             ++ rewrite H4, Hd. destruct (decide (j = i)) as [->|Hj]; [by rewrite Hs, lookup_insert|by rewrite lookup_insert_ne].
             ++ rewrite H5, Hg. unfold slot_node. case_decide; [subst; by rewrite lookup_insert|by rewrite lookup_insert_ne].
          -- intros p a2 [?|(n1&H1&H2)]; [congruence|]. assert (n1 = n) as -> by congruence. congruence.
        * exfalso. apply Hwp; [|].
          -- intros n1 n2 a2 H1 H2 H3 H4 H5. assert (n1 = n) as -> by congruence. assert (n2 = n') as -> by congruence.
             split; [done|]. split; intros j.
             ++ rewrite H4, Hd. destruct (decide (j = i)) as [->|Hj]; [by rewrite Hs, lookup_insert|by rewrite lookup_insert_ne].
             ++ rewrite H5, Hg. unfold slot_node. case_decide; [subst; by rewrite lookup_insert|by rewrite lookup_insert_ne].
          -- intros p2 a2 [?|(n1&H1&H2)]; [congruence|]. assert (n1 = n) as -> by congruence. congruence.
      + unfold arena_update_with, bindM, getM, unwrapM, putM, liftM. rewrite Hdi. cbn.
        unfold arena_get in Hgi. rewrite Hdi in Hgi. rewrite Hgi. cbn. rewrite Hf. cbn. split; [|done]. cbn.
        destruct (drop_cont a i d Hok Hdi) as [H1 H2].
        { pose proof Hok as (_&->&_). by eapply Ht. }
        split; [done|]. split; intros j.
        * rewrite set_cont_dispatch, Hd. destruct (decide (j = i)) as [->|Hj]; [by rewrite Hs, lookup_insert|by rewrite lookup_insert_ne].
        * rewrite H2, Hg. unfold slot_node. case_decide; [subst; by rewrite lookup_insert|by rewrite lookup_insert_ne].
    - assert (arena_get a i = None) as Hgi by by rewrite Hg. unfold slot_node in Hn.
      unfold arena_update_with, bindM, getM, unwrapM. unfold arena_get in Hgi.
      destruct (arena_dispatch a i) as [d|] eqn:Hdi; cbn.
      + rewrite Hgi. cbn. destruct (s !! i) as [[d' [x|]]|]; [done|done|done].
      + destruct (s !! i) as [[d' [x|]]|]; done.
  Qed.

  (** ** The two programs stay in step *)
  Definition related (w : arenas) (v : tables) : Prop :=
    w.1 = v.1 /\ forall k, match w.2 !! k, v.2 !! k with
      | Some a, Some s => rep a s /\ table_ok v.1 s
      | None, None => True
      | _, _ => False
      end.
  Lemma related_lookup w v k s : related w v -> v.2 !! k = Some s ->
    exists a, w.2 !! k = Some a /\ rep a s /\ table_ok v.1 s.
  Proof. intros [_ H] Hk. specialize (H k). rewrite Hk in H. destruct (w.2 !! k) as [a|]; [|done]. eauto. Qed.
  Lemma related_put w v k a s c' : related w v -> (v.1 <= c')%N -> rep a s -> table_ok c' s ->
    related (c', <[k := a]> w.2) (c', <[k := s]> v.2).
  Proof.
    intros [Hc H] Hle Hr Ht. split; [done|]. intros k'. cbn. destruct (decide (k' = k)) as [->|Hne].
    - by rewrite !lookup_insert.
    - rewrite !lookup_insert_ne by done. specialize (H k'). destruct (w.2 !! k'), (v.2 !! k'); try done.
      destruct H as [H1 H2]. split; [done|]. intros i d x Hi. destruct (H2 i d x Hi). split; [lia|done].
  Qed.
  Lemma related_table w v k f g : related w v ->
    (forall a s, v.2 !! k = Some s -> rep a s -> table_ok v.1 s ->
       sim1 (f a) (g s) /\ table_ok v.1 (g s).1) ->
    related (on_arena w k (arena_only f)).1 (on_table v k g).1 /\
    (on_arena w k (arena_only f)).2 = (on_table v k g).2.
  Proof.
    intros Hrel Hs. pose proof Hrel as [Hc H]. specialize (H k). unfold on_arena, on_table, arena_only.
    destruct (v.2 !! k) as [s|] eqn:Hk, (w.2 !! k) as [a|] eqn:Hk'; try done.
    destruct H as [Hr Ht]. destruct (Hs a s eq_refl Hr Ht) as [[H1 H2] H3].
    destruct (f a) as [a' r]. destruct (g s) as [s' r']. cbn in *. subst r'. split; [|done]. rewrite Hc. by apply related_put.
  Qed.
  Lemma related_fresh w v k f g : related w v ->
    (forall a s, v.2 !! k = Some s -> rep a s -> table_ok v.1 s -> s !! (v.1 + 1)%N = None ->
       exists a', f v.1 a = ((((v.1 + 1)%N, a'), RIdx (v.1 + 1)%N) : (N * arena D) * ares D) /\
         rep a' (g (v.1 + 1)%N s) /\ table_ok (v.1 + 1)%N (g (v.1 + 1)%N s)) ->
    related (on_arena w k f).1 (on_fresh v k g).1 /\ (on_arena w k f).2 = (on_fresh v k g).2.
  Proof.
    intros Hrel Hs. pose proof Hrel as [Hc H]. specialize (H k). unfold on_arena, on_fresh.
    destruct (v.2 !! k) as [s|] eqn:Hk, (w.2 !! k) as [a|] eqn:Hk'; try done.
    destruct H as [Hr Ht]. rewrite Hc. destruct (Hs a s eq_refl Hr Ht) as (a'&->&H1&H2).
    { destruct (s !! (v.1 + 1)%N) as [[d x]|] eqn:Hx; [|done]. destruct (Ht _ _ _ Hx). lia. }
    split; [|done]. apply (related_put (w.1, w.2) v); [done|lia|done|done].
  Qed.
  Lemma table_insert c s i d x : table_ok c s -> (i <= c)%N -> known_variant d -> table_ok c (<[i := (d, x)]> s).
  Proof.
    intros Ht Hi Hd j d' x'. destruct (decide (j = i)) as [->|Hj].
    - rewrite lookup_insert. by intros [= <- <-].
    - rewrite lookup_insert_ne by done. apply Ht.
  Qed.
  Lemma table_same c s i d x x' : table_ok c s -> s !! i = Some (d, x) -> table_ok c (<[i := (d, x')]> s).
  Proof. intros Ht Hs. destruct (Ht _ _ _ Hs). by apply table_insert. Qed.
  Lemma table_grow c c' s : table_ok c s -> (c <= c')%N -> table_ok c' s.
  Proof. intros Ht Hle i d x Hi. destruct (Ht i d x Hi). split; [lia|done]. Qed.

  Lemma from_list_slot (l : list (idx * node D)) i : NoDup l.*1 ->
    (list_to_map (map (fun kv => (kv.1, (nvar kv.2, Some kv.2))) l) : slots) !! i =
    (fun n => (nvar n, Some n)) <$> omap_get i l.
  Proof.
    intros Hnd. induction l as [|[j n] l IH]; cbn; [by rewrite lookup_empty|]. inversion Hnd; subst.
    destruct (decide (j = i)) as [->|Hj].
    - rewrite lookup_insert, decide_True by done. done.
    - rewrite lookup_insert_ne, decide_False by done. by apply IH.
  Qed.

  Lemma call_related w v o : related w v -> proper v o ->
    related (arena_call o w).1 (slot_call o v).1 /\ (arena_call o w).2 = (slot_call o v).2.
  Proof.
    intros Hrel Hp. destruct o as [k|k l|k d|k|k n|k i n|k i n|k i|k i f|k i f|k f|k k']; cbn [arena_call slot_call proper] in *.
    - split; [|done]. cbn. pose proof Hrel as [-> _]. apply related_put; [done|lia|apply rep_new|].
      intros i d x. by rewrite lookup_empty.
    - pose proof (arena_new_from_iter_gen E l) as Hs. destruct (arena_new_from_iter E l) as [a []|p a].
      + destruct Hs as [Hnd []]; [intros i n Hin; by apply Hp in Hin as [_ ?]|]. rewrite decide_True by done. split; [|done].
        pose proof Hrel as [Hc _]. cbn. rewrite Hc. apply related_put; [done|lia| |].
        * split; [done|]. split; intros i.
          -- rewrite fi_disp, from_list_slot by done. by destruct (omap_get i l).
          -- rewrite fi_get. unfold slot_node. rewrite from_list_slot by done. by destruct (omap_get i l).
        * intros i d x. rewrite from_list_slot by done. destruct (omap_get i l) as [n|] eqn:Hg; cbn; [|done].
          intros [= <- <-]. apply omap_get_elem in Hg. by apply Hp in Hg.
      + destruct Hs as [-> Hnd]; [intros i n Hin; by apply Hp in Hin as [_ ?]|]. by rewrite decide_False.
    - apply related_fresh; [done|]. intros a s Hk Hr Ht Hn. destruct Hp as [Hp1 Hp2].
      destruct (alloc_run d v.1 a s Hr Hn Hp2 Hp1) as (a'&->&Hr'). exists a'. split; [done|]. split; [done|].
      apply table_insert; [|lia|done]. eapply table_grow; [done|lia].
    - apply related_fresh; [done|]. intros a s Hk Hr Ht Hn. exists a. rewrite alloc_untyped_run by done. split; [done|].
      split; [done|]. eapply table_grow; [done|lia].
    - apply related_fresh; [done|]. intros a s Hk Hr Ht Hn. destruct Hp as [Hp1 Hp2].
      destruct (insert_run n v.1 a s Hr Hn Hp2 Hp1) as (a'&->&Hr'). exists a'. split; [done|]. split; [done|].
      apply table_insert; [|lia|done]. eapply table_grow; [done|lia].
    - apply related_table; [done|]. intros a s Hk Hr Ht. split; [by eapply fill_run|].
      destruct (s !! i) as [[d x]|] eqn:Hs; [|done]. case_decide; [|done]. by eapply table_same.
    - apply related_table; [done|]. destruct Hp as (Hp1&Hp2&Hp3). intros a s Hk Hr Ht. split; [apply fill_untyped_run; [done..|]|].
      + intros d m Hs. by eapply Hp3.
      + by apply table_insert.
    - apply related_table; [done|]. intros a s Hk Hr Ht. split; [by apply remove_run|]. cbn.
      intros j d x [_ Hj]%lookup_delete_Some. by eapply Ht.
    - apply related_table; [done|]. intros a s Hk Hr Ht. split; [by apply edit_run|].
      destruct (s !! i) as [[d [n|]]|] eqn:Hs; [|done|done]. destruct (f n); by eapply table_same.
    - apply related_table; [done|]. intros a s Hk Hr Ht. split; [by eapply update_run|].
      destruct (s !! i) as [[d [n|]]|] eqn:Hs; [|done|done]. destruct (f n); by eapply table_same.
    - apply related_table; [done|]. intros a s Hk Hr Ht. split; [split; [by apply rep_iter_mut|done]|]. cbn.
      intros j d x. rewrite map_lookup_imap. destruct (s !! j) as [[d' x']|] eqn:Hs; cbn; [|done]. intros [= <- <-]. by eapply Ht.
    - destruct (decide (k = k')) as [->|Hne]; [done|]. pose proof Hrel as [Hc H]. pose proof (H k) as H1. pose proof (H k') as H2.
      destruct (v.2 !! k) as [s|] eqn:Hk, (w.2 !! k) as [a|] eqn:Hk2; try done.
      destruct (v.2 !! k') as [s'|] eqn:Hk', (w.2 !! k') as [b|] eqn:Hk2'; try done.
      destruct H1 as [Hr Ht], H2 as [Hr' Ht']. split; [|done]. cbn [fst snd]. rewrite Hc.
      change (related (v.1, <[k := arena_merge a b]> (v.1, delete k' w.2).2) (v.1, <[k := s ∪ s']> (v.1, delete k' v.2).2)).
      apply related_put; [|cbn; lia|apply rep_merge; [done|done|by apply Hp]|].
      + split; [done|]. intros j. cbn. destruct (decide (j = k')) as [->|Hj]; [by rewrite !lookup_delete|].
        rewrite !lookup_delete_ne by done. apply H.
      + intros j d x [Hj|[_ Hj]]%lookup_union_Some_raw; [by eapply Ht|by eapply Ht'].
  Qed.

  Lemma prog_related os w v : related w v -> all_proper os v ->
    related (arena_prog os w).1 (slot_prog os v).1 /\ (arena_prog os w).2 = (slot_prog os v).2.
  Proof.
    revert w v. induction os as [|o os IH]; intros w v Hrel; cbn; [done|]. intros [Hp Hps].
    destruct (call_related w v o Hrel Hp) as [H1 H2]. destruct (arena_call o w) as [w1 r], (slot_call o v) as [v1 r1]. cbn in *. subst r1.
    destruct (IH w1 v1 H1 Hps) as [H3 H4]. destruct (arena_prog os w1) as [w2 rs], (slot_prog os v1) as [v2 rs']. cbn in *. by subst.
  Qed.
  Lemma arenas_are_tables os c : all_proper os (c, ∅) ->
    (arena_prog os (c, ∅)).2 = (slot_prog os (c, ∅)).2 /\
    (arena_prog os (c, ∅)).1.1 = (slot_prog os (c, ∅)).1.1 /\
    forall k, option_Forall2 shows ((arena_prog os (c, ∅)).1.2 !! k) ((slot_prog os (c, ∅)).1.2 !! k).
  Proof.
    intros Hp. destruct (prog_related os (c, ∅) (c, ∅)) as [[H1 H2] H3]; [|done|].
    { split; [done|]. intros k. cbn. by rewrite !lookup_empty. }
    split; [done|]. split; [done|]. intros k. specialize (H2 k).
    destruct ((arena_prog os (c, ∅)).1.2 !! k) as [a|], ((slot_prog os (c, ∅)).1.2 !! k) as [s|]; try done; constructor.
    apply rep_shows, H2.
  Qed.
End slots.
