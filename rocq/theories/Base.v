(** * Base: panics, results and the state/panic monad

    Rust code in /repo mutates objects through [&mut self] and signals errors by
    panicking.  A function that mutates an object of type [S] and returns an [A]
    is modelled by [S -> out S A]; a panic carries the state reached when the
    panic was raised, because that is what a caller that catches the unwind (or
    a [Drop] impl) would observe.  Functions that mutate nothing before they may
    panic use the simpler [res]. *)
From stdpp Require Export base tactics list numbers option decidable strings.
From Coq Require Export NArith.

(** The reasons a modelled function can panic.  One constructor per panic site
    family of /repo; the comment gives the message or the source line. *)
Inductive panic : Type :=
| PUnwrap            (* Option::unwrap on None / Index on a missing map key *)
| PBounds            (* Vec index out of bounds, typed_node.rs:232 *)
| PMismatch          (* "Unmatched node type and source type!", node_enum.rs:125 *)
| PIllTyped          (* not expressible in Rust: source kind differs from field kind *)
| PAddOccupied       (* "Add link on existing direct link", typed_node.rs:258 *)
| PVecAdd            (* "Add link on Vec<NodeIndex> is not supported!", typed_node.rs:269 *)
| PVecRemove         (* "Remove link on Vec<NodeIndex> is not supported!", typed_node.rs:301 *)
| PVecSource         (* "Vec type LinkMirror cannot be converted to Source!", typed_node.rs:80 *)
| PLoop              (* "Loop redirection detected!", typed_graph.rs:627 *)
| PMultiChoice       (* "Node with multiple choices ...", typed_graph.rs:680 *)
| PLinkType          (* "Link type check failed!", typed_graph.rs:714 *)
| PCheckFailed       (* "Check failed: ...", typed_graph.rs:437 *)
| PCtxMismatch       (* debug_assert / assert on ctx_id, typed_graph.rs:516, transaction.rs:497 *)
| PUnfilled          (* "There are unfilled allocated nodes", typed_graph.rs:517 *)
| PRemoveMissing     (* "Remove a non-existing node!", typed_graph.rs:550 *)
| PDupAlloc          (* "Duplicated allocation", macros cate_arena.rs:349 *)
| PInsertExists      (* "Allocated index already existed ...", cate_arena.rs:76 *)
| PFillMissing       (* "Fillback an non-existing index", cate_arena.rs:81 *)
| PFillType          (* "Fillback with incompatible type", cate_arena.rs:83 *)
| PFillOccupied      (* "Fillback an occupied index", cate_arena.rs:86, macros cate_arena.rs:360 *)
| PUpdateMissing     (* "Update a non-existing node", cate_arena.rs:102-103 *)
| PDupIndex          (* "Duplicated index", macros cate_arena.rs:329,332 *)
| POverflow          (* usize overflow of [c + 1], id_distributer.rs:16 *)
| PUser (code : N)   (* a panic raised inside a user closure *)
| PTypeMacro         (* "Type does not match!", macros.rs:143,219; panic!() macros.rs:89 *)
| PBackLinks         (* check_backlinks failure, typed_graph.rs:500-507 *)
| PIntegrity         (* "Found external link ...", typed_graph.rs:483 *)
| PDiverge.          (* a [while] loop that would not terminate (fuel exhausted) *)

Global Instance panic_eq_dec : EqDecision panic.
Proof. solve_decision. Defined.

Inductive res (A : Type) : Type := Ok (a : A) | Err (p : panic).
Arguments Ok {A} a.
Arguments Err {A} p.

Inductive out (S A : Type) : Type := Done (s : S) (a : A) | Panicked (p : panic) (s : S).
Arguments Done {S A} s a.
Arguments Panicked {S A} p s.

(** Stateful computations. *)
Definition M (S A : Type) : Type := S -> out S A.

Definition retM {S A} (a : A) : M S A := fun s => Done s a.
Definition panicM {S A} (p : panic) : M S A := fun s => Panicked p s.
Definition bindM {S A B} (m : M S A) (k : A -> M S B) : M S B :=
  fun s => match m s with Done s' a => k a s' | Panicked p s' => Panicked p s' end.
Definition getM {S} : M S S := fun s => Done s s.
Definition putM {S} (s' : S) : M S unit := fun _ => Done s' tt.
Definition liftM {S A} (r : res A) : M S A :=
  match r with Ok a => retM a | Err p => panicM p end.
Definition unwrapM {S A} (p : panic) (o : option A) : M S A :=
  match o with Some a => retM a | None => panicM p end.

Declare Scope m_scope.
Delimit Scope m_scope with m.
Notation "'do!' x <- m ; k" := (bindM m (fun x => k))
  (at level 200, x pattern, m at level 100, k at level 200, right associativity) : m_scope.
Notation "'run!' m ; k" := (bindM m (fun _ => k))
  (at level 200, m at level 100, k at level 200, right associativity) : m_scope.
Global Open Scope nat_scope.
Global Open Scope list_scope.
Global Open Scope m_scope.

(** [for a in l { f a }] *)
Fixpoint mfor {S A} (l : list A) (f : A -> M S unit) : M S unit :=
  match l with
  | [] => retM tt
  | a :: l' => run! f a; mfor l' f
  end.

(** ** Weakest preconditions (proof device, not part of the model) *)
Definition wp {S A} (m : M S A) (s : S) (Q : A -> S -> Prop) (R : panic -> S -> Prop) : Prop :=
  match m s with Done s' a => Q a s' | Panicked p s' => R p s' end.

Section wp.
  Context {S A B : Type}.
  Implicit Types (Q : A -> S -> Prop) (R : panic -> S -> Prop).

  Lemma wp_ret (a : A) s Q R : Q a s -> wp (retM a) s Q R.
  Proof. done. Qed.
  Lemma wp_panic p s Q R : R p s -> wp (panicM (A:=A) p) s Q R.
  Proof. done. Qed.
  Lemma wp_bind (m : M S A) (k : A -> M S B) s (Q : B -> S -> Prop) R :
    wp m s (fun a s' => wp (k a) s' Q R) R -> wp (bindM m k) s Q R.
  Proof. unfold wp, bindM. by destruct (m s). Qed.
  Lemma wp_bind_inv (m : M S A) (k : A -> M S B) s (Q : B -> S -> Prop) R :
    wp (bindM m k) s Q R -> wp m s (fun a s' => wp (k a) s' Q R) R.
  Proof. unfold wp, bindM. by destruct (m s). Qed.
  Lemma wp_mono (m : M S A) s Q Q' R R' :
    wp m s Q R -> (forall a s', Q a s' -> Q' a s') -> (forall p s', R p s' -> R' p s') ->
    wp m s Q' R'.
  Proof. unfold wp. destruct (m s); auto. Qed.
  Lemma wp_get s (Q : S -> S -> Prop) R : Q s s -> wp getM s Q R.
  Proof. done. Qed.
  Lemma wp_put s s' (Q : unit -> S -> Prop) R : Q tt s' -> wp (putM s') s Q R.
  Proof. done. Qed.
  Lemma wp_unwrap p (o : option A) s Q R :
    (forall a, o = Some a -> Q a s) -> (o = None -> R p s) -> wp (unwrapM p o) s Q R.
  Proof. destruct o; cbn; intros H1 H2; [by apply H1|by apply H2]. Qed.
  Lemma wp_lift (r : res A) s Q R :
    (forall a, r = Ok a -> Q a s) -> (forall p, r = Err p -> R p s) -> wp (liftM r) s Q R.
  Proof. destruct r; cbn; intros H1 H2; [by apply H1|by apply H2]. Qed.
  Lemma wp_done (m : M S A) s Q R s' a : m s = Done s' a -> wp m s Q R -> Q a s'.
  Proof. unfold wp. by intros ->. Qed.
  Lemma wp_panicked (m : M S A) s Q R s' p : m s = Panicked p s' -> wp m s Q R -> R p s'.
  Proof. unfold wp. by intros ->. Qed.
  Lemma wp_and (m : M S A) s Q Q' R R' :
    wp m s Q R -> wp m s Q' R' ->
    wp m s (fun a s' => Q a s' /\ Q' a s') (fun p s' => R p s' /\ R' p s').
  Proof. unfold wp. by destruct (m s). Qed.
End wp.

(** Loop rule: [I done s] holds after the items [done] have been processed. *)
Lemma wp_mfor {S A} (l : list A) (f : A -> M S unit) (I : list A -> S -> Prop)
    (R : panic -> S -> Prop) s :
  I [] s ->
  (forall pre a post s', l = pre ++ a :: post -> I pre s' ->
     wp (f a) s' (fun _ s'' => I (pre ++ [a]) s'') R) ->
  wp (mfor l f) s (fun _ s' => I l s') R.
Proof.
  intros H0 Hstep.
  assert (forall post pre s', l = pre ++ post -> I pre s' ->
            wp (mfor post f) s' (fun _ s'' => I l s'') R) as Hgen.
  { induction post as [|a post IH]; intros pre s' Hl HI; cbn [mfor].
    - apply wp_ret. rewrite app_nil_r in Hl. by subst.
    - apply wp_bind. eapply wp_mono; [by eapply Hstep| |done].
      cbn beta. intros _ s'' HI''. apply (IH (pre ++ [a])); [|done].
      by rewrite <- app_assoc. }
  by apply (Hgen l []).
Qed.

(** When the invariant does not mention the processed prefix. *)
Lemma wp_mfor_simple {S A} (l : list A) (f : A -> M S unit) (I : S -> Prop)
    (R : panic -> S -> Prop) s :
  I s ->
  (forall a s', a ∈ l -> I s' -> wp (f a) s' (fun _ s'' => I s'') R) ->
  wp (mfor l f) s (fun _ s' => I s') R.
Proof.
  intros H0 Hstep. apply (wp_mfor l f (fun _ => I)); [done|].
  intros pre a post s' -> HI. apply Hstep; [|done].
  rewrite elem_of_app, elem_of_cons; auto.
Qed.
