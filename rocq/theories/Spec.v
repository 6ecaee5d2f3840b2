(** * Specification vocabulary

    Notions used to STATE the properties.  They only mention node values and maps
    from indices to node values, not the graph's data structures. *)
From stdpp Require Export gmap.
From Verif Require Export Node.

(** The values a link field holds. *)
Definition lv_elems (lv : linkval) : list idx :=
  match lv with LDirect i => [i] | LSet _ l => l | LVec l => l end.

Section spec.
  Context {D : Type}.
  Implicit Types (n : node D) (m : gmap N (node D)).

  (** node [n] links to [y] through link field [l] *)
  Definition has_link n (l : link) (y : idx) : Prop :=
    y <> 0%N /\ nvar n = l_var l /\
    exists lv, nlinks n !! l_fld l = Some lv /\ y ∈ lv_elems lv.

  (** node [n] mentions index [y] in some link field *)
  Definition links_to n (y : idx) : Prop := exists l, has_link n l y.

  (** ** Effect of redirecting [old] to [new] on one node *)
  Definition lv_redirect (old new : idx) (lv : linkval) : linkval :=
    match lv with
    | LDirect i => LDirect (if decide (i = old) then new else i)
    | LSet k l =>
      if decide (old ∈ l) then
        if decide (new = 0%N) then LSet k (set_remove k old l)
        else LSet k (set_insert k new (set_remove k old l))
      else LSet k l
    | LVec l => LVec ((fun i => if decide (i = old) then new else i) <$> l)
    end.
  Definition node_redirect (old new : idx) n : node D :=
    Node (nvar n) (lv_redirect old new <$> nlinks n) (ndata n).
End spec.

(** ** Redirect lists *)
(** [y] is reached from [x] by following the list *)
Definition redir_reach (reps : list (idx * idx)) (x y : idx) : Prop :=
  rtc (fun a b => (a, b) ∈ reps) x y.
(** [z] is a final destination of [x]: reached, and itself not redirected *)
Definition redir_final (reps : list (idx * idx)) (x z : idx) : Prop :=
  redir_reach reps x z /\ z ∉ reps.*1.
(** following the list from some index comes back to it *)
Definition redir_loop (reps : list (idx * idx)) : Prop :=
  exists x, tc (fun a b => (a, b) ∈ reps) x x.
(** The same with repeated sources taken into account: every call makes its source point
    to where its target leads at that moment, in call order; [P] are the pointers.  With
    distinct sources without a loop this is following the list ([ptrs_distinct]). *)
Definition leads (P : gmap N idx) (x z : idx) : Prop :=
  rtc (fun a b => P !! a = Some b) x z /\ P !! z = None.
Inductive redir_ptrs : list (idx * idx) -> gmap N idx -> Prop :=
| ptrs_nil : redir_ptrs [] ∅
| ptrs_snoc reps P old new z : redir_ptrs reps P -> leads P new z -> z <> old ->
    redir_ptrs (reps ++ [(old, new)]) (<[old := z]> P).
(** some call redirects an index to itself, through the calls before it *)
Definition redir_bad (reps : list (idx * idx)) : Prop := ~ exists P, redir_ptrs reps P.
(** [reps'] is [reps] with every target replaced by where it leads in the end *)
Definition redir_resolved (reps reps' : list (idx * idx)) : Prop :=
  exists P, redir_ptrs reps P /\ Forall2 (fun on oz => oz.1 = on.1 /\ leads P on.2 oz.2) reps reps'.
(** one redirection after the other *)
Definition node_redirects {D} (reps : list (idx * idx)) (n : node D) : node D :=
  fold_left (fun n '(old, new) => node_redirect old new n) reps n.

(** where links to [y] go: a redirected index to where the target of the first call for it
    leads in the end, every other index to itself.  With distinct sources this is the end of
    the chain ([redir_dest_distinct]). *)
Definition redir_dest (reps : list (idx * idx)) (y z : idx) : Prop :=
  (y ∉ reps.*1 /\ z = y) \/
  exists pre new post P, reps = pre ++ (y, new) :: post /\ y ∉ pre.*1 /\ redir_ptrs reps P /\ leads P new z.
(** [lv'] is the link value [lv] with every target replaced by its destination; a set forgets an element whose destination is the empty index *)
Definition lv_redirected (reps : list (idx * idx)) (lv lv' : linkval) : Prop :=
  match lv, lv' with
  | LDirect i, LDirect i' => redir_dest reps i i'
  | LSet k l, LSet k' l' => k' = k /\ NoDup l' /\
      forall y', y' ∈ l' <-> exists y, y ∈ l /\ redir_dest reps y y' /\ (y' <> 0%N \/ y = 0%N)
  | LVec l, LVec l' => Forall2 (redir_dest reps) l l'
  | _, _ => False
  end.
(** [lv'] is the link value [lv] without the indices [xs]: direct and vector entries
    become empty, set entries disappear *)
Definition lv_cleared (xs : list idx) (lv lv' : linkval) : Prop :=
  match lv, lv' with
  | LDirect i, LDirect i' => i' = if decide (i ∈ xs) then 0%N else i
  | LSet k l, LSet k' l' => k' = k /\ NoDup l' /\ forall y, y ∈ l' <-> y ∈ l /\ y ∉ xs
  | LVec l, LVec l' => l' = (fun i => if decide (i ∈ xs) then 0%N else i) <$> l
  | _, _ => False
  end.

(** ** Transactions on a map from indices to nodes

    A transaction is described by what the caller put into it. *)
Section txn.
  Context {D : Type}.
  Implicit Types (n : node D) (m : gmap N (node D)).

  Record txn := Txn {
    x_redir : list (idx * idx);                       (* redirect_links calls *)
    x_new : gmap N (node D);                          (* inserted / filled nodes *)
    x_mut : list (idx * (node D -> out (node D) unit)); (* queued mutates *)
    x_upd : list (idx * (node D -> res (node D)));      (* queued updates *)
    x_redir_all : list (idx * idx);                   (* redirect_all_links calls *)
    x_del : list idx }.                               (* removed graph nodes *)

  Definition sp_redirect (reps : list (idx * idx)) m m' : Prop :=
    exists res, redir_resolved reps res /\ m' = node_redirects res <$> m.
  (** run the closures one after the other, in order *)
  Fixpoint sp_mutates (fs : list (idx * (node D -> out (node D) unit))) m : option (gmap N (node D)) :=
    match fs with
    | [] => Some m
    | (i, f) :: fs' =>
      match m !! i with
      | None => None
      | Some n => match f n with Done n' _ => sp_mutates fs' (<[i := n']> m) | Panicked _ _ => None end
      end
    end.
  Fixpoint sp_updates (fs : list (idx * (node D -> res (node D)))) m : option (gmap N (node D)) :=
    match fs with
    | [] => Some m
    | (i, f) :: fs' =>
      match m !! i with
      | None => None
      | Some n => match f n with Ok n' => sp_updates fs' (<[i := n']> m) | Err _ => None end
      end
    end.
  (** delete a node and clear the links to it *)
  Definition sp_remove (x : idx) m : gmap N (node D) := node_redirect x 0%N <$> delete x m.
  Fixpoint sp_removes (xs : list idx) m : option (gmap N (node D)) :=
    match xs with
    | [] => Some m
    | x :: xs' => match m !! x with None => None | Some _ => sp_removes xs' (sp_remove x m) end
    end.

  (** what a commit means, without bidirectional links *)
  Definition sp_commit (t : txn) m m' : Prop :=
    exists m1 m2 m3 m4,
      sp_redirect (x_redir t) m m1 /\
      sp_mutates (x_mut t) (x_new t ∪ m1) = Some m2 /\
      sp_updates (x_upd t) m2 = Some m3 /\
      sp_redirect (x_redir_all t) m3 m4 /\
      sp_removes (x_del t) m4 = Some m'.

  (** every non-empty link of [n] targets a node of [m], and no set of [n] holds the
      empty index *)
  Definition targets_known m n : Prop :=
    (forall y, links_to n y -> is_Some (m !! y)) /\
    forall f k l, nlinks n !! f = Some (LSet k l) -> 0%N ∉ l.
  Fixpoint mutates_known (fs : list (idx * (node D -> out (node D) unit))) m : Prop :=
    match fs with
    | [] => True
    | (i, f) :: fs' =>
      forall n n', m !! i = Some n -> f n = Done n' tt ->
        targets_known m n' /\ mutates_known fs' (<[i := n']> m)
    end.
  Fixpoint updates_known (fs : list (idx * (node D -> res (node D)))) m : Prop :=
    match fs with
    | [] => True
    | (i, f) :: fs' =>
      forall n n', m !! i = Some n -> f n = Ok n' ->
        targets_known m n' /\ updates_known fs' (<[i := n']> m)
    end.
  Definition redir_valid (reps : list (idx * idx)) m : Prop :=
    (exists P, redir_ptrs reps P) /\ forall o, o ∈ reps.*1 -> is_Some (m !! o).

  (** conditions under which a commit has to succeed *)
  Definition sp_valid (t : txn) m : Prop :=
    redir_valid (x_redir t) m /\
    forall m1, sp_redirect (x_redir t) m m1 ->
      mutates_known (x_mut t) (x_new t ∪ m1) /\
      exists m2, sp_mutates (x_mut t) (x_new t ∪ m1) = Some m2 /\
        updates_known (x_upd t) m2 /\
        exists m3, sp_updates (x_upd t) m2 = Some m3 /\
          redir_valid (x_redir_all t) m3 /\
          forall m4, sp_redirect (x_redir_all t) m3 m4 -> is_Some (sp_removes (x_del t) m4).
End txn.
Arguments txn D : clear implicits.
