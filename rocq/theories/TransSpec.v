(** * Specification of the transaction calls

    A transaction as its user sees it, and the effect of every call on it.  Nothing
    here mentions arenas, dispatchers or containers. *)
From Verif Require Export Spec.

Section tspec.
  Context {D : Type}.

  Record tspec := TS {
    ts_res : gmap N (option nat);   (* reserved indices; [Some v] if reserved for variant v *)
    ts_new : gmap N (node D);       (* inserted and filled nodes *)
    ts_del : list idx;              (* graph nodes to remove *)
    ts_mut : list (idx * (node D -> out (node D) unit));
    ts_upd : list (idx * (node D -> res (node D)));
    ts_redir_all : list (idx * idx);
    ts_redir : list (idx * idx) }.

  Inductive tcall :=
  | CInsert (n : node D)
  | CAlloc (v : nat)
  | CAllocUntyped
  | CFill (i : idx) (n : node D)
  | CFillUntyped (i : idx) (n : node D)
  | CRemove (i : idx)
  | CMutate (i : idx) (f : node D -> out (node D) unit)
  | CUpdate (i : idx) (f : node D -> res (node D))
  | CRedirect (old new : idx)
  | CRedirectAll (old new : idx).

  Definition ts_empty : tspec := TS ∅ ∅ [] [] [] [] [].
  Definition ts_put (s : tspec) (i : idx) (n : node D) : tspec :=
    TS (delete i (ts_res s)) (<[i := n]> (ts_new s)) (ts_del s) (ts_mut s) (ts_upd s) (ts_redir_all s) (ts_redir s).
  Definition ts_reserve (s : tspec) (i : idx) (v : option nat) : tspec :=
    TS (<[i := v]> (ts_res s)) (ts_new s) (ts_del s) (ts_mut s) (ts_upd s) (ts_redir_all s) (ts_redir s).

  (** Effect of a call; [i] is the index handed out if the call asks for one; [None] =
      the call panics. *)
  Definition ts_call (i : idx) (s : tspec) (c : tcall) : option tspec :=
    match c with
    | CInsert n => Some (ts_put s i n)
    | CAlloc v => Some (ts_reserve s i (Some v))
    | CAllocUntyped => Some (ts_reserve s i None)
    | CFill j n =>
      (* only a typed reservation of the same variant can be filled *)
      match ts_res s !! j with
      | Some (Some v) => if decide (v = nvar n) then Some (ts_put s j n) else None
      | _ => None
      end
    | CFillUntyped j n => Some (ts_put s j n)
    | CRemove j =>
      match ts_new s !! j, ts_res s !! j with
      | Some _, _ => Some (TS (ts_res s) (delete j (ts_new s)) (ts_del s) (ts_mut s) (ts_upd s) (ts_redir_all s) (ts_redir s))
      | None, Some _ => Some (TS (delete j (ts_res s)) (ts_new s) (ts_del s) (ts_mut s) (ts_upd s) (ts_redir_all s) (ts_redir s))
      | None, None =>
        Some (TS (ts_res s) (ts_new s) (if decide (j ∈ ts_del s) then ts_del s else ts_del s ++ [j])
                 (ts_mut s) (ts_upd s) (ts_redir_all s) (ts_redir s))
      end
    | CMutate j f =>
      match ts_new s !! j with
      | Some n => match f n with Done n' _ => Some (ts_put s j n') | Panicked _ _ => None end
      | None => Some (TS (ts_res s) (ts_new s) (ts_del s) (ts_mut s ++ [(j, f)]) (ts_upd s) (ts_redir_all s) (ts_redir s))
      end
    | CUpdate j f =>
      match ts_new s !! j with
      | Some n => match f n with Ok n' => Some (ts_put s j n') | Err _ => None end
      | None => Some (TS (ts_res s) (ts_new s) (ts_del s) (ts_mut s) (ts_upd s ++ [(j, f)]) (ts_redir_all s) (ts_redir s))
      end
    | CRedirect o z => Some (TS (ts_res s) (ts_new s) (ts_del s) (ts_mut s) (ts_upd s) (ts_redir_all s) (ts_redir s ++ [(o, z)]))
    | CRedirectAll o z => Some (TS (ts_res s) (ts_new s) (ts_del s) (ts_mut s) (ts_upd s) (ts_redir_all s ++ [(o, z)]) (ts_redir s))
    end.

  Definition allocates (c : tcall) : bool :=
    match c with CInsert _ | CAlloc _ | CAllocUntyped => true | _ => false end.

  (** what is handed to the commit *)
  Definition ts_txn (s : tspec) : txn D :=
    Txn (ts_redir s) (ts_new s) (ts_mut s) (ts_upd s) (ts_redir_all s) (ts_del s).
  Definition ts_is_empty (s : tspec) : Prop :=
    ts_res s = ∅ /\ ts_new s = ∅ /\ ts_del s = [] /\ ts_mut s = [] /\ ts_upd s = [] /\
    ts_redir_all s = [] /\ ts_redir s = [].

  (** ** Histories of one transaction *)
  Inductive tevent :=
  | EvCall (i : idx) (c : tcall)              (* a call; [i]: the index it returned, if any *)
  | EvMerge (m : gmap N (node D)).            (* merge of a graph holding the nodes [m] *)
  Definition ts_event (s : tspec) (e : tevent) : option tspec :=
    match e with
    | EvCall i c => ts_call i s c
    | EvMerge m => Some (TS (ts_res s) (m ∪ ts_new s) (ts_del s) (ts_mut s) (ts_upd s) (ts_redir_all s) (ts_redir s))
    end.
  Fixpoint ts_run (s : tspec) (L : list tevent) : option tspec :=
    match L with
    | [] => Some s
    | e :: L' => match ts_event s e with Some s' => ts_run s' L' | None => None end
    end.
End tspec.
Arguments tspec D : clear implicits.
Arguments tcall D : clear implicits.
Arguments tevent D : clear implicits.
