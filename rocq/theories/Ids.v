(** * Index allocation

    Model of /repo/src/id_distributer.rs.  The counter is a [usize]; the target
    is taken to be 64 bit. *)
From Verif Require Export Base.

Definition usize_mod : N := (2 ^ 64)%N.

(** [IdDistributer::alloc], id_distributer.rs:14-17: [fetch_add] returns the old
    value [c] and wraps; then [c + 1] is computed: with overflow checks it panics
    at the limit (the counter has already wrapped), without them it wraps to 0.
    The state is the shared counter. *)
Definition dist_alloc (dbg : bool) : M N N := fun c =>
  let c' := ((c + 1) mod usize_mod)%N in
  if (c =? usize_mod - 1)%N
  then if dbg then Panicked POverflow c' else Done c' 0%N
  else Done c' (c + 1)%N.

(** id_distributer.rs:10-12 [new], 24-28 [default], 19-21 [from_count] *)
Definition dist_new : N := 0%N.
Definition dist_from_count (cnt : N) : N := cnt.
