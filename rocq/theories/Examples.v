(** * Concrete schema and histories used by the examples and refutations *)
From Verif Require Export Exec TransHist CommitMore.

(** Two variants.  0 = A: [next : NodeIndex], [peers : BTreeSet<NodeIndex>],
    [items : Vec<NodeIndex>]; 1 = B: [owner : NodeIndex], [users : HashSet<NodeIndex>]. *)
Definition ex_kinds : list (list lkind) := [[KDirect; KSet SBTree; KVec]; [KDirect; KSet SHash]].
Definition nA (nxt : idx) (peers items : list idx) (d : nat) : node nat :=
  Node 0 [LDirect nxt; LSet SBTree peers; LVec items] [("n"%string, d)].
Definition nB (owner : idx) (users : list idx) (d : nat) : node nat :=
  Node 1 [LDirect owner; LSet SHash users] [("n"%string, d)].

(** no bidirectional links, no link types, debug build *)
Definition E0 : env := Env ex_kinds (fun _ => []) (fun _ _ => true) (fun _ l => l) true.
(** the same, release build *)
Definition E0r : env := Env ex_kinds (fun _ => []) (fun _ _ => true) (fun _ l => l) false.
(** A.next <-> B.users; A.next only to B, B.users only to A *)
Definition opp1 (l : link) : list link :=
  if decide (l = Link 0 0) then [Link 1 1] else if decide (l = Link 1 1) then [Link 0 0] else [].
Definition chk1 (v : nat) (l : link) : bool :=
  if decide (l = Link 0 0) then v =? 1 else if decide (l = Link 1 1) then v =? 0 else true.
Definition E1 : env := Env ex_kinds opp1 chk1 (fun _ l => l) true.

(** closures: add 100 to the data *)
Definition bump (n : node nat) : node nat := Node (nvar n) (nlinks n) ((fun '(s, d) => (s, d + 100)) <$> ndata n).
Definition bump_mut : mut_fn nat := fun n => Done (bump n) tt.
Definition bump_upd : upd_fn nat := fun n => Ok (bump n).
(** replace the links of an A node *)
Definition relink (nxt : idx) (peers items : list idx) : mut_fn nat := fun n =>
  if decide (nvar n = 0) then Done (Node 0 [LDirect nxt; LSet SBTree peers; LVec items] (ndata n)) tt else Panicked PTypeMacro n.

Lemma bump_mut_ok E T : mut_ok E T bump_mut.
Proof. intros n n' Hok [= <-]. done. Qed.
Lemma bump_upd_ok E T : upd_ok E T bump_upd.
Proof. intros n n' Hok [= <-]. done. Qed.
Lemma relink_ok E T nxt peers items :
  e_kinds E = ex_kinds -> bool_decide (NoDup peers) && incb peers = true -> mut_ok E T (relink nxt peers items).
Proof.
  intros HE [Hnd%bool_decide_eq_true Hs%incb_sound]%andb_true_iff n n' Hok. unfold relink. case_decide; [|done]. intros [= <-]. split; [|done].
  exists [KDirect; KSet SBTree; KVec]. split; [by rewrite HE|]. repeat constructor; done.
Qed.

Notation opn := (op (D:=nat)).

(** first transaction: four nodes *)
Definition setup : list opn :=
  [ONewCtx 7; ONewGraph 0 0; ONewTrans 0 0;
   OInsert 0 (nB 0 [] 1) 1; OInsert 0 (nA 1 [1] [1; 0; 1] 2) 2; OInsert 0 (nA 2 [1; 2] [2] 3) 3; OInsert 0 (nB 0 [] 4) 4;
   OCommit 0 0]%N.
(** second transaction: uses every kind of call *)
Definition busy : list opn :=
  setup ++
  [ONewTrans 1 0; OInsert 1 (nA 1 [3] [3; 2] 5) 5; OMutate 1 2 bump_mut; OUpdate 1 4 bump_upd;
   OAlloc 1 1 6; OFill 1 6 (nB 5 [2] 6); OMutate 1 5 bump_mut;
   ORedirect 1 1 4; ORedirectAll 1 3 2; ORemove 1 1]%N.

Definition pick_g (o : option (graph nat * trans nat)) : graph nat := match o with Some (g, _) => g | None => graph_new E0 0 end.
Definition pick_t (o : option (graph nat * trans nat)) : trans nat := match o with Some (_, t) => t | None => trans_new E0 0 end.

Lemma run_pair_pick E T os kg k :
  Forall (op_side E T) os -> is_Some (run_pair E os kg k) -> pair_of E T (pick_g (run_pair E os kg k)) (pick_t (run_pair E os kg k)).
Proof. intros Hs [[g t] Hr]. eapply run_pair_of; [done|]. by rewrite Hr. Qed.

Ltac sides := repeat (constructor; [first [exact I | apply bump_mut_ok | apply bump_upd_ok | apply relink_ok; [reflexivity|vm_compute; reflexivity]]|]); constructor.
Ltac computes := vm_compute; reflexivity.

Definition busy_g : graph nat := pick_g (run_pair E0 busy 0 1).
Definition busy_t : trans nat := pick_t (run_pair E0 busy 0 1).
Lemma busy_pair T : pair_of E0 T busy_g busy_t.
Proof. apply run_pair_pick; [sides|]. vm_compute. eauto. Qed.
Definition done_g (o : out (graph nat) unit) : graph nat := match o with Done g _ => g | Panicked _ g => g end.
Definition busy_g' : graph nat := done_g (commit E0 busy_t busy_g).
Lemma busy_commit : commit E0 busy_t busy_g = Done busy_g' tt.
Proof. computes. Qed.
