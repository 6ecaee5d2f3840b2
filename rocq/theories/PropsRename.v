(** * The numbers behind indices do not matter: C95 *)
From stdpp Require Export gmap.
From Verif Require Import RenameBack ExHist ExTrans PropsOrder PropsExact.

(** ** C95 *)
(** A renaming [f] is a bijection of indices that keeps the empty index.  [renamed f n n']: [n'] is
    [n] with [f i] for every index [i] in its links, up to the order inside sets. *)

(** Take the graphs [G] and the transactions [K] of one part of a program: calls that name one of
    them name nothing else ([one_side]).  The rest of the program may use the same contexts, so
    the indices the part gets depend on it.  Take another program in which the part makes the
    same calls with renamed indices, nodes and closures ([op_renamed]), and the rest does something else.
    If both run, the graphs of the part are the same up to the renaming, and so are its open
    transactions. *)
Theorem C95_numbers_do_not_matter :
  forall {D} (E : env) (T : Prop) (f : idx -> idx) (G K : nat -> bool) (os1 os2 : list (op (D:=D))) w1 w2,
  renaming f -> bidi_fields E -> runs E T os1 w1 -> runs E T os2 w2 -> e_dbg E = true \/ (forall k kg, OMerge k kg ∉ os1 ++ os2) ->
  Forall (one_side G K) os1 ->
  Forall2 (op_renamed f) (filter (fun o => touches G K o = true) os1) (filter (fun o => touches G K o = true) os2) ->
  (forall kg, G kg = true -> option_Forall2 (fun p q : nat * graph D => forall i, option_Forall2 (renamed f) (graph_get p.2 i) (graph_get q.2 (f i)))
    (w_graphs w1 !! kg) (w_graphs w2 !! kg)) /\
  (forall k, K k = true -> option_Forall2 (fun p q : nat * trans D => exists s s', trans_is p.2 s /\ trans_is q.2 s' /\ ts_renamed f s s')
    (w_trans w1 !! k) (w_trans w2 !! k)).
Proof. intros D E T f G K os1 os2 w1 w2 Hf Hb H1 H2 Hd Hp He. by apply (final_renamed E T f Hf Hb G K os1 w1 os2 w2). Qed.
Print Assumptions C95_numbers_do_not_matter.

(** One commit: to renamed graphs, of transactions that hold renamed changes. *)
Theorem C95_commit :
  forall {D} (E : env) (T : Prop) (f : idx -> idx) (g g' : graph D) t t' s s' g1 g1',
  renaming f -> bidi_fields E -> history E T g t s -> history E T g' t' s' ->
  (forall i, option_Forall2 (renamed f) (graph_get g i) (graph_get g' (f i))) -> ts_renamed f s s' ->
  commit E t g = Done g1 tt -> commit E t' g' = Done g1' tt ->
  forall i, option_Forall2 (renamed f) (graph_get g1 i) (graph_get g1' (f i)).
Proof. intros D E T f g g' t t' s s' g1 g1' Hf Hb Hh Hh' Hg Hs Hc Hc'. by apply (commit_renamed f Hf E Hb T g g' t t' s s' g1 g1'). Qed.
Print Assumptions C95_commit.

(** The indices do not decide either whether commits return: the part's next commit returns after
    the first program iff it does after the second, provided the queued closures return on renamed nodes iff
    they return on the original ones.  (Conditions on the schema as in C41.) *)
Theorem C95_next_commit_returns :
  forall {D} (E : env) (T : Prop) (f : idx -> idx) (G K : nat -> bool) (os1 os2 : list (op (D:=D))) w1 w2 kg k c g t c' g' t',
  renaming f -> bidi_fields E -> (forall v l, e_chk E v l = false -> nonvec E l) -> (forall l v, length (opposites_on E l v) <= 1) ->
  runs E T os1 w1 -> runs E T os2 w2 -> e_dbg E = true \/ (forall k kg, OMerge k kg ∉ os1 ++ os2) -> Forall (one_side G K) os1 ->
  Forall2 (op_renamed f) (filter (fun o => touches G K o = true) os1) (filter (fun o => touches G K o = true) os2) ->
  G kg = true -> K k = true ->
  w_graphs w1 !! kg = Some (c, g) -> w_trans w1 !! k = Some (c, t) -> w_graphs w2 !! kg = Some (c', g') -> w_trans w2 !! k = Some (c', t') ->
  Forall2 (fun a b => forall n n', renamed f n n' -> (exists x, a.2 n = Done x tt) <-> exists y, b.2 n' = Done y tt) (t_mut t) (t_mut t') ->
  Forall2 (fun a b => forall n n', renamed f n n' -> (exists x, a.2 n = Ok x) <-> exists y, b.2 n' = Ok y) (t_upd t) (t_upd t') ->
  (exists g1, commit E t g = Done g1 tt) <-> exists g1', commit E t' g' = Done g1' tt.
Proof. intros D E T f G K os1 os2 w1 w2 kg k c g t c' g' t' Hf Hb. by apply (final_next_commits E T f Hf Hb G K). Qed.
Print Assumptions C95_next_commit_returns.

(** And so for the part's next call on a transaction ([tc_run]: insert, alloc, fill_back, remove, mutate, update, redirections). *)
Theorem C95_next_call_returns :
  forall {D} (E : env) (T : Prop) (f : idx -> idx) (G K : nat -> bool) (os1 os2 : list (op (D:=D))) w1 w2 k c t u cnt c' t' u' cnt' (cl cl' : tcall D),
  renaming f -> bidi_fields E ->
  runs E T os1 w1 -> runs E T os2 w2 -> e_dbg E = true \/ (forall k kg, OMerge k kg ∉ os1 ++ os2) -> Forall (one_side G K) os1 ->
  Forall2 (op_renamed f) (filter (fun o => touches G K o = true) os1) (filter (fun o => touches G K o = true) os2) -> K k = true ->
  w_trans w1 !! k = Some (c, t) -> w_ctx w1 !! c = Some (u, cnt) -> w_trans w2 !! k = Some (c', t') -> w_ctx w2 !! c' = Some (u', cnt') ->
  call_renamed f cl cl' ->
  match cl, cl' with
  | CMutate _ h, CMutate _ h' => forall n n', renamed f n n' -> (exists x, h n = Done x tt) <-> exists y, h' n' = Done y tt
  | CUpdate _ h, CUpdate _ h' => forall n n', renamed f n n' -> (exists x, h n = Ok x) <-> exists y, h' n' = Ok y
  | _, _ => True
  end -> tc_ok E t cl -> tc_ok E t' cl' -> (allocates cl = true -> cnt + 1 < usize_mod /\ cnt' + 1 < usize_mod)%N ->
  (exists r i, tc_run E cl (cnt, t) = Done r i) <-> exists r i, tc_run E cl' (cnt', t') = Done r i.
Proof.
  intros D E T f G K os1 os2 w1 w2 k c t u cnt c' t' u' cnt' cl cl' Hf Hb H1 H2 Hd Hp Hq HK Ht Hc Ht' Hc'.
  exact (final_next_call E T f Hf Hb G K os1 os2 w1 w2 k c t u cnt c' t' u' cnt' cl cl' H1 H2 Hd Hp Hq HK Ht Hc Ht' Hc').
Qed.
Print Assumptions C95_next_call_returns.

(** *** A case *)
(** Part of the program: [B] and an [A] that points to it, then changes to both.  In the second program
    another transaction of the same context has reserved an index before, and inserts a node in between, so
    [B] and [A] are 2 and 4 instead of 1 and 2. *)
Definition r95p : list opn :=
  [ONewCtx 7; ONewGraph 0 0; ONewTrans 0 0; OInsert 0 (nB 0 [] 1) 1; OInsert 0 (nA 1 [] [] 3) 2; OCommit 0 0;
   ONewTrans 2 0; OMutate 2 2 (relink 1 [1; 2] [1; 0; 1]); OUpdate 2 1 bump_upd]%N.
Definition r95q : list opn :=
  [ONewCtx 7; ONewTrans 1 0; OAllocUntyped 1 1; ONewGraph 0 0; ONewGraph 1 0; ONewTrans 0 0; OInsert 0 (nB 0 [] 1) 2; OInsert 1 (nB 0 [] 8) 3; OInsert 0 (nA 2 [] [] 3) 4; OCommit 0 0;
   ONewTrans 2 0; OMutate 2 4 (relink 2 [2; 4] [2; 0; 2]); OFillUntyped 1 1 (nB 0 [] 9); OCommit 1 1; OUpdate 2 2 bump_upd]%N.
Definition r95 : list opn := r95p ++ [OCommit 0 2].
Definition r95o : list opn := r95q ++ [OCommit 0 2].
Definition f95 (x : idx) : idx := (if decide (x = 1) then 2 else if decide (x = 2) then 4 else if decide (x = 4) then 1 else if decide (x = 3) then 5 else if decide (x = 5) then 3 else x)%N.
Definition G95 (kg : nat) : bool := kg =? 0.
Definition K95 (k : nat) : bool := Nat.even k.
Definition one_sideb {D} (G K : nat -> bool) (o : op (D:=D)) : bool :=
  negb (touches G K o) || (forallb G (graphs_named o) && forallb K (trans_named o)).
Lemma one_sideb_sound {D} G K (os : list (op (D:=D))) : forallb (one_sideb G K) os = true -> Forall (one_side G K) os.
Proof.
  intros H. apply Forall_forall. intros o Ho Ht. rewrite forallb_forall in H. apply elem_of_list_In, H in Ho.
  unfold one_sideb in Ho. rewrite Ht in Ho. cbn in Ho. apply andb_true_iff in Ho as [H1 H2]. rewrite forallb_forall in H1, H2.
  split; intros x Hx%elem_of_list_In; auto.
Qed.
Lemma f95_renaming : renaming f95.
Proof.
  split; [| |reflexivity].
  - intros x y. unfold f95. repeat case_decide; subst; congruence.
  - intros y. unfold f95. destruct (decide (y = 2%N)) as [->|]; [by exists 1%N|]. destruct (decide (y = 4%N)) as [->|]; [by exists 2%N|].
    destruct (decide (y = 1%N)) as [->|]; [by exists 4%N|].
    destruct (decide (y = 5%N)) as [->|]; [by exists 3%N|]. destruct (decide (y = 3%N)) as [->|]; [by exists 5%N|]. exists y. repeat case_decide; congruence.
Qed.
Lemma bump_renamed f : upd_renamed f bump_upd bump_upd.
Proof. intros n n' a b (Hv&Hd&Hl) [= <-] [= <-]. split; [done|]. split; [|done]. cbn. by rewrite Hd. Qed.
Lemma relink_renamed f x p l : mut_renamed f (relink x p l) (relink (f x) (f <$> p) (f <$> l)).
Proof.
  intros n n' a b (Hv&Hd&Hl). unfold relink. rewrite <- Hv. case_decide; [|done]. intros [= <-] [= <-].
  split; [done|]. split; [done|]. constructor; [done|]. constructor; [by split|]. constructor; [done|constructor].
Qed.
(** the calls of the part *)
Definition r95a : list opn :=
  [ONewGraph 0 0; ONewTrans 0 0; OInsert 0 (nB 0 [] 1) 1; OInsert 0 (nA 1 [] [] 3) 2; OCommit 0 0;
   ONewTrans 2 0; OMutate 2 2 (relink 1 [1; 2] [1; 0; 1]); OUpdate 2 1 bump_upd]%N.
Definition r95b : list opn :=
  [ONewGraph 0 0; ONewTrans 0 0; OInsert 0 (nB 0 [] 1) 2; OInsert 0 (nA 2 [] [] 3) 4; OCommit 0 0;
   ONewTrans 2 0; OMutate 2 4 (relink 2 [2; 4] [2; 0; 2]); OUpdate 2 2 bump_upd]%N.
Lemma r95_renamed : Forall2 (op_renamed f95) r95a r95b.
Proof.
  assert (renamed f95 (nB 0 [] 1) (nB 0 [] 1)) as HB.
  { split; [reflexivity|]. split; [reflexivity|]. constructor; [reflexivity|]. constructor; [|constructor]. split; reflexivity. }
  assert (renamed f95 (nA 1 [] [] 3) (nA 2 [] [] 3)) as HA.
  { split; [reflexivity|]. split; [reflexivity|]. constructor; [reflexivity|]. constructor; [split; reflexivity|]. constructor; [reflexivity|constructor]. }
  unfold r95a, r95b. apply Forall2_cons; split; [reflexivity|]. apply Forall2_cons; split; [reflexivity|].
  apply Forall2_cons; split; [split; [reflexivity|split; [exact HB|reflexivity]]|].
  apply Forall2_cons; split; [split; [reflexivity|split; [exact HA|reflexivity]]|].
  apply Forall2_cons; split; [split; reflexivity|]. apply Forall2_cons; split; [reflexivity|].
  apply Forall2_cons; split; [split; [reflexivity|split; [reflexivity|exact (relink_renamed f95 1 [1; 2] [1; 0; 1])%N]]|].
  apply Forall2_cons; split; [split; [reflexivity|split; [reflexivity|exact (bump_renamed f95)]]|]. apply Forall2_nil. exact I.
Qed.
Example C95_case : exists w1 w2,
  renaming f95 /\ bidi_fields E1 /\ runs E1 True r95 w1 /\ runs E1 True r95o w2 /\ Forall (one_side G95 K95) r95 /\
  Forall2 (op_renamed f95) (filter (fun o => touches G95 K95 o = true) r95) (filter (fun o => touches G95 K95 o = true) r95o) /\
  w_graphs w1 !! 0 = Some (0, rgr E1 r95 0) /\ w_graphs w2 !! 0 = Some (0, rgr E1 r95o 0) /\
  (fun i => graph_get (rgr E1 r95 0) i) <$> [1; 2; 3; 4]%N = [Some (nB 0 [2] 101); Some (nA 1 [1; 2] [1; 0; 1] 3); None; None]%N /\
  (fun i => graph_get (rgr E1 r95o 0) i) <$> [2; 4; 5; 1]%N = [Some (nB 0 [4] 101); Some (nA 2 [2; 4] [2; 0; 2] 3); None; None]%N.
Proof.
  exists (rw E1 r95), (rw E1 r95o). split; [exact f95_renaming|]. split; [exact E1_fields|].
  split; [apply run_runs; [unfold r95, r95p; cbn [app]; sides|computes]|]. split; [apply run_runs; [unfold r95o, r95q; cbn [app]; sides|computes]|].
  split; [apply one_sideb_sound; computes|]. split.
  { assert (filter (fun o => touches G95 K95 o = true) r95 = r95a ++ [OCommit 0 2]) as -> by reflexivity.
    assert (filter (fun o => touches G95 K95 o = true) r95o = r95b ++ [OCommit 0 2]) as -> by reflexivity.
    apply Forall2_app; [exact r95_renamed|]. apply Forall2_cons; split; [split; reflexivity|]. apply Forall2_nil. exact I. }
  split; [computes|]. split; [computes|]. split; computes.
Qed.

(** the last commits of the two programs *)
Definition rt95 (os : list opn) : trans nat := match w_trans (rw E1 os) !! 2 with Some (_, t) => t | None => trans_new E1 0 end.
Example C95_returns_case :
  (forall v l, e_chk E1 v l = false -> nonvec E1 l) /\ (forall l v, length (opposites_on E1 l v) <= 1) /\
  runs E1 True r95p (rw E1 r95p) /\ runs E1 True r95q (rw E1 r95q) /\ Forall (one_side G95 K95) r95p /\
  Forall2 (op_renamed f95) (filter (fun o => touches G95 K95 o = true) r95p) (filter (fun o => touches G95 K95 o = true) r95q) /\
  w_graphs (rw E1 r95p) !! 0 = Some (0, rgr E1 r95p 0) /\ w_trans (rw E1 r95p) !! 2 = Some (0, rt95 r95p) /\
  w_graphs (rw E1 r95q) !! 0 = Some (0, rgr E1 r95q 0) /\ w_trans (rw E1 r95q) !! 2 = Some (0, rt95 r95q) /\
  Forall2 (fun a b => forall n n', renamed f95 n n' -> (exists x, a.2 n = Done x tt) <-> exists y, b.2 n' = Done y tt) (t_mut (rt95 r95p)) (t_mut (rt95 r95q)) /\
  Forall2 (fun a b => forall n n', renamed f95 n n' -> (exists x, a.2 n = Ok x) <-> exists y, b.2 n' = Ok y) (t_upd (rt95 r95p)) (t_upd (rt95 r95q)) /\
  t_mut (rt95 r95p) <> [] /\ exists g1 g1', commit E1 (rt95 r95p) (rgr E1 r95p 0) = Done g1 tt /\ commit E1 (rt95 r95q) (rgr E1 r95q 0) = Done g1' tt.
Proof.
  split; [exact E1_checks|]. split; [exact E1_one|].
  split; [apply run_runs; [unfold r95p; sides|computes]|]. split; [apply run_runs; [unfold r95q; sides|computes]|].
  split; [apply one_sideb_sound; computes|]. split.
  { assert (filter (fun o => touches G95 K95 o = true) r95p = r95a) as -> by reflexivity.
    assert (filter (fun o => touches G95 K95 o = true) r95q = r95b) as -> by reflexivity. exact r95_renamed. }
  do 4 (split; [computes|]).
  assert (t_mut (rt95 r95p) = [(2, relink 1 [1; 2] [1; 0; 1])]%N) as -> by reflexivity.
  assert (t_mut (rt95 r95q) = [(4, relink 2 [2; 4] [2; 0; 2])]%N) as -> by reflexivity.
  assert (t_upd (rt95 r95p) = [(1, bump_upd)]%N) as -> by reflexivity. assert (t_upd (rt95 r95q) = [(2, bump_upd)]%N) as -> by reflexivity.
  split. { constructor; [|constructor]. intros n n' (Hv&_). cbn [snd]. unfold relink. rewrite <- Hv. case_decide; split; intros [? ?]; try discriminate; eauto. }
  split. { constructor; [|constructor]. intros n n' _. cbn. split; intros _; eexists; reflexivity. }
  split; [discriminate|]. eexists _, _. split; vm_compute; reflexivity.
Qed.

(** a reservation in the same transactions, 3 and 5: both can be filled with the variant they were made for, and neither with the other *)
Definition r95x : list opn := r95p ++ [OAlloc 2 1 3%N].
Definition r95y : list opn := r95q ++ [OAlloc 2 1 5%N].
Example C95_call_case :
  runs E1 True r95x (rw E1 r95x) /\ runs E1 True r95y (rw E1 r95y) /\ Forall (one_side G95 K95) r95x /\
  Forall2 (op_renamed f95) (filter (fun o => touches G95 K95 o = true) r95x) (filter (fun o => touches G95 K95 o = true) r95y) /\
  w_trans (rw E1 r95x) !! 2 = Some (0, rt95 r95x) /\ w_trans (rw E1 r95y) !! 2 = Some (0, rt95 r95y) /\
  w_ctx (rw E1 r95x) !! 0 = Some (7, 3)%N /\ w_ctx (rw E1 r95y) !! 0 = Some (7, 5)%N /\
  call_renamed f95 (CFill 3 (nB 2 [] 6)) (CFill 5 (nB 4 [] 6))%N /\ call_renamed f95 (CFill 3 (nA 2 [] [] 6)) (CFill 5 (nA 4 [] [] 6))%N /\
  (exists r i, tc_run E1 (CFill 3 (nB 2 [] 6))%N (3%N, rt95 r95x) = Done r i) /\ (exists r i, tc_run E1 (CFill 5 (nB 4 [] 6))%N (5%N, rt95 r95y) = Done r i) /\
  (exists p r, tc_run E1 (CFill 3 (nA 2 [] [] 6))%N (3%N, rt95 r95x) = Panicked p r) /\ (exists p r, tc_run E1 (CFill 5 (nA 4 [] [] 6))%N (5%N, rt95 r95y) = Panicked p r).
Proof.
  split; [apply run_runs; [unfold r95x, r95p; cbn [app]; sides|computes]|]. split; [apply run_runs; [unfold r95y, r95q; cbn [app]; sides|computes]|].
  split; [apply one_sideb_sound; computes|]. split.
  { assert (filter (fun o => touches G95 K95 o = true) r95x = r95a ++ [OAlloc 2 1 3%N]) as -> by reflexivity.
    assert (filter (fun o => touches G95 K95 o = true) r95y = r95b ++ [OAlloc 2 1 5%N]) as -> by reflexivity.
    apply Forall2_app; [exact r95_renamed|]. apply Forall2_cons; split; [split; [reflexivity|split; reflexivity]|]. apply Forall2_nil. exact I. }
  do 4 (split; [computes|]). split.
  { split; [reflexivity|]. split; [reflexivity|]. split; [reflexivity|]. constructor; [reflexivity|]. constructor; [split; reflexivity|constructor]. }
  split.
  { split; [reflexivity|]. split; [reflexivity|]. split; [reflexivity|]. constructor; [reflexivity|]. constructor; [split; reflexivity|]. constructor; [reflexivity|constructor]. }
  do 3 (split; [eexists _, _; vm_compute; reflexivity|]). eexists _, _; vm_compute; reflexivity.
Qed.
