(** * Whole programs, with switch_context and checked commits, run like an abstract machine: C90 *)
From stdpp Require Export gmap.
From Verif Require Import MachineAll Release Sim ExHist ExTrans PropsBidi PropsExact PropsOrder PropsSame PropsSucc PropsApi PropsMachineBidi.

(** ** C90 *)
(** [MachineAll.v] extends the machine of C86: it also keeps the iteration order of every graph
    (computed from the calls by [replay]), and it can switch the context of a graph and make
    checked commits.  A switch gives the nodes the next indices of the new context in iteration
    order ([renumber]), changes the links accordingly ([node_moved]) and completes the
    bidirectional links ([completed]).  [E] is any schema in which the links declared
    bidirectional are no [Vec]s, no variant has two opposites of one link and link types are
    declared on links that are not [Vec]s, in a debug build.  A program is any sequence of calls
    except going on with a graph after a caught panic; its closures keep the variants of the
    nodes ([T]); [commit_checked] is made in schemas without [Vec] links and with checks that
    look at sets as sets ([any_op]). *)
(** Every program is a run of the machine: some choices of the machine give exactly the contents
    of the library's contexts, graphs and transactions and the iteration order of the graphs,
    and after these the next call returns normally exactly if the machine can make the step. *)
Theorem C90_runs_like_machine :
  forall {D} (E : env) (T : Prop) (os : list (op (D:=D))) w,
  e_dbg E = true -> bidi_fields E -> (forall l v, length (opposites_on E l v) <= 1) -> (forall v l, e_chk E v l = false -> nonvec E l) ->
  T -> runs E T os w -> Forall (any_op E) os ->
  exists a s, cruns E T os a s /\ same_contents E T w a /\
    (forall kg c g, w_graphs w !! kg = Some (c, g) -> (graph_iter g).*1 = order_of E s kg) /\
    forall o, any_op E o -> (exists w', step E T w o w') <-> exists a', cstep E T a s o a'.
Proof. intros. by apply final_runs_all. Qed.
Print Assumptions C90_runs_like_machine.

(** All a step leaves open is the order inside sets. *)
Theorem C90_choices :
  forall {D} (E : env) (T : Prop) (a a1 a2 : aworld (D:=D)) s o,
  bidi_fields E -> cstep E T a s o a1 -> cstep E T a s o a2 ->
  aw_ctx a1 = aw_ctx a2 /\ aw_trans a1 = aw_trans a2 /\
  forall kg, option_Forall2 (fun p q : nat * agraph (D:=D) => p.1 = q.1 /\ malike (ag_nodes p.2) (ag_nodes q.2) /\ forall y, ag_known p.2 y <-> ag_known q.2 y)
    (aw_graphs a1 !! kg) (aw_graphs a2 !! kg).
Proof. intros D E T a a1 a2 s o Hbf H1 H2. exact (choices_all E T Hbf a s o a1 a2 H1 H2). Qed.
Print Assumptions C90_choices.

(** If the closures and checks of the program look at sets as sets ([calls_same]): all its calls
    return normally exactly if the machine can make all of its steps, *)
Theorem C90_succeeds_iff :
  forall {D} (E : env) (T : Prop) (os : list (op (D:=D))),
  e_dbg E = true -> bidi_fields E -> (forall l v, length (opposites_on E l v) <= 1) -> (forall v l, e_chk E v l = false -> nonvec E l) ->
  T -> Forall (calls_same E) os ->
  (exists w, runs E T os w) <-> exists a s, cruns E T os a s.
Proof. intros. by apply final_cruns_iff. Qed.
Print Assumptions C90_succeeds_iff.

(** and whatever the machine has chosen, the order is that of the library's graphs, and the
    graphs and transactions are those of the library up to the order inside sets. *)
Theorem C90_same_contents :
  forall {D} (E : env) (T : Prop) (os : list (op (D:=D))) w a s,
  e_dbg E = true -> bidi_fields E -> (forall l v, length (opposites_on E l v) <= 1) -> (forall v l, e_chk E v l = false -> nonvec E l) ->
  T -> Forall (calls_same E) os -> runs E T os w -> cruns E T os a s ->
  w_ctx w = aw_ctx a /\
  (forall kg, option_Forall2 (fun cg ca => cg.1 = ca.1 /\ (forall i, option_Forall2 alike (graph_get cg.2 i) (ag_nodes ca.2 !! i)) /\
      (forall y, listed cg.2 y <-> ag_known ca.2 y) /\ (graph_iter cg.2).*1 = order_of E s kg) (w_graphs w !! kg) (aw_graphs a !! kg)) /\
  (forall k, option_Forall2 (fun ct cs => ct.1 = cs.1 /\ exists x, trans_is ct.2 x /\ ts_alike x cs.2) (w_trans w !! k) (aw_trans a !! k)).
Proof.
  intros D E T os w a s Hd Hbf Hone Hck HT Hsm Hw Ha.
  destruct (final_cruns_alike E T Hd Hbf Hone Hck os w a s HT Hsm Hw Ha) as (Hord&b&(H1&H2&H3)&[K1 K2 K3]).
  split; [congruence|]. split.
  - intros kg. specialize (H2 kg). specialize (K2 kg). specialize (Hord kg).
    destruct H2 as [[c g] [c' A] (Hc&Hg&HB)|]; inversion K2 as [[c1 A1] ? (Hc1&Hm&HK)|]; subst; constructor.
    cbn in *. split; [congruence|]. split; [intros i; rewrite Hg; by apply malike_sym in Hm|]. split.
    + intros y. rewrite (known_listed E T g _ HB). by rewrite HK.
    + by eapply Hord.
  - intros k. specialize (H3 k). specialize (K3 k). destruct H3 as [[c t] [c' x] (Hc&Hs)|]; inversion K3 as [[c1 x1] ? (Hc1&Hss&_)|]; subst; constructor.
    cbn in *. split; [congruence|]. exists x. split; [done|]. by apply ts_alike_sym.
Qed.
Print Assumptions C90_same_contents.

(** The same for release builds: every run of the machine is a run of the release build. *)
Theorem C90_release_build :
  forall {D} (E : env) (T : Prop) (os : list (op (D:=D))) a s,
  e_dbg E = true -> bidi_fields E -> (forall l v, length (opposites_on E l v) <= 1) -> (forall v l, e_chk E v l = false -> nonvec E l) ->
  T -> Forall (calls_same E) os -> cruns E T os a s ->
  exists w, runs (release E) T os w /\ w_ctx w = aw_ctx a /\
  (forall kg, option_Forall2 (fun cg ca => cg.1 = ca.1 /\ (forall i, option_Forall2 alike (graph_get cg.2 i) (ag_nodes ca.2 !! i)) /\
      (forall y, listed cg.2 y <-> ag_known ca.2 y) /\ (graph_iter cg.2).*1 = order_of E s kg) (w_graphs w !! kg) (aw_graphs a !! kg)) /\
  (forall k, option_Forall2 (fun ct cs => ct.1 = cs.1 /\ exists x, trans_is ct.2 x /\ ts_alike x cs.2) (w_trans w !! k) (aw_trans a !! k)).
Proof.
  intros D E T os a s Hd Hbf Hone Hck HT Hsm Ha.
  destruct (proj2 (C90_succeeds_iff E T os Hd Hbf Hone Hck HT Hsm)) as [w Hw]; [by exists a, s|].
  exists w. split; [by apply runs_release|]. by apply (C90_same_contents E T os w a s).
Qed.
Print Assumptions C90_release_build.

(** A schema without [Vec] links in which A.next and B.users are opposites.  B1 and A2 with
    A2.next = 1 are inserted by a checked commit; context 1 has already handed out index 1; the
    graph is switched to it (A comes first in the order: A2 becomes 2, B1 becomes 3), and A4
    with A4.next = 3 is added by another checked commit. *)
Definition E90 : env := Env [[KDirect; KSet SBTree]; [KDirect; KSet SHash]] opp1 (fun _ _ => true) (fun _ l => l) true.
Definition full_chk : graph_check nat := GraphCheck [("n"%string, fun _ n => nvar n <? 2)] [("a"%string, yes_chk)] [].
Definition e90a : list opn :=
  [ONewCtx 7; ONewCtx 8; ONewGraph 0 0; ONewTrans 0 0; OInsert 0 (nB 0 [] 1) 1; OInsert 0 (nC 1 [] 2) 2; OCommitChecked 0 0 full_chk;
   ONewTrans 1 1; OInsert 1 (nB 0 [] 5) 1; OGiveUp 1]%N.
Definition e90 : list opn :=
  e90a ++ [OSwitch 0 1; ONewTrans 2 1; OInsert 2 (nC 3 [] 6) 4; OUpdate 2 2 bump_upd; OCommitChecked 0 2 full_chk]%N.
Lemma E90_nonvec l : nonvec E90 l.
Proof. destruct l as [[|[|]] [|[|]]]; vm_compute; discriminate. Qed.
Lemma E90_fields : bidi_fields E90.
Proof. intros l k [[-> ->]|[-> ->]]%opp1_inv; (split; [vm_compute; discriminate|]); [right; eexists; computes|left; computes]. Qed.
Lemma E90_one : forall l v, length (opposites_on E90 l v) <= 1.
Proof. exact E1_one. Qed.
Lemma E90_checks : forall v l, e_chk E90 v l = false -> nonvec E90 l.
Proof. intros v l _. apply E90_nonvec. Qed.
Lemma full_same : check_same full_chk.
Proof.
  split.
  - intros nm chk x n n' Hin [Hv _]. apply elem_of_list_singleton in Hin. injection Hin as _ ->. by rewrite Hv.
  - intros nm chk x y n n' o o' [Hin|Hin] _ Ho; [|by apply elem_of_nil in Hin]. apply elem_of_list_singleton in Hin. injection Hin as _ ->.
    by inversion Ho.
Qed.
Lemma e90_same : Forall (calls_same E90) e90.
Proof.
  unfold e90, e90a. cbn [app].
  repeat (constructor; [first [exact I|exact bump_upd_same|exact (conj E90_nonvec full_same)]|]). constructor.
Qed.
Example C90_case : exists w a s, runs E90 True e90 w /\ cruns E90 True e90 a s /\ same_contents E90 True w a /\
  Forall (calls_same E90) e90 /\ Forall (any_op E90) e90 /\
  bidi_fields E90 /\ (forall l v, length (opposites_on E90 l v) <= 1) /\ (forall v l, e_chk E90 v l = false -> nonvec E90 l) /\
  order_of E90 s 0 = [4; 2; 3]%N /\ aw_ctx a = [(7, 2); (8, 4)]%N /\
  is_Some (aw_graphs a !! 0) /\
  (forall A, snd <$> aw_graphs a !! 0 = Some A ->
     (fun i => ag_nodes A !! i) <$> [1; 2; 3; 4]%N = [None; Some (nC 3 [] 102); Some (nB 0 [2; 4] 1); Some (nC 3 [] 6)]%N) /\
  (exists a', cstep E90 True a s (OSwitch 0 0) a') /\ ~ exists a', cstep E90 True a s (OSwitch 1 0) a'.
Proof.
  assert (runs E90 True e90 (rw E90 e90)) as Hr. { apply run_runs; [unfold e90, e90a; cbn [app]; sides|computes]. }
  assert (Forall (any_op E90) e90) as Hp. { eapply Forall_impl; [exact e90_same|]. apply calls_same_any. }
  destruct (C90_runs_like_machine E90 True e90 (rw E90 e90) eq_refl E90_fields E90_one E90_checks I Hr Hp) as (a&s&Ha&Hs&Ho&Hn).
  exists (rw E90 e90), a, s. split; [exact Hr|]. split; [exact Ha|]. split; [exact Hs|]. split; [exact e90_same|]. split; [exact Hp|].
  split; [exact E90_fields|]. split; [exact E90_one|]. split; [exact E90_checks|]. destruct Hs as (Hc&Hg&_). split; [|split; [|split]].
  - destruct (w_graphs (rw E90 e90) !! 0) as [[c1 g1]|] eqn:Hw; [|vm_compute in Hw; discriminate Hw]. rewrite <- (Ho 0 c1 g1 Hw).
    assert ((fun cg => (graph_iter cg.2).*1) <$> w_graphs (rw E90 e90) !! 0 = Some [4; 2; 3]%N) as Hm by computes.
    rewrite Hw in Hm. cbn in Hm. by injection Hm.
  - rewrite <- Hc. computes.
  - specialize (Hg 0). destruct (w_graphs (rw E90 e90) !! 0) as [cg|] eqn:Hw; [|vm_compute in Hw; discriminate Hw]. by inversion Hg.
  - split.
    + specialize (Hg 0). destruct (w_graphs (rw E90 e90) !! 0) as [[c1 g1]|] eqn:Hw; [|vm_compute in Hw; discriminate Hw].
      inversion Hg as [? [c2 A] (_&HA&_) Heq H2|]. subst. cbn. intros A' [= <-]. cbn in HA.
      assert ((fun cg : nat * graph nat => (fun i => graph_get cg.2 i) <$> [1; 2; 3; 4]%N) <$> w_graphs (rw E90 e90) !! 0 =
        Some [None; Some (nC 3 [] 102); Some (nB 0 [2; 4] 1); Some (nC 3 [] 6)]%N) as Hm by computes.
      rewrite Hw in Hm. assert ((fun i => graph_get g1 i) <$> [1; 2; 3; 4]%N = [None; Some (nC 3 [] 102); Some (nB 0 [2; 4] 1); Some (nC 3 [] 6)]%N) as <- by exact (inj Some _ _ Hm).
      cbn. by rewrite !HA.
    + split.
      * apply (Hn (OSwitch 0 0)); [exact I|]. eexists. eapply st_switch; [computes|computes|computes|computes].
      * intros Hx. apply (Hn (OSwitch 1 0)) in Hx as [w' Hw']; [|exact I]. inversion Hw' as [| | | | | | | | | | | | | | | | | | |? c0 g ? ? ? ? ? Hgr|]. subst. vm_compute in Hgr. discriminate Hgr.
Qed.
