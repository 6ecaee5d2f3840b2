(** * Bidirectional links, link types, checks and panics, for a history *)
From Verif Require Export CommitFinal.

(** the opposites of link [l] that a node of variant [v] has *)
Definition opposites_on (E : env) (l : link) (v : nat) : list link := filter (fun k => l_var k = v) (e_opp E l).
(** no old node links to an index at which the transaction puts a node *)
Definition no_early {D} (g : graph D) (s : tspec D) : Prop :=
  forall x n y, graph_get g x = Some n -> links_to n y -> ts_new s !! y = None.
(** queued closures do not raise the library's own panics *)
Definition plain_closures {D} (s : tspec D) : Prop :=
  (forall i f n n' p, (i, f) ∈ ts_mut s -> f n = Panicked p n' -> ~ lib_panic p) /\
  (forall i f n p, (i, f) ∈ ts_upd s -> f n = Err p -> ~ lib_panic p).
(** every link of [n] satisfies [U] and no set of [n] holds the empty index *)
Definition targets_in {D} (U : idx -> Prop) (n : node D) : Prop :=
  (forall y, links_to n y -> U y) /\ forall f k l, nlinks n !! f = Some (LSet k l) -> 0%N ∉ l.

Lemma trans_ok_true {D} (E : env) (T : Prop) (g : graph D) (t : trans D) : T -> trans_ok E T g t -> trans_ok E True g t.
Proof.
  intros HT [H1 H2 H3 H4 H5 H6 H7 H8]. split; [done|done|done|by intros _; apply H4| | |done|done].
  - intros i f Hin. specialize (H5 i f Hin). unfold mut_ok in *. naive_solver.
  - intros i f Hin. specialize (H6 i f Hin). unfold upd_ok in *. naive_solver.
Qed.

Section bfinal.
  Context {D : Type} (E : env) (T : Prop) (g : graph D) (t : trans D) (s : tspec D).
  Implicit Types (n : node D) (l k : link) (m : gmap N (node D)).
  Hypothesis (Hh : history E T g t s).

  Ltac prep := destruct (history_ok E T g t s Hh) as (Hwf&Hty&Ht&Hctx&Hr&Hti);
    pose proof (history_nodes E T g t s Hh) as Hn; pose proof (history_txn E T g t s Hh) as Htx;
    pose proof (history_own E T g t s Hh) as Hown; pose proof (tr_redir _ _ _ Hr) as Hrr; pose proof (tr_redir_all _ _ _ Hr) as Hra;
    pose proof (tr_del _ _ _ Hr) as Hdel; pose proof (tr_mut _ _ _ Hr) as Hmut; pose proof (tr_upd _ _ _ Hr) as Hupd.

  Lemma final_early : no_early g s -> no_early_link g t.
  Proof using Hh. prep. intros H x n y Hx Hl. rewrite <- Hown. by eapply H. Qed.
  Lemma final_plain : plain_closures s <-> closures_plain t.
  Proof using Hh. prep. unfold plain_closures, closures_plain. by rewrite Hmut, Hupd. Qed.
  Lemma final_guard : guard_fails E g t <-> e_dbg E = true /\ ts_res s <> ∅.
  Proof using Hh.
    prep. unfold guard_fails. split; intros [Hd H]; (split; [done|]).
    - destruct H as [?|H]; [done|]. intros He. apply H. destruct (t_alloc t) as [|i l] eqn:Ha; [done|].
      pose proof (tr_res _ _ _ Hr i) as Hi. rewrite He, Ha, decide_True in Hi by left. done.
    - right. intros Ha. apply H. apply map_eq. intros i. rewrite (tr_res _ _ _ Hr i), Ha, lookup_empty.
      rewrite decide_False; [done|]. apply not_elem_of_nil.
  Qed.

  (** C18, C24 *)
  Lemma final_symmetric g' : T -> commit E t g = Done g' tt -> single_choice E -> no_early g s ->
    bidi_symmetric E g -> bidi_symmetric E g'.
  Proof using Hh.
    prep. intros HT Hc Hsc Hne Hsym. eapply (commit_symmetric E g t); try done; [by apply Hty| |by apply final_early].
    by apply (trans_ok_true E T).
  Qed.
  Lemma final_links_typed g' : T -> commit E t g = Done g' tt -> (forall l k, k ∈ e_opp E l -> nonvec E l) -> bidi_typed E ->
    no_early g s -> links_typed E g -> links_typed E g'.
  Proof using Hh.
    prep. intros HT Hc Hsc Hbt Hne Hsym. eapply (commit_links_typed E g t); try done; [by apply Hty| |by apply final_early].
    by apply (trans_ok_true E T).
  Qed.

  (** C20 *)
  Lemma final_occupied g' : commit E t g = Done g' tt ->
    exists m m', nodes_are g m /\ sp_commit (ts_txn s) m m' /\ holds_nonbidi E g' m' /\
      (forall b z k, in_nodes m' b z k ->
         (forall l, k ∈ e_opp E l -> nonvec E l /\ ~ (in_graph g z b l /\ ~ in_nodes m' z b l)) -> in_graph g' b z k) /\
      (forall a b l nb k, in_nodes m' a b l -> ~ in_graph g a b l -> nonvec E l ->
         m' !! b = Some nb -> opposites_on E l (nvar nb) = [k] -> in_graph g' b a k).
  Proof using Hh.
    prep. intros Hc. destruct (commit_occupied E T g t Hwf Hty Ht g' Hc) as (m'&Hsp&Hho&H1&H2).
    rewrite Htx in Hsp. exists (gmap_of g), m'. split; [done|]. split; [done|]. split; [done|]. split; [|done].
    intros b z k Hb Hk. apply H1; [done| |naive_solver]. intros l Hl _. by apply Hk.
  Qed.
  Lemma final_conflict m m' a b z l nb k :
    nodes_are g m -> sp_commit (ts_txn s) m m' ->
    in_nodes m' a b l -> ~ in_graph g a b l -> nonvec E l ->
    m' !! b = Some nb -> opposites_on E l (nvar nb) = [k] -> linkkind E k = Some KDirect ->
    in_nodes m' b z k -> z <> a ->
    (forall l', k ∈ e_opp E l' -> nonvec E l' /\ ~ (in_graph g z b l' /\ ~ in_nodes m' z b l')) ->
    exists p g', commit E t g = Panicked p g'.
  Proof using Hh.
    prep. intros Hm Hsp. assert (m = gmap_of g) as ->. { apply map_eq. intros i. by rewrite Hm, Hn. }
    rewrite <- Htx in Hsp. intros. eapply (commit_conflict E T g t m' a b z l nb k); try done; naive_solver.
  Qed.

  (** C21 *)
  Lemma final_maintenance g' : commit E t g = Done g' tt ->
    exists m m', nodes_are g m /\ sp_commit (ts_txn s) m m' /\ holds_nonbidi E g' m' /\
      forall a b k, ~ (in_graph g' a b k <-> in_nodes m' a b k) ->
        is_Some (graph_get g' a) /\ is_Some (graph_get g' b) /\
        exists l, k ∈ e_opp E l /\ (nonvec E l -> ~ (in_graph g b a l <-> in_nodes m' b a l)).
  Proof using Hh.
    prep. intros Hc. destruct (commit_maintenance E T g t Hwf Hty Ht g' Hc) as (m'&Hsp&Hho&H1).
    rewrite Htx in Hsp. exists (gmap_of g), m'. done.
  Qed.

  (** C22 *)
  Lemma final_set_set p g' :
    (forall l k, k ∈ e_opp E l -> exists sk, linkkind E k = Some (KSet sk)) ->
    (forall l v, length (opposites_on E l v) <= 1) ->
    commit E t g = Panicked p g' ->
    (e_dbg E = true /\ ts_res s <> ∅) \/ (exists m, nodes_are g m /\ ~ sp_valid (ts_txn s) m) \/ p = PLinkType.
  Proof using Hh.
    prep. intros H1 H2 Hc. destruct (set_set_no_bidi_panic E T g t Hwf Hty Ht p g' H1 H2 Hc) as [Hg|[Hv|?]]; [| |by right; right].
    - left. by apply final_guard.
    - right. left. exists (gmap_of g). by rewrite <- Htx.
  Qed.

  (** C26 *)
  Lemma final_linktype g' : plain_closures s -> (forall v l, e_chk E v l = false -> nonvec E l) -> commit E t g = Panicked PLinkType g' ->
    exists m m', nodes_are g m /\ sp_commit (ts_txn s) m m' /\ ~ map_typed E m'.
  Proof using Hh.
    prep. rewrite final_plain. intros Hpl Hnv Hc. destruct (commit_linktype_real E T g t g' Hwf Hty Ht Hpl Hnv Hc) as (m'&Hsp&Hmt).
    rewrite Htx in Hsp. by exists (gmap_of g), m'.
  Qed.

  (** C28 *)
  Lemma final_record g' r : do_commit E t g = Done g' r ->
    exists m m', nodes_are g m /\ sp_commit (ts_txn s) m m' /\ holds_nonbidi E g' m' /\
      forall x y l, y <> 0%N -> nonvec E l ->
        ((x, y, l) ∈ lc_adds r <-> in_nodes m' x y l /\ ~ in_graph g x y l) /\
        ((x, y, l) ∈ lc_rems r <-> in_graph g x y l /\ ~ in_nodes m' x y l).
  Proof using Hh.
    prep. intros Hc. destruct (change_record E T g t Hwf Hty Ht g' r Hc) as (m'&Hsp&Hho&H1).
    rewrite Htx in Hsp. by exists (gmap_of g), m'.
  Qed.

  (** C29 *)
  Lemma final_checked c g' : commit_checked E t c g = Done g' tt ->
    commit E t g = Done g' tt /\
    exists m m', nodes_are g m /\ sp_commit (ts_txn s) m m' /\ holds_nonbidi E g' m' /\
      forall nm chk x y l, (nm, chk) ∈ gc_add c -> nonvec E l -> in_nodes m' x y l -> ~ in_graph g x y l ->
        exists nx, graph_get g' x = Some nx /\ chk x y nx (graph_get g' y) = true.
  Proof using Hh.
    prep. intros Hc. destruct (commit_checked_adds E T g t c g' Hwf Hty Ht Hc) as (H1&m'&Hsp&Hho&H2).
    rewrite Htx in Hsp. split; [done|]. by exists (gmap_of g), m'.
  Qed.

  (** C41 *)
  Lemma final_succeeds m : (forall l, e_opp E l = []) -> (forall v l, e_chk E v l = true) ->
    nodes_are g m -> e_dbg E = false \/ ts_res s = ∅ -> sp_valid (ts_txn s) m ->
    exists g' m', commit E t g = Done g' tt /\ sp_commit (ts_txn s) m m' /\ nodes_are g' m'.
  Proof using Hh.
    prep. intros Ho Hk Hm Hres Hv. assert (m = gmap_of g) as ->. { apply map_eq. intros i. by rewrite Hm, Hn. }
    rewrite <- Htx in Hv. destruct (commit_succeeds E T g t Hwf Hty Ht Ho Hk) as (g'&Hc&m'&Hsp&Hg'); [|done|].
    - rewrite final_guard. intros [Hd ?]. destruct Hres as [Hd'|?]; [congruence|done].
    - rewrite Htx in Hsp. exists g', m'. split; [done|]. split; [done|]. intros i. by rewrite Hg'.
  Qed.

  (** C42 *)
  Lemma final_closed g' :
    let U := fun y => is_Some (ts_new s !! y) \/ is_Some (graph_get g y) in
    (forall z, z ∈ (ts_redir s).*2 ++ (ts_redir_all s).*2 -> z = 0%N \/ U z) ->
    (forall x n, graph_get g x = Some n -> targets_in U n) ->
    (forall x n, ts_new s !! x = Some n -> targets_in U n) ->
    (forall i f n n', (i, f) ∈ ts_mut s -> f n = Done n' tt -> targets_in U n -> targets_in U n') ->
    (forall i f n n', (i, f) ∈ ts_upd s -> f n = Ok n' -> targets_in U n -> targets_in U n') ->
    commit E t g = Done g' tt -> closed g' /\ no_empty_in_sets g' /\ check_integrity E g' = true.
  Proof using Hh.
    prep. intros U Hz Ho Hnw Hm Hu Hc.
    set (U' := fun y => is_Some (arena_get (t_inc t) y) \/ is_Some (graph_get g y)).
    assert (forall n, targets_in U n <-> node_tk U' n) as Heq.
    { intros n. unfold targets_in, node_tk, U, U'. by setoid_rewrite Hown. }
    destruct (commit_closed E T g t g' Hwf Hty Ht) as [Hcl Hno]; try done.
    - rewrite Hrr, Hra. intros z Hin. destruct (Hz z Hin) as [?|[?|?]]; [by left|right; left|right; by right]. by rewrite <- Hown.
    - intros x n Hx. apply Heq. by eapply Ho.
    - intros x n Hx. apply Heq. eapply Hnw. rewrite Hown. exact Hx.
    - split; [rewrite Hmut|rewrite Hupd]; intros i f n n' Hin Hf Htk; apply Heq; apply Heq in Htk; [by eapply Hm|by eapply Hu].
    - split; [done|]. split; [done|]. apply (check_integrity_spec E g'); [|by right].
      by apply (commit_wf E T t g g' Hwf Hty Ht Hc).
  Qed.
End bfinal.
