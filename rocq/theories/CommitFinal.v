(** * The commit-level facts, stated for a graph, a transaction and the calls made on it *)
From Verif Require Export Hist.

(** [g] and [t] belong to the same context in some history of API calls, and the calls
    made on [t] so far add up to [s] *)
Definition history {D} (E : env) (T : Prop) (g : graph D) (t : trans D) (s : tspec D) : Prop :=
  exists L, pair_log E T g t L /\ ts_run ts_empty L = Some s.

(** the nodes of a graph as a map *)
Definition nodes_are {D} (g : graph D) (m : gmap N (node D)) : Prop := forall i, m !! i = graph_get g i.

(** no mutate, update or remove was called on [i] *)
Definition untouched {D} (s : tspec D) (i : idx) : Prop :=
  i ∉ (ts_mut s).*1 /\ i ∉ (ts_upd s).*1 /\ i ∉ ts_del s.

(** node [x] of the graph links to [y] through link [l] *)
Definition in_graph {D} (g : graph D) (x y : idx) (l : link) : Prop :=
  exists n, graph_get g x = Some n /\ has_link n l y.
Definition in_nodes {D} (m : gmap N (node D)) (x y : idx) (l : link) : Prop :=
  exists n, m !! x = Some n /\ has_link n l y.

Lemma node_redirects_into {D} E res (n : node D) l y :
  res_ok res -> node_ok E n -> has_link (node_redirects res n) l y -> has_link n l y \/ y ∈ res.*2.
Proof.
  unfold node_redirects. revert n. induction res as [|[o z] res IH]; intros n Hres Hok Hl; [by left|]. cbn in *.
  apply res_ok_cons in Hres as (Hres&?&?&?). apply IH in Hl as [Hl|Hl]; [|by right; right|done|by apply node_redirect_ok].
  apply (has_link_redirect E) in Hl; [|done..]. destruct Hl as [[? _]|(->&_)]; [by left|right; left].
Qed.

Lemma redirected_gone {D} reps (n n1 : node D) a :
  node_rel (lv_redirected reps) n n1 -> a ∈ reps.*1 -> ~ mentions n1 a.
Proof.
  intros (_&_&HF) Ha (f&lv&Hlv&Hin). destruct (Forall2_lookup_r _ _ _ _ _ HF Hlv) as (lv0&_&HR).
  destruct lv0 as [i|k xs|xs], lv as [i'|k' xs'|xs']; cbn in HR, Hin; try done.
  - apply elem_of_list_singleton in Hin as ->. by apply (redir_dest_final _ _ _ HR).
  - destruct HR as (_&_&HR). apply HR in Hin as (y&_&[_ ?]%redir_dest_final&_). done.
  - apply elem_of_list_lookup in Hin as [j Hj]. destruct (Forall2_lookup_r _ _ _ _ _ HR Hj) as (y&_&[_ ?]%redir_dest_final). done.
Qed.

Section final.
  Context {D : Type} (E : env) (T : Prop) (g : graph D) (t : trans D) (s : tspec D).
  Implicit Types (n : node D) (l k : link) (m : gmap N (node D)).
  Hypothesis (Hh : history E T g t s).

  Lemma history_ok : WF E g /\ (T -> gtyped g) /\ trans_ok E T g t /\ t_ctx t = g_ctx g /\ trep E t s /\ (e_dbg E = true -> tight g).
  Proof using Hh.
    destruct Hh as (L&Hl&Hs). destruct (pair_log_rep E T g t L Hl) as (s'&Hs'&Hr&Hti).
    assert (s' = s) as -> by congruence. apply pair_log_of in Hl. apply pair_of_ok in Hl as (Hwf&Hty&Ht&Hc). done.
  Qed.
  Lemma history_nodes : nodes_are g (gmap_of g).
  Proof using Hh. destruct history_ok as (Hwf&_). intros i. by apply (gmap_of_get E). Qed.
  Lemma history_txn : trans_txn t = ts_txn s.
  Proof using Hh. destruct history_ok as (_&_&_&_&Hr&_). by eapply trep_txn. Qed.
  Lemma history_own i : ts_new s !! i = arena_get (t_inc t) i.
  Proof using Hh. destruct history_ok as (_&_&_&_&Hr&_). apply Hr. Qed.
  Lemma history_untouched i : untouched s i <-> unnamed t i.
  Proof using Hh. destruct history_ok as (_&_&_&_&[]&_). unfold untouched, unnamed. by rewrite tr_mut, tr_upd, tr_del. Qed.

  Ltac prep := destruct history_ok as (Hwf&Hty&Ht&Hctx&Hr&Hti); pose proof history_nodes as Hn; pose proof history_txn as Htx;
    pose proof history_own as Hown; pose proof (tr_redir _ _ _ Hr) as Hrr; pose proof (tr_redir_all _ _ _ Hr) as Hra;
    pose proof (tr_del _ _ _ Hr) as Hdel; pose proof (tr_mut _ _ _ Hr) as Hmut; pose proof (tr_upd _ _ _ Hr) as Hupd.

  (** C03 *)
  Lemma final_refines g' : commit E t g = Done g' tt ->
    exists m m', nodes_are g m /\ sp_commit (ts_txn s) m m' /\ holds_nonbidi E g' m'.
  Proof using Hh.
    prep. intros Hc. destruct (commit_refines E T g t Hwf Hty Ht g' Hc) as (m'&Hsp&Hho).
    rewrite Htx in Hsp. by exists (gmap_of g), m'.
  Qed.
  Lemma final_exact g' : (forall l, e_opp E l = []) -> commit E t g = Done g' tt ->
    exists m m', nodes_are g m /\ sp_commit (ts_txn s) m m' /\ nodes_are g' m'.
  Proof using Hh.
    intros Ho Hc. destruct (final_refines g' Hc) as (m&m'&Hm&Hsp&Hho). exists m, m'.
    split; [done|]. split; [done|]. intros i. symmetry. by eapply holds_exact.
  Qed.

  (** C04 *)
  Lemma final_new_kept g' i n : commit E t g = Done g' tt ->
    ts_new s !! i = Some n -> untouched s i -> avoids n ((ts_redir_all s).*1 ++ ts_del s) ->
    exists n', graph_get g' i = Some n' /\ agree_nonbidi E n n'.
  Proof using Hh.
    prep. rewrite history_untouched, Hown. intros. eapply (commit_new_kept E T g t); try done. rewrite Hra, Hdel; done.
  Qed.
  Lemma final_old_kept g' i n : commit E t g = Done g' tt ->
    graph_get g i = Some n -> untouched s i -> avoids n ((ts_redir s).*1 ++ (ts_redir_all s).*1 ++ ts_del s) ->
    exists n', graph_get g' i = Some n' /\ agree_nonbidi E n n'.
  Proof using Hh.
    prep. rewrite history_untouched. intros. eapply (commit_old_kept E T g t); try done. by rewrite Hrr, Hra, Hdel.
  Qed.

  (** C05 *)
  Lemma final_removed g' x : commit E t g = Done g' tt -> x ∈ ts_del s ->
    graph_get g' x = None /\ forall i n, graph_get g' i = Some n -> ~ mentions n x.
  Proof using Hh. prep. rewrite <- Hdel. by apply (commit_removed E T g t). Qed.

  (** C06 *)
  Definition without_removals (u : tspec D) : tspec D :=
    TS (ts_res u) (ts_new u) [] (ts_mut u) (ts_upd u) (ts_redir_all u) (ts_redir u).
  Lemma final_remove_step g' : commit E t g = Done g' tt ->
    exists m m4, nodes_are g m /\ sp_commit (ts_txn (without_removals s)) m m4 /\
      (forall x, x ∈ ts_del s -> is_Some (m4 !! x)) /\
      forall i, if decide (i ∈ ts_del s) then graph_get g' i = None
        else option_Forall2 (fun n n' => exists n3, node_rel (lv_cleared (ts_del s)) n n3 /\ agree_nonbidi E n3 n')
               (m4 !! i) (graph_get g' i).
  Proof using Hh.
    prep. intros Hc. destruct (commit_remove_step E T g t Hwf Hty Ht g' Hc) as (m4&Hsp&H1&H2).
    exists (gmap_of g), m4. rewrite <- Hdel. split; [done|]. split; [|done].
    assert (trans_txn (with_dec t []) = ts_txn (without_removals s)) as <-; [|done].
    unfold trans_txn, ts_txn in *. cbn. injection Htx as H1a H2a H3a H4a H5a H6a. congruence.
  Qed.

  (** C08, C11 *)
  Lemma final_old_path g' i n : commit E t g = Done g' tt ->
    graph_get g i = Some n -> untouched s i ->
    exists n1 n2 n3 n', node_rel (lv_redirected (ts_redir s)) n n1 /\
      node_rel (lv_redirected (ts_redir_all s)) n1 n2 /\
      node_rel (lv_cleared (ts_del s)) n2 n3 /\ graph_get g' i = Some n' /\ agree_nonbidi E n3 n'.
  Proof using Hh. rewrite history_untouched. prep. rewrite <- Hrr, <- Hra, <- Hdel. intros. by apply (commit_old_path E T g t). Qed.
  Lemma final_new_path g' i n : commit E t g = Done g' tt ->
    ts_new s !! i = Some n -> untouched s i ->
    exists n2 n3 n', node_rel (lv_redirected (ts_redir_all s)) n n2 /\
      node_rel (lv_cleared (ts_del s)) n2 n3 /\ graph_get g' i = Some n' /\ agree_nonbidi E n3 n'.
  Proof using Hh. rewrite history_untouched. prep. rewrite Hown, <- Hra, <- Hdel. intros. by apply (commit_new_path E T g t). Qed.

  (** C12 *)
  Lemma history_to_empty a : (a, 0%N) ∈ ts_redir s -> redir_final (ts_redir s) a 0%N.
  Proof using Hh.
    prep. intros Ha. split; [by apply rtc_once|]. rewrite <- Hrr. intros H0. by apply (to_redir _ _ _ _ Ht) in H0.
  Qed.

  (** C09 *)
  Lemma final_redir_all_none g' i n f lv o : commit E t g = Done g' tt -> o ∈ (ts_redir_all s).*1 ->
    graph_get g' i = Some n -> ~ declared E (Link (nvar n) f) -> nlinks n !! f = Some lv -> o ∉ lv_elems lv.
  Proof using Hh. prep. rewrite <- Hra. by apply (commit_redir_all_none E T g t). Qed.
  Lemma final_redir_none g' i n f lv o : commit E t g = Done g' tt -> o ∈ (ts_redir s).*1 ->
    o ∉ (ts_redir_all s).*2 -> graph_get g i <> None -> untouched s i ->
    graph_get g' i = Some n -> ~ declared E (Link (nvar n) f) -> nlinks n !! f = Some lv -> o ∉ lv_elems lv.
  Proof using Hh.
    prep. intros Hc Ho Hoa Hi (Hum&Huu&Hud) Hg' Hnd Hf Hin.
    destruct (commit_refines E T g t Hwf Hty Ht g' Hc) as (m'&Hsp&Hho).
    pose proof (sp_del_nz E T g t m' Hwf Ht Hsp) as Hz.
    destruct Hsp as (m1&m2&m3&m4&H1&H2&H3&H4&H5).
    pose proof (sp_commit_ok E T g t _ _ _ _ Hwf Ht H1 H2 H3 H4) as (Hok1&_&Hok3&Hok4).
    cbn [trans_txn x_redir x_redir_all x_mut x_upd x_new x_del] in *.
    destruct H1 as (res1&Hres1&->). destruct H4 as (res&Hres&->).
    rewrite <- Hrr in Ho. pose proof (to_redir _ _ _ _ Ht o Ho) as Ho0.
    specialize (Hho i). rewrite Hg' in Hho. inversion Hho as [n' ? (Hv&Hd&Hl) Heq|]; subst. symmetry in Heq.
    rewrite (sp_removes_closed _ _ _ H5) in Heq. case_decide; [done|].
    rewrite lookup_fmap in Heq. destruct (m3 !! i) as [n3|] eqn:Hi3; [|done]. cbn in Heq. injection Heq as <-.
    set (nr := node_redirects res n3) in *.
    rewrite Hv in Hnd. rewrite Hl in Hf by done.
    assert (has_link (node_redirects ((fun x => (x, 0%N)) <$> t_dec t) nr) (Link (nvar nr) f) o) as HL.
    { split; [done|]. split; [by rewrite node_redirects_nvar|]. by exists lv. }
    apply (has_link_redirects0 E) in HL as [HL _]; [|done|by apply node_redirects_ok, (Hok3 i)].
    apply not_eq_None_Some in Hi as [n0 Hi].
    assert (m3 !! i = Some (node_redirects res1 n0)) as Hi3'.
    { rewrite <- Hmut in Hum. rewrite <- Hupd in Huu.
      rewrite (sp_updates_other _ _ _ _ H3 Huu), (sp_mutates_other _ _ _ _ H2 Hum).
      rewrite lookup_union_r; [by rewrite lookup_fmap, (gmap_of_get E), Hi|].
      rewrite (amap_get E) by apply Ht. by eapply own_not_old. }
    assert (n3 = node_redirects res1 n0) as -> by congruence.
    apply (node_redirects_into E) in HL as [HL|HL].
    - apply (node_redirects_none E) in HL; [|eapply resolved_ok; [apply (to_redir _ _ _ _ Ht)|done]|by eapply wf_nodes].
      apply HL. by rewrite (resolved_keys _ _ Hres1).
    - apply Hoa. rewrite <- Hra. apply elem_of_list_fmap in HL as ([o' z]&->&HL).
      destruct (resolved_elem_gen _ _ res o' z (resolved_finals _ _ Hres) HL) as (w&Hw&Hfi).
      apply redir_final_target in Hfi as [->|?]; [|done]. apply elem_of_list_fmap. by exists (o', w).
    - eapply resolved_ok; [apply (to_redir_all _ _ _ _ Ht)|done].
    - by apply (Hok3 i).
  Qed.

  (** C10 *)
  Lemma final_loop_panics : e_dbg E = false \/ ts_res s = ∅ -> redir_bad (ts_redir s) -> commit E t g = Panicked PLoop g.
  Proof using Hh.
    prep. intros Hg. rewrite <- Hrr. intros. apply (commit_loop_panics E); try done. intros [Hd [Hg2|Hg2]]; [done|].
    destruct Hg as [?|Hg]; [congruence|]. destruct (t_alloc t) as [|i l] eqn:Ha; [done|].
    pose proof (tr_res _ _ _ Hr i) as Hi. rewrite Hg, Ha, decide_True in Hi by left. done.
  Qed.
  Lemma final_no_loop g' : commit E t g = Done g' tt ->
    (exists P, redir_ptrs (ts_redir s) P) /\ exists P, redir_ptrs (ts_redir_all s) P.
  Proof using Hh.
    prep. rewrite <- Hrr, <- Hra. intros Hc. destruct (commit_refines E T g t Hwf Hty Ht g' Hc) as (m'&(m1&m2&m3&m4&H1&H2&H3&H4&H5)&_).
    destruct H1 as (res&(P&HP&_)&_), H4 as (res'&(P'&HP'&_)&_). split; [by exists P|by exists P'].
  Qed.
  (** C08 *)
  Lemma final_dest_distinct g' : commit E t g = Done g' tt ->
    (NoDup (ts_redir s).*1 -> forall x z, redir_dest (ts_redir s) x z <-> redir_final (ts_redir s) x z) /\
    (NoDup (ts_redir_all s).*1 -> forall x z, redir_dest (ts_redir_all s) x z <-> redir_final (ts_redir_all s) x z).
  Proof using Hh.
    intros Hc. destruct (final_no_loop g' Hc) as [H1 H2].
    split; intros Hnd; apply (redir_dest_distinct _ Hnd); by apply (ptrs_distinct _ Hnd).
  Qed.
  Lemma final_loop_cause p g' : closures_plain t -> commit E t g = Panicked p g' -> p = PLoop ->
    redir_bad (ts_redir s) \/ redir_bad (ts_redir_all s).
  Proof using Hh. prep. rewrite <- Hrr, <- Hra. by apply (commit_loop_cause E). Qed.
End final.
