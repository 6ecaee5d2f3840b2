(** * Inserting nodes and removing them again

    A transaction that only inserts nodes, and one that only removes them again.  Used by
    PropsUndo.v (C77). *)
From stdpp Require Export gmap.
From Verif Require Export Cut Commute Alike2.

(** a transaction that only inserts the nodes [new] *)
Definition only_inserts {D} (new : gmap N (node D)) (t : txn D) : Prop := t = Txn [] new [] [] [] [].
(** a transaction that only removes the nodes under the indices [xs] *)
Definition only_removes {D} (xs : list idx) (t : txn D) : Prop := t = Txn [] ∅ [] [] [] xs.

Lemma lv_redirect_absent o z lv : o ∉ lv_elems lv -> lv_redirect o z lv = lv.
Proof.
  destruct lv as [i|k l|l]; cbn; intros Ho.
  - rewrite elem_of_list_singleton in Ho. rewrite decide_False by congruence. done.
  - by rewrite decide_False.
  - f_equal. rewrite <- (list_fmap_id l) at 2. apply list_fmap_ext. intros j x Hx.
    rewrite decide_False; [done|]. intros ->. apply Ho. by eapply elem_of_list_lookup_2.
Qed.
Lemma lvs_redirect_absent res lv : (forall y, y ∈ res -> y.1 ∉ lv_elems lv) -> lvs_redirect res lv = lv.
Proof.
  unfold lvs_redirect. induction res as [|[o z] res IH]; intros H; cbn [fold_left]; [done|].
  rewrite lv_redirect_absent by (apply (H (o, z)); left). apply IH. intros y Hy. apply H. by right.
Qed.

Section undo.
  Context {D : Type} (E : env) (T : Prop) (g g1 : graph D) (ta tb : trans D) (sa sb : tspec D).
  Context (new : gmap N (node D)) (xs : list idx).
  Context (Ha : history E T g ta sa) (Hb : history E T g1 tb sb).
  Context (Hia : only_inserts new (ts_txn sa)) (Hrb : only_removes xs (ts_txn sb)).
  Context (Hxs : forall x, x ∈ xs <-> is_Some (new !! x)).
  Context (Hfree : forall i n x, graph_get g i = Some n -> x ∈ xs -> ~ links_to n x).
  Context (Hnv : forall l k, k ∈ e_opp E l -> nonvec E l).
  Context (Hc : commit E ta g = Done g1 tt).

  Lemma sp_inserts m m' : sp_commit (ts_txn sa) m m' <-> m' = new ∪ m.
  Proof using Hia.
    rewrite Hia. unfold sp_commit. cbn. setoid_rewrite sp_redirect_nil. split.
    - by intros (m1&m2&m3&m4&->&[= <-]&[= <-]&->&[= <-]).
    - intros ->. eexists _, _, _, _. repeat split.
  Qed.
  Lemma sp_only_removes m m' : sp_commit (ts_txn sb) m m' <-> sp_removes xs m = Some m'.
  Proof using Hrb.
    rewrite Hrb. unfold sp_commit. cbn. setoid_rewrite sp_redirect_nil. split.
    - intros (m1&m2&m3&m4&->&[= <-]&[= <-]&->&H). by rewrite map_empty_union in H.
    - intros H. exists m, (∅ ∪ m), (∅ ∪ m), (∅ ∪ m). rewrite map_empty_union. done.
  Qed.
  Lemma new_fresh x : x ∈ xs -> graph_get g x = None.
  Proof using Ha Hia Hxs.
    intros Hx. rewrite <- (history_nodes E T g ta sa Ha x). apply (history_new_fresh E T g ta sa x Ha).
    assert (ts_new sa = new) as -> by (change (x_new (ts_txn sa) = new); by rewrite Hia). by apply Hxs.
  Qed.
  Lemma xs_nz x : x ∈ xs -> x <> 0%N.
  Proof using Ha Hia Hxs.
    intros Hx ->. apply Hxs in Hx as [n Hn]. destruct (history_ok E T g ta sa Ha) as (_&_&Ht&_).
    assert (ts_new sa = new) as Hnew by (change (x_new (ts_txn sa) = new); by rewrite Hia).
    rewrite <- Hnew, (history_own E T g ta sa Ha) in Hn. by destruct (to_nodes _ _ _ _ Ht _ _ Hn).
  Qed.

  (** the graph between the two commits: the old nodes with nothing but the opposites of the
      links of the new nodes added, and the new nodes *)
  Lemma undo_between :
    (forall i, i ∉ xs -> option_Forall2 (agree_nonbidi E) (graph_get g i) (graph_get g1 i)) /\
    (forall x, x ∈ xs -> is_Some (graph_get g1 x)) /\
    (forall a b k, a ∉ xs -> b ∉ xs -> in_graph g1 a b k <-> in_graph g a b k).
  Proof using Ha Hc Hia Hnv Hxs.
    destruct (final_links_exact E T g ta sa Ha g1 Hnv Hc) as (m&m'&Hm&Hsp&Hh&Hl).
    apply sp_inserts in Hsp as ->.
    assert (forall i, i ∉ xs -> (new ∪ m) !! i = graph_get g i) as Hold.
    { intros i Hi. rewrite <- Hm. apply lookup_union_r, eq_None_not_Some. intros ?. by apply Hi, Hxs. }
    split; [|split].
    - intros i Hi. rewrite <- (Hold i Hi). apply Hh.
    - intros x Hx. specialize (Hh x). apply Hxs in Hx as [n Hn].
      rewrite (lookup_union_Some_l _ _ _ _ Hn) in Hh. apply o2_r in Hh as (b&->&_). eauto.
    - intros a b k Hna Hnb. rewrite Hl. unfold mirrored, dropped, added, in_nodes, in_graph. rewrite !Hold by done.
      split; [|naive_solver]. intros [[? _]|(l&na&[H1 H2]&_)]; [done|]. by destruct H2.
  Qed.

  Lemma undo_removed m' : sp_commit (ts_txn sb) (gmap_of g1) m' ->
    (forall i, i ∈ xs -> m' !! i = None) /\
    (forall i, i ∉ xs -> option_Forall2 (agree_nonbidi E) (graph_get g i) (m' !! i)) /\
    (forall a b k, in_nodes m' a b k <-> in_graph g a b k).
  Proof using Ha Hb Hc Hfree Hia Hnv Hrb Hxs.
    intros Hsp. apply sp_only_removes in Hsp. pose proof (sp_removes_closed xs _ _ Hsp) as Hcl.
    destruct undo_between as (Hag&His&Hin).
    assert (forall i, gmap_of g1 !! i = graph_get g1 i) as Hg1 by apply (history_nodes E T g1 tb sb Hb).
    assert (forall x, x ∈ xs -> x <> 0%N) as Hz by apply xs_nz.
    assert (forall i n, graph_get g1 i = Some n -> node_ok E n) as Hok.
    { intros i n Hn. rewrite <- Hg1 in Hn. by eapply (history_all_ok E T g1 tb sb Hb). }
    assert (forall i, i ∈ xs -> m' !! i = None) as Hgone by (intros i Hi; by rewrite Hcl, decide_True).
    split; [done|]. split.
    - intros i Hi. rewrite Hcl, decide_False, Hg1 by done. specialize (Hag i Hi).
      destruct (graph_get g i) as [n|] eqn:Hn.
      + apply o2_r in Hag as (n1&Hn1&Hv&Hd&Hf). rewrite Hn1. cbn. constructor.
        destruct (node_clear_spec E xs n1 Hz (Hok _ _ Hn1)) as (Hv1&Hd1&_). split; [congruence|]. split; [congruence|].
        intros f Hfd. rewrite <- (Hf f Hfd).
        assert (forall y, y ∈ (fun x => (x, 0%N)) <$> xs -> y.1 <> 0%N /\ forall lv, nlinks n1 !! f = Some lv -> y.1 ∉ lv_elems lv) as Hy.
        { intros [x z] (x'&[= -> ->]&Hx)%elem_of_list_fmap. cbn. split; [by apply Hz|]. intros lv Hlv Hel. rewrite (Hf f Hfd) in Hlv.
          apply (Hfree i n x' Hn Hx). exists (Link (nvar n) f). split; [by apply Hz|]. split; [done|]. by exists lv. }
        rewrite node_redirects_links. cbn [nlinks]. rewrite list_lookup_fmap. destruct (nlinks n1 !! f) as [lv|]; [|done]. cbn. f_equal.
        apply lvs_redirect_absent. intros y Hy'. by apply (Hy y Hy').
      + apply o2_none in Hag as ->. constructor.
    - intros a b k. destruct (decide (a ∈ xs)) as [Hax|Hax].
      { unfold in_nodes, in_graph. rewrite Hgone, (new_fresh a Hax) by done. naive_solver. }
      assert (in_nodes m' a b k <-> in_graph g1 a b k /\ b ∉ xs) as ->.
      { unfold in_nodes, in_graph. rewrite Hcl, decide_False, Hg1 by done. destruct (graph_get g1 a) as [n1|] eqn:Hn1; cbn.
        - split.
          + intros (?&[= <-]&Hl). apply (has_link_redirects0 E) in Hl as [??]; [|done|by eapply Hok]. eauto.
          + intros [(?&[= <-]&Hl) Hb']. eexists. split; [done|]. apply (has_link_redirects0 E); [done|by eapply Hok|done].
        - naive_solver. }
      split.
      + intros [H1 Hbx]. by apply Hin.
      + intros H1. assert (b ∉ xs) as Hbx. { intros Hbx. destruct H1 as (n&Hn&Hl). apply (Hfree a n b Hn Hbx). by exists k. }
        split; [by apply Hin|done].
  Qed.

  Lemma undo_links m' : sp_commit (ts_txn sb) (gmap_of g1) m' ->
    (forall a b k, ~ added g1 m' a b k) /\ forall a b k, mirrored E g1 m' a b k <-> in_graph g a b k.
  Proof using Ha Hb Hc Hfree Hia Hnv Hrb Hxs.
    intros Hsp. destruct (undo_removed m' Hsp) as (Hgone&_&Hlk). destruct undo_between as (_&_&Hin).
    assert (forall a b k, in_graph g a b k -> a ∉ xs /\ b ∉ xs) as Hout.
    { intros a b k (n&Hn&Hl). split.
      - intros Hx. rewrite (new_fresh a Hx) in Hn. done.
      - intros Hx. apply (Hfree a n b Hn Hx). by exists k. }
    assert (forall a b k, ~ added g1 m' a b k) as Hno.
    { intros a b k [H1 H2]. apply Hlk in H1. apply H2. destruct (Hout a b k H1). by apply Hin. }
    split; [done|]. intros a b k. unfold mirrored. rewrite Hlk. split.
    - intros [[? _]|(l&na&H1&_)]; [done|]. by apply Hno in H1.
    - intros H1. left. split; [done|]. intros (l&[H2 H3]&Hk&[nb Hnb]). destruct (Hout a b k H1) as [Hax Hbx].
      apply H3, Hlk. by apply (Hin b a l).
  Qed.

  Lemma final_undone g2 : commit E tb g1 = Done g2 tt ->
    forall i, option_Forall2 (same_node E) (graph_get g i) (graph_get g2 i).
  Proof using Ha Hb Hc Hfree Hia Hnv Hrb Hxs.
    intros Hc2 i. destruct (final_links_exact E T g1 tb sb Hb g2 Hnv Hc2) as (m1&m'&Hm1&Hsp&Hh&Hl).
    assert (m1 = gmap_of g1) as -> by (apply map_eq; intros j; rewrite Hm1; symmetry; apply (history_nodes E T g1 tb sb Hb)).
    destruct (undo_removed m' Hsp) as (Hgone&Hag&_). destruct (undo_links m' Hsp) as (_&Hlk). specialize (Hh i).
    destruct (decide (i ∈ xs)) as [Hi|Hi].
    { rewrite (Hgone i Hi) in Hh. apply o2_none in Hh as ->. rewrite (new_fresh i Hi). constructor. }
    specialize (Hag i Hi). destruct (graph_get g i) as [n|] eqn:Hn.
    - apply o2_r in Hag as (n1&Hn1&Hv&Hd&Hf). rewrite Hn1 in Hh. apply o2_r in Hh as (n2&Hn2&Hv2&Hd2&Hf2). rewrite Hn2. constructor.
      split; [split; [congruence|split; [congruence|]]|].
      + intros f Hfd. rewrite Hf2 by by rewrite Hv. by apply Hf.
      + intros l y. assert (in_graph g2 i y l <-> in_graph g i y l) as Hio by by rewrite Hl, Hlk.
        unfold in_graph in Hio. rewrite Hn, Hn2 in Hio. naive_solver.
    - apply o2_none in Hag. rewrite Hag in Hh. apply o2_none in Hh as ->. constructor.
  Qed.

  Lemma final_undo_succeeds : bidi_fields E -> (forall v l, e_chk E v l = false -> nonvec E l) -> NoDup xs ->
    e_dbg E = false \/ ts_res sb = ∅ -> exists g2, commit E tb g1 = Done g2 tt.
  Proof using Ha Hb Hc Hfree Hia Hnv Hrb Hxs.
    intros Hbf Hck Hnd Hres. destruct undo_between as (_&His&_).
    assert (forall i, gmap_of g1 !! i = graph_get g1 i) as Hg1 by apply (history_nodes E T g1 tb sb Hb).
    apply (final_succeeds_bidi E T g1 tb sb Hb (gmap_of g1)); [done|done|done|done|..].
    - rewrite Hrb. split; [split; [exists ∅; constructor|intros o Ho; by apply elem_of_nil in Ho]|]. cbn.
      intros m1 ->%sp_redirect_nil. split; [done|]. eexists. split; [done|]. split; [done|]. eexists. split; [done|].
      split; [split; [exists ∅; constructor|intros o Ho; by apply elem_of_nil in Ho]|].
      intros m4 ->%sp_redirect_nil. apply sp_removes_iff. split; [done|]. intros x Hx. rewrite map_empty_union, Hg1. by apply His.
    - intros m' Hsp. destruct (undo_links m' Hsp) as (Hno&_).
      split; intros x y l ny Hadd; by apply Hno in Hadd.
  Qed.
End undo.

(** the removals of a transaction are an ordered set: no index is named twice *)
Lemma ts_run_del_NoDup {D} (L : list (tevent D)) s s' : ts_run s L = Some s' -> NoDup (ts_del s) -> NoDup (ts_del s').
Proof.
  revert s. induction L as [|e L IH]; intros s; cbn [ts_run]; [by intros [= <-]|].
  destruct (ts_event s e) as [s1|] eqn:He; [|done]. intros Hr Hnd. apply (IH s1 Hr). clear IH Hr.
  destruct e as [i c|m]; cbn [ts_event] in He; [|by injection He as <-].
  destruct c as [n|v| |j n|j n|j|j f|j f|o z|o z]; cbn [ts_call] in He; try by injection He as <-.
  - destruct (ts_res s !! j) as [[v|]|]; try done. case_decide; [|done]. by injection He as <-.
  - destruct (ts_new s !! j); [by injection He as <-|]. destruct (ts_res s !! j); injection He as <-; [done|].
    cbn [ts_del]. case_decide as Hj; [done|]. apply NoDup_app. split; [done|]. split; [|apply NoDup_singleton].
    intros x Hx Hy. apply elem_of_list_singleton in Hy as ->. done.
  - destruct (ts_new s !! j) as [n|]; [|by injection He as <-]. destruct (f n); [|done]. by injection He as <-.
  - destruct (ts_new s !! j) as [n|]; [|by injection He as <-]. destruct (f n); [|done]. by injection He as <-.
Qed.
Lemma history_del_NoDup {D} (E : env) (T : Prop) g (t : trans D) s : history E T g t s -> NoDup (ts_del s).
Proof. intros (L&_&H). apply (ts_run_del_NoDup L ts_empty s H). constructor. Qed.
