(** * The number of nodes: C79 *)
From stdpp Require Export gmap fin_maps.
From Verif Require Import Undo ExHist ExTrans PropsBidi PropsFindings.

Section len.
  Context {D : Type}.
  Implicit Types m : gmap N (node D).
  Lemma same_dom_size m m' : (forall i, is_Some (m !! i) <-> is_Some (m' !! i)) -> size m = size m'.
  Proof.
    intros H. rewrite <- !size_dom. f_equal. apply set_eq. intros i. by rewrite !elem_of_dom.
  Qed.
  Lemma sp_removes_size xs m m' : sp_removes xs m = Some m' -> size m' + length xs = size m.
  Proof.
    revert m. induction xs as [|x xs IH]; intros m; cbn [sp_removes length].
    - intros [= <-]. lia.
    - destruct (m !! x) as [n|] eqn:Hx; [|done]. intros H. apply IH in H. unfold sp_remove in H. rewrite map_size_fmap in H.
      assert (size m = S (size (delete x m))) as ->; [|lia].
      rewrite <- (insert_delete m x n Hx) at 1. rewrite map_size_insert_None; [done|apply lookup_delete].
  Qed.
  Lemma sp_commit_size t m m' : sp_commit t m m' -> (forall i, is_Some (x_new t !! i) -> m !! i = None) ->
    size m' + length (x_del t) = size m + size (x_new t).
  Proof.
    intros (m1&m2&m3&m4&H1&H2&H3&H4&H5) Hf. rewrite (sp_removes_size _ _ _ H5).
    rewrite (same_dom_size m4 m3) by apply (sp_redirect_dom _ _ _ H4).
    rewrite (same_dom_size m3 m2) by apply (sp_updates_dom _ _ _ H3).
    rewrite (same_dom_size m2 (x_new t ∪ m1)) by apply (sp_mutates_dom _ _ _ H2).
    rewrite map_size_disj_union, (same_dom_size m1 m); [lia|apply (sp_redirect_dom _ _ _ H1)|].
    apply map_disjoint_spec. intros i n n' Hn Hn'.
    destruct (proj1 (sp_redirect_dom _ _ _ H1 i)) as [n0 Hn0]; [by eexists|]. rewrite Hf in Hn0; [done|by eexists].
  Qed.
End len.
Lemma graph_len_size {D} (E : env) (g : graph D) m : WF E g -> nodes_are g m -> graph_len g = size m.
Proof.
  intros Hwf Hm. pose proof (wf_arena _ _ Hwf) as Ha. unfold graph_len. rewrite arena_len_items.
  transitivity (size (list_to_map (arena_items (g_nodes g)) : gmap N (node D))).
  - unfold size, map_size. symmetry. apply Permutation_length, map_to_list_to_map. by apply (arena_items_NoDup E).
  - apply same_dom_size. intros i. assert ((list_to_map (arena_items (g_nodes g)) : gmap N (node D)) !! i = m !! i) as ->; [|done].
    apply option_eq. intros n. rewrite <- elem_of_list_to_map by by apply (arena_items_NoDup E).
    rewrite <- (arena_get_items E) by done. by rewrite Hm.
Qed.

(** After a commit the graph has as many nodes as before, plus the inserted ones, minus the
    removed ones: every removal removes exactly one node. *)
Theorem C79_len_after_commit :
  forall {D} (E : env) (T : Prop) (g g' : graph D) t (s : tspec D),
  history E T g t s -> commit E t g = Done g' tt ->
  NoDup (ts_del s) /\ graph_len g' + length (ts_del s) = graph_len g + size (ts_new s).
Proof.
  intros D E T g g' t s Hh Hc. split; [by eapply history_del_NoDup|].
  destruct (final_refines E T g t s Hh g' Hc) as (m&m'&Hm&Hsp&Hho).
  destruct (history_ok E T g t s Hh) as (Hwf&Hty&Ht&_).
  destruct (commit_done E T g t Hwf Hty Ht g' Hc) as (_&g1&r&m1&Hcm&_).
  assert (WF E g') as Hwf' by apply Hcm. rewrite (graph_len_size E g m Hwf Hm).
  rewrite (graph_len_size E g' (gmap_of g') Hwf') by (intros i; by apply (gmap_of_get E)).
  rewrite (same_dom_size (gmap_of g') m').
  - apply (sp_commit_size _ _ _ Hsp). intros i Hi. rewrite Hm, <- (gmap_of_get E) by done. by eapply (history_new_fresh E T g t s).
  - intros i. rewrite (gmap_of_get E) by done. specialize (Hho i). destruct Hho; split; intros [? [=]]; by eexists.
Qed.
Print Assumptions C79_len_after_commit.

(** The graph of [busy]: two nodes inserted, one removed. *)
Example C79_case : exists g', history E0 True (kg E0 busy 1) (kt E0 busy 1) (ks E0 busy 1) /\
  commit E0 (kt E0 busy 1) (kg E0 busy 1) = Done g' tt /\
  (graph_len (kg E0 busy 1), size (ts_new (ks E0 busy 1)), length (ts_del (ks E0 busy 1)), graph_len g') = (4, 2, 1, 5).
Proof. exists (kc E0 busy 1). split; [hist|]. split; computes. Qed.
