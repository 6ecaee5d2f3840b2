(** * Checking the property vocabulary on concrete graphs

    [bidi_symmetric], [links_typed] and [no_early] quantify over all indices; on a
    concrete graph they are decided by going through its nodes.  Used by the examples
    beside the theorems only. *)
From Verif Require Export BidiFinal.

Section decide.
  Context {D : Type} (E : env).
  Implicit Types (g : graph D) (n : node D) (l k : link).

  Definition has_linkb n l (y : idx) : bool :=
    negb (bool_decide (y = 0%N)) && bool_decide (nvar n = l_var l) &&
    match nlinks n !! l_fld l with Some lv => bool_decide (y ∈ lv_elems lv) | None => false end.
  Lemma has_linkb_spec n l y : has_linkb n l y = true <-> has_link n l y.
  Proof.
    unfold has_linkb, has_link. rewrite !andb_true_iff, negb_true_iff, bool_decide_eq_true, bool_decide_eq_false.
    destruct (nlinks n !! l_fld l) as [lv|].
    - rewrite bool_decide_eq_true. naive_solver.
    - naive_solver.
  Qed.

  Lemma items_get g : WF E g -> forall i n, graph_get g i = Some n <-> In (i, n) (graph_iter g).
  Proof. intros Hwf i n. rewrite <- elem_of_list_In. apply (arena_get_items E), Hwf. Qed.

  (** [ls] lists the links that have an opposite *)
  Definition bidi_symmetricb (ls : list link) g : bool :=
    forallb (fun '(a, na) => forallb (fun '(b, nb) => forallb (fun l => forallb (fun k =>
      implb (bool_decide (l_var l = nvar na) && bool_decide (l_var k = nvar nb))
        (Bool.eqb (has_linkb na l b) (has_linkb nb k a))) (e_opp E l)) ls) (graph_iter g)) (graph_iter g).
  Lemma bidi_symmetricb_sound ls g :
    WF E g -> (forall l k, k ∈ e_opp E l -> l ∈ ls) -> bidi_symmetricb ls g = true -> bidi_symmetric E g.
  Proof.
    intros Hwf Hls Hb a b na nb l k Ha Hb' Hk Hla Hkb.
    unfold bidi_symmetricb in Hb. rewrite forallb_forall in Hb. apply (items_get g Hwf) in Ha, Hb'.
    specialize (Hb _ Ha). cbn in Hb. rewrite forallb_forall in Hb. specialize (Hb _ Hb'). cbn in Hb.
    rewrite forallb_forall in Hb. specialize (Hb l). rewrite <- elem_of_list_In in Hb. specialize (Hb (Hls l k Hk)).
    rewrite forallb_forall in Hb. specialize (Hb k). rewrite <- elem_of_list_In in Hb. specialize (Hb Hk).
    rewrite !bool_decide_eq_true_2 in Hb by done. cbn in Hb. apply eqb_prop in Hb.
    by rewrite <- !has_linkb_spec, Hb.
  Qed.

  (** all links of a node *)
  Definition node_links n : list (link * idx) :=
    concat (imap (fun f lv => (fun y => (Link (nvar n) f, y)) <$> filter (fun y => y <> 0%N) (lv_elems lv)) (nlinks n)).
  Lemma elem_node_links n l y : has_link n l y -> (l, y) ∈ node_links n.
  Proof.
    intros (Hy&Hv&lv&Hlv&Hin). unfold node_links. apply elem_of_list_In, in_concat.
    exists ((fun y => (Link (nvar n) (l_fld l), y)) <$> filter (fun y => y <> 0%N) (lv_elems lv)). split.
    - apply elem_of_list_In, elem_of_list_lookup. exists (l_fld l). rewrite list_lookup_imap, Hlv. done.
    - apply elem_of_list_In, elem_of_list_fmap. exists y. split; [|by apply elem_of_list_filter].
      destruct l; cbn in *; by rewrite Hv.
  Qed.

  Definition links_typedb g : bool :=
    forallb (fun '(x, nx) => forallb (fun '(l, y) =>
      match graph_get g y with Some ny => e_chk E (nvar ny) l | None => true end) (node_links nx)) (graph_iter g).
  Lemma links_typedb_sound g : WF E g -> links_typedb g = true -> links_typed E g.
  Proof.
    intros Hwf Hb x y nx ny l Hx Hl _ Hy. unfold links_typedb in Hb. rewrite forallb_forall in Hb.
    apply (items_get g Hwf) in Hx. specialize (Hb _ Hx). cbn in Hb. rewrite forallb_forall in Hb.
    specialize (Hb (l, y)). rewrite <- elem_of_list_In in Hb. specialize (Hb (elem_node_links _ _ _ Hl)).
    cbn in Hb. by rewrite Hy in Hb.
  Qed.

  Definition no_earlyb g (s : tspec D) : bool :=
    forallb (fun '(x, nx) => forallb (fun '(l, y) =>
      match ts_new s !! y with Some _ => false | None => true end) (node_links nx)) (graph_iter g).
  Lemma no_earlyb_sound g s : WF E g -> no_earlyb g s = true -> no_early g s.
  Proof.
    intros Hwf Hb x n y Hx [l Hl]. unfold no_earlyb in Hb. rewrite forallb_forall in Hb.
    apply (items_get g Hwf) in Hx. specialize (Hb _ Hx). cbn in Hb. rewrite forallb_forall in Hb.
    specialize (Hb (l, y)). rewrite <- elem_of_list_In in Hb. specialize (Hb (elem_node_links _ _ _ Hl)).
    cbn in Hb. by destruct (ts_new s !! y).
  Qed.
End decide.
