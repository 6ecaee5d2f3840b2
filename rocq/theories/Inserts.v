(** * Inserting nodes in one transaction or in two

    Two transactions that only insert nodes, committed one after the other, the nodes of the
    first not referring to those of the second.  Used by PropsInserts.v (C82). *)
From stdpp Require Export gmap.
From Verif Require Export Ask Undo.

(** [M] keeps the nodes of [g] *)
Section keeps.
  Context {D : Type} (E : env) (g : graph D) (M : gmap N (node D)).
  Context (Hk : forall i n, graph_get g i = Some n -> M !! i = Some n).
  Lemma keeps_dropped x y l : ~ dropped g M x y l.
  Proof using Hk. intros [(n&Hn&Hl) H]. apply H. exists n. split; [by apply Hk|done]. Qed.
  Lemma keeps_added x y l : added g M x y l <-> in_nodes M x y l /\ graph_get g x = None.
  Proof using Hk.
    unfold added, in_graph. split.
    - intros [(n&Hn&Hl) H]. split; [by exists n|]. destruct (graph_get g x) as [n0|] eqn:H0; [|done].
      destruct H. exists n0. split; [done|]. apply Hk in H0. congruence.
    - intros [H H0]. split; [done|]. rewrite H0. by intros (?&?&?).
  Qed.
  Lemma keeps_mirrored a b k : mirrored E g M a b k <->
    in_nodes M a b k \/ exists l na, in_nodes M b a l /\ graph_get g b = None /\ M !! a = Some na /\ opposites_on E l (nvar na) = [k].
  Proof using Hk.
    unfold mirrored. setoid_rewrite keeps_added. split.
    - intros [[? _]|(l&na&[H1 H2]&H3&H4)]; [by left|right]. by exists l, na.
    - intros [H|(l&na&H1&H2&H3&H4)]; [left|right; by exists l, na]. split; [done|]. intros (l&Hd&_). by apply keeps_dropped in Hd.
  Qed.
End keeps.

(** the nodes that [s1] inserts do not refer to those that [s2] inserts *)
Definition no_reference {D} (s1 s2 : tspec D) : Prop :=
  forall i n y, ts_new s1 !! i = Some n -> links_to n y -> ts_new s2 !! y = None.
(** two graphs that hold the nodes of one map and the same links *)
Lemma held_same {D} (E : env) (g1 g2 : graph D) (m : gmap N (node D)) (L : idx -> idx -> link -> Prop) :
  holds_nonbidi E g1 m -> holds_nonbidi E g2 m -> (forall a b k, in_graph g1 a b k <-> L a b k) -> (forall a b k, in_graph g2 a b k <-> L a b k) ->
  forall i, option_Forall2 (same_node E) (graph_get g1 i) (graph_get g2 i).
Proof.
  intros H1 H2 L1 L2 i. specialize (H1 i). specialize (H2 i). destruct (m !! i) as [n|].
  - apply o2_r in H1 as (n1&He1&Hv1&Hd1&Hf1). apply o2_r in H2 as (n2&He2&Hv2&Hd2&Hf2). rewrite He1, He2. constructor. split.
    + split; [congruence|]. split; [congruence|]. intros f Hf. rewrite Hv1 in Hf. by rewrite Hf1, Hf2.
    + intros l y. assert (in_graph g1 i y l <-> in_graph g2 i y l) as Hin by by rewrite L1, L2.
      unfold in_graph in Hin. rewrite He1, He2 in Hin. naive_solver.
  - apply o2_none in H1 as ->. apply o2_none in H2 as ->. constructor.
Qed.

Section two.
  Context {D : Type} (E : env) (T : Prop) (g g1 : graph D) (ta tb : trans D) (sa sb : tspec D).
  Context (Ha : history E T g ta sa) (Hb : history E T g1 tb sb).
  Context (Hia : only_inserts (ts_new sa) (ts_txn sa)) (Hib : only_inserts (ts_new sb) (ts_txn sb)).
  Context (Hnv : forall l k, k ∈ e_opp E l -> nonvec E l).
  Context (Hc : commit E ta g = Done g1 tt).
  Context (Hsep : no_reference sa sb).
  Notation N1 := (ts_new sa ∪ gmap_of g).
  Notation N2 := (ts_new sb ∪ gmap_of g1).
  Notation M := (ts_new sb ∪ N1).

  Lemma ins_first : holds_nonbidi E g1 N1 /\ forall a b k, in_graph g1 a b k <-> mirrored E g N1 a b k.
  Proof using Ha Hc Hia Hnv.
    destruct (final_links_exact E T g ta sa Ha g1 Hnv Hc) as (m&m'&Hm&Hsp&Hh&Hl).
    assert (m = gmap_of g) as -> by (apply map_eq; intros j; rewrite Hm; symmetry; apply (history_nodes E T g ta sa Ha)).
    apply (sp_inserts sa (ts_new sa) Hia) in Hsp as ->. done.
  Qed.
  Lemma ins_nodes i : gmap_of g !! i = graph_get g i.
  Proof using Ha. apply (history_nodes E T g ta sa Ha). Qed.
  Lemma ins_nodes1 i : gmap_of g1 !! i = graph_get g1 i.
  Proof using Hb. apply (history_nodes E T g1 tb sb Hb). Qed.
  Lemma ins_same_var i : nvar <$> graph_get g1 i = nvar <$> N1 !! i.
  Proof using Ha Hc Hia Hnv.
    destruct ins_first as [Hh _]. specialize (Hh i). destruct (N1 !! i) as [n|].
    - apply o2_r in Hh as (n1&->&Hv&_). cbn. by rewrite Hv.
    - by apply o2_none in Hh as ->.
  Qed.
  Lemma ins_none i : graph_get g1 i = None <-> N1 !! i = None.
  Proof using Ha Hc Hia Hnv. pose proof (ins_same_var i) as H. destruct (graph_get g1 i), (N1 !! i); naive_solver. Qed.
  Lemma ins_fresh i : is_Some (ts_new sb !! i) -> N1 !! i = None.
  Proof using Ha Hb Hc Hia Hnv. intros Hi. apply ins_none. rewrite <- ins_nodes1. by apply (history_new_fresh E T g1 tb sb). Qed.
  Lemma ins_fresh0 i : is_Some (ts_new sa !! i) -> graph_get g i = None.
  Proof using Ha. intros Hi. rewrite <- ins_nodes. by apply (history_new_fresh E T g ta sa). Qed.
  Lemma ins_keep1 i n : graph_get g i = Some n -> N1 !! i = Some n.
  Proof using Ha.
    intros Hn. rewrite lookup_union_r; [by rewrite ins_nodes|]. apply eq_None_not_Some. intros Hi. rewrite (ins_fresh0 i Hi) in Hn. done.
  Qed.
  Lemma ins_keep2 i n : graph_get g1 i = Some n -> N2 !! i = Some n.
  Proof using Hb.
    intros Hn. rewrite lookup_union_r; [by rewrite ins_nodes1|]. apply eq_None_not_Some. intros Hi.
    rewrite <- ins_nodes1, (history_new_fresh E T g1 tb sb i Hb Hi) in Hn. done.
  Qed.
  Lemma ins_keepM1 i n : N1 !! i = Some n -> M !! i = Some n.
  Proof using Ha Hb Hc Hia Hnv.
    intros Hn. rewrite lookup_union_r; [done|]. apply eq_None_not_Some. intros Hi. rewrite (ins_fresh i Hi) in Hn. done.
  Qed.
  Lemma ins_keepM i n : graph_get g i = Some n -> M !! i = Some n.
  Proof using Ha Hb Hc Hia Hnv. intros Hn. by apply ins_keepM1, ins_keep1. Qed.
  (** where the nodes of [M] come from *)
  Lemma ins_cases i n : M !! i = Some n <-> ts_new sb !! i = Some n \/ ts_new sa !! i = Some n \/ graph_get g i = Some n.
  Proof using Ha Hb Hc Hia Hnv.
    rewrite lookup_union_Some_raw, lookup_union_Some_raw, ins_nodes. split; [naive_solver|].
    intros [H|[H|H]]; [by left|right..].
    - split; [|by left]. apply eq_None_not_Some. intros Hi. pose proof (ins_fresh i Hi) as Hf. apply lookup_union_None in Hf as [Hf _]. congruence.
    - assert (N1 !! i = Some n) as H1 by by apply ins_keep1.
      split; [|right; split; [|done]]; apply eq_None_not_Some; intros Hi.
      + rewrite (ins_fresh i Hi) in H1. done.
      + rewrite (ins_fresh0 i Hi) in H. done.
  Qed.
  Lemma ins_M_var i : nvar <$> N2 !! i = nvar <$> M !! i.
  Proof using Ha Hb Hc Hia Hnv.
    destruct (ts_new sb !! i) as [n|] eqn:Hi.
    - by rewrite !(lookup_union_Some_l _ _ _ _ Hi).
    - rewrite !lookup_union_r by done. rewrite ins_nodes1. apply ins_same_var.
  Qed.

  Lemma ins_mirrored1 a b k : mirrored E g N1 a b k -> mirrored E g M a b k.
  Proof using Ha Hb Hc Hia Hnv.
    rewrite (keeps_mirrored E g N1 ins_keep1), (keeps_mirrored E g M ins_keepM). unfold in_nodes.
    intros [(n&Hn&Hl)|(l&na&(n&Hn&Hl)&H0&Hna&Ho)].
    - left. exists n. split; [by apply ins_keepM1|done].
    - right. exists l, na. split; [exists n; split; [by apply ins_keepM1|done]|]. split; [done|]. split; [by apply ins_keepM1|done].
  Qed.
  Lemma ins_links a b k : mirrored E g1 N2 a b k <-> mirrored E g M a b k.
  Proof using Ha Hb Hc Hia Hnv Hsep.
    rewrite (keeps_mirrored E g1 N2 ins_keep2). destruct ins_first as [_ Hl1]. split.
    - intros [(n&Hn&Hl)|(l&na&(n&Hn&Hl)&H0&Hna&Ho)].
      + apply lookup_union_Some_raw in Hn as [Hn|[H0 Hn]].
        * apply (keeps_mirrored E g M ins_keepM). left. exists n. split; [|done]. apply ins_cases. by left.
        * apply ins_mirrored1, Hl1. exists n. by rewrite <- ins_nodes1.
      + apply (keeps_mirrored E g M ins_keepM). right. pose proof (ins_M_var a) as Hv. rewrite Hna in Hv.
        destruct (M !! a) as [na'|]; [|done]. injection Hv as Hv. exists l, na'. rewrite <- Hv.
        apply lookup_union_Some_raw in Hn as [Hn|[_ Hn]]; [|rewrite ins_nodes1 in Hn; congruence].
        split; [exists n; split; [apply ins_cases; by left|done]|]. split; [|done].
        apply eq_None_not_Some. intros [n0 Hn0]. apply ins_keep1 in Hn0. rewrite (ins_fresh b) in Hn0 by eauto. done.
    - rewrite (keeps_mirrored E g M ins_keepM). intros [(n&Hn&Hl)|(l&na&(n&Hn&Hl)&H0&Hna&Ho)].
      + left. apply lookup_union_Some_raw in Hn as [Hn|[Hnb Hn]].
        * exists n. split; [by apply lookup_union_Some_l|done].
        * assert (in_graph g1 a b k) as (n1&Hn1&Hl1').
          { apply Hl1, (keeps_mirrored E g N1 ins_keep1). left. by exists n. }
          exists n1. split; [by apply ins_keep2|done].
      + apply ins_cases in Hn as [Hn|[Hn|Hn]]; [right|left|congruence].
        * pose proof (ins_M_var a) as Hv. rewrite Hna in Hv. destruct (N2 !! a) as [na'|]; [|done]. injection Hv as Hv. exists l, na'. rewrite Hv.
          split; [exists n; split; [by apply lookup_union_Some_l|done]|]. split; [|done].
          apply ins_none, ins_fresh. eauto.
        * assert (ts_new sb !! a = None) as Hbn by (apply (Hsep b n a Hn); by exists l).
          rewrite lookup_union_r in Hna by done.
          assert (in_graph g1 a b k) as (n1&Hn1&Hl1').
          { apply Hl1, (keeps_mirrored E g N1 ins_keep1). right. exists l, na. split; [|done]. exists n. split; [|done]. by apply lookup_union_Some_l. }
          exists n1. split; [by apply ins_keep2|done].
  Qed.

  (** the graph after both commits *)
  Lemma ins_second g2 : commit E tb g1 = Done g2 tt ->
    holds_nonbidi E g2 M /\ forall a b k, in_graph g2 a b k <-> mirrored E g M a b k.
  Proof using Ha Hb Hc Hia Hib Hnv Hsep.
    intros Hc2. destruct (final_links_exact E T g1 tb sb Hb g2 Hnv Hc2) as (m&m'&Hm&Hsp&Hh&Hl).
    assert (m = gmap_of g1) as -> by (apply map_eq; intros j; rewrite Hm; symmetry; apply ins_nodes1).
    apply (sp_inserts sb (ts_new sb) Hib) in Hsp as ->. split; [|intros a b k; by rewrite Hl, ins_links].
    intros i. specialize (Hh i). destruct ins_first as [Hh1 _]. specialize (Hh1 i).
    destruct (ts_new sb !! i) as [n|] eqn:Hi.
    - rewrite (lookup_union_Some_l _ (gmap_of g1) _ _ Hi) in Hh. by rewrite (lookup_union_Some_l _ N1 _ _ Hi).
    - rewrite lookup_union_r in Hh by done. rewrite lookup_union_r by done. rewrite ins_nodes1 in Hh. destruct (N1 !! i) as [n|].
      + apply o2_r in Hh1 as (n1&Hn1&Hv1&Hd1&Hf1). rewrite Hn1 in Hh. apply o2_r in Hh as (n2&Hn2&Hv2&Hd2&Hf2). rewrite Hn2.
        constructor. split; [congruence|]. split; [congruence|]. intros f Hf. rewrite Hf2 by by rewrite Hv1. by apply Hf1.
      + apply o2_none in Hh1. rewrite Hh1 in Hh. apply o2_none in Hh as ->. constructor.
  Qed.

  (** the second commit succeeds exactly if all the nodes together make no conflict *)
  Lemma ins_added x y l : added g1 N2 x y l <-> added g M x y l /\ is_Some (ts_new sb !! x).
  Proof using Ha Hb Hc Hia Hnv.
    rewrite (keeps_added g1 N2 ins_keep2), (keeps_added g M ins_keepM). split.
    - intros [(n&Hn&Hl) H0]. apply lookup_union_Some_raw in Hn as [Hn|[_ Hn]]; [|rewrite ins_nodes1 in Hn; congruence].
      split; [|eauto]. split; [exists n; split; [apply ins_cases; by left|done]|].
      apply eq_None_not_Some. intros [n0 Hn0]. apply ins_keep1 in Hn0. rewrite (ins_fresh x) in Hn0 by eauto. done.
    - intros [[(n&Hn&Hl) _] [n' Hn']]. assert (n' = n) as ->.
      { assert (M !! x = Some n') as H by (apply ins_cases; by left). congruence. }
      split; [|apply ins_none, ins_fresh; eauto]. exists n. split; [by apply lookup_union_Some_l|done].
  Qed.
  Lemma ins_conflict : (forall l v, length (opposites_on E l v) <= 1) -> no_conflict E g N1 ->
    no_conflict E g1 N2 <-> no_conflict E g M.
  Proof using Ha Hb Hc Hia Hnv Hsep.
    intros Hone H1. split.
    - intros H2 x y l ny Hadd Hy. specialize (Hone l (nvar ny)).
      destruct (opposites_on E l (nvar ny)) as [|k [|k2 ks]] eqn:Ho; [done| |cbn in Hone; lia]. intros Hd z Hz.
      assert (exists ny2, N2 !! y = Some ny2 /\ nvar ny2 = nvar ny) as (ny2&Hy2&Hv2).
      { pose proof (ins_M_var y) as Hv. rewrite Hy in Hv. destruct (N2 !! y) as [ny2|]; [|done]. injection Hv as Hv. eauto. }
      pose proof Hadd as Hadd0. apply (keeps_added g M ins_keepM) in Hadd as [(n&Hn&Hl) H0].
      apply ins_cases in Hn as [Hn|[Hn|Hn]]; [| |congruence].
      + specialize (H2 x y l ny2). rewrite Hv2, Ho in H2. apply H2; [|done|done|by apply ins_links].
        apply ins_added. eauto.
      + assert (ts_new sb !! y = None) as Hbn by (apply (Hsep x n y Hn); by exists l).
        rewrite lookup_union_r in Hy by done.
        assert (added g N1 x y l) as Hadd1.
        { apply (keeps_added g N1 ins_keep1). split; [|done]. exists n. split; [by apply lookup_union_Some_l|done]. }
        specialize (H1 x y l ny Hadd1 Hy). rewrite Ho in H1. specialize (H1 Hd).
        pose proof Hz as Hz0. apply (keeps_mirrored E g M ins_keepM) in Hz as [(n'&Hn'&Hl')|(l'&na&(n'&Hn'&Hl')&H0'&Hna&Ho')].
        { rewrite lookup_union_r in Hn' by done. apply H1, (keeps_mirrored E g N1 ins_keep1). left. by exists n'. }
        apply ins_cases in Hn' as [Hn'|[Hn'|Hn']]; [| |congruence].
        * assert (added g1 N2 z y l') as Hadd2.
          { apply ins_added. split; [|eauto]. apply (keeps_added g M ins_keepM). split; [|done]. exists n'. split; [|done]. apply ins_cases. by left. }
          specialize (H2 z y l' ny2 Hadd2 Hy2). rewrite lookup_union_r in Hna by done. assert (na = ny) as -> by congruence.
          rewrite Hv2, Ho' in H2. symmetry. apply (H2 Hd x), ins_links, (keeps_mirrored E g M ins_keepM). right. exists l, ny.
          split; [exists n; split; [apply ins_cases; by right; left|done]|]. split; [done|]. split; [by apply ins_keepM1|done].
        * apply H1, (keeps_mirrored E g N1 ins_keep1). right. exists l', na.
          split; [exists n'; split; [by apply lookup_union_Some_l|done]|]. split; [done|]. split; [|done]. by rewrite lookup_union_r in Hna.
    - intros H2 x y l ny Hadd Hy. specialize (Hone l (nvar ny)).
      destruct (opposites_on E l (nvar ny)) as [|k [|k2 ks]] eqn:Ho; [done| |cbn in Hone; lia]. intros Hd z Hz.
      pose proof (ins_M_var y) as Hv. rewrite Hy in Hv. destruct (M !! y) as [ny2|] eqn:HyM; [|done]. injection Hv as Hv.
      apply ins_added in Hadd as [Hadd _]. specialize (H2 x y l ny2 Hadd HyM). rewrite <- Hv, Ho in H2. by apply H2, ins_links.
  Qed.
  Lemma ins_typed : added_typed E g N1 -> added_typed E g1 N2 <-> added_typed E g M.
  Proof using Ha Hb Hc Hia Hnv Hsep.
    intros H1. split.
    - intros H2 x y l ny Hadd Hy. pose proof (ins_M_var y) as Hv. rewrite Hy in Hv. destruct (N2 !! y) as [ny2|] eqn:Hy2; [|done]. injection Hv as Hv.
      pose proof Hadd as Hadd0. apply (keeps_added g M ins_keepM) in Hadd as [(n&Hn&Hl) H0].
      apply ins_cases in Hn as [Hn|[Hn|Hn]]; [| |congruence].
      + rewrite <- Hv. apply (H2 x y l ny2); [|done]. apply ins_added. eauto.
      + assert (ts_new sb !! y = None) as Hbn by (apply (Hsep x n y Hn); by exists l). rewrite lookup_union_r in Hy by done.
        apply (H1 x y l ny); [|done]. apply (keeps_added g N1 ins_keep1). split; [|done]. exists n. split; [by apply lookup_union_Some_l|done].
    - intros H2 x y l ny Hadd Hy. pose proof (ins_M_var y) as Hv. rewrite Hy in Hv. destruct (M !! y) as [ny2|] eqn:HyM; [|done]. injection Hv as Hv.
      rewrite Hv. apply ins_added in Hadd as [Hadd _]. by apply (H2 x y l ny2).
  Qed.
End two.

Section success.
  Context {D : Type} (E : env) (T : Prop).
  Lemma inserts_success (g : graph D) t s : history E T g t s -> only_inserts (ts_new s) (ts_txn s) -> bidi_fields E ->
    (forall v l, e_chk E v l = false -> nonvec E l) -> (forall l v, length (opposites_on E l v) <= 1) ->
    (exists g', commit E t g = Done g' tt) <->
    (e_dbg E = false \/ ts_res s = ∅) /\ no_conflict E g (ts_new s ∪ gmap_of g) /\ added_typed E g (ts_new s ∪ gmap_of g).
  Proof using.
    intros H0 Hi Hbf Hck Hone. rewrite (final_commit_iff E T g t s H0 (gmap_of g) Hbf Hck Hone (history_nodes E T g t s H0)).
    setoid_rewrite (sp_inserts s (ts_new s) Hi). split; [naive_solver|]. intros (Hr&H1&H2). split; [done|].
    split; [|naive_solver]. rewrite Hi. unfold commit_listed. cbn.
    assert (forall B, redir_listed [] B) as Hrl by (intros B; split; [exists ∅; constructor|intros o Ho; by apply elem_of_nil in Ho]).
    split; [done|]. intros m1 _. split; [done|]. intros m2 _. split; [done|]. split; [done|]. intros m3 m4 _ _. by eexists.
  Qed.
  (** fewer new nodes make fewer conflicts *)
  Lemma conflict_mono (g : graph D) (Ma Mb : gmap N (node D)) : (forall l v, length (opposites_on E l v) <= 1) ->
    (forall i n, graph_get g i = Some n -> Ma !! i = Some n) -> (forall i n, Ma !! i = Some n -> Mb !! i = Some n) ->
    no_conflict E g Mb /\ added_typed E g Mb -> no_conflict E g Ma /\ added_typed E g Ma.
  Proof using.
    intros Hone Hka Hab [H1 H2]. assert (forall i n, graph_get g i = Some n -> Mb !! i = Some n) as Hkb by auto.
    assert (forall x y l, in_nodes Ma x y l -> in_nodes Mb x y l) as Hin by (intros x y l (n&Hn&Hl); exists n; auto).
    assert (forall x y l, added g Ma x y l -> added g Mb x y l) as Hadd.
    { intros x y l. rewrite (keeps_added g Ma Hka), (keeps_added g Mb Hkb). naive_solver. }
    split; intros x y l ny Ha Hy.
    - specialize (Hone l (nvar ny)). specialize (H1 x y l ny (Hadd _ _ _ Ha) (Hab _ _ Hy)).
      destruct (opposites_on E l (nvar ny)) as [|k [|k2 ks]] eqn:Ho; [done| |cbn in Hone; lia]. intros Hd z Hz. apply (H1 Hd).
      apply (keeps_mirrored E g Ma Hka) in Hz. apply (keeps_mirrored E g Mb Hkb).
      destruct Hz as [Hz|(l'&na&Hz1&Hz2&Hz3&Hz4)]; [left; auto|right]. exists l', na. auto.
    - apply (H2 x y l ny); auto.
  Qed.
End success.

(** ** One transaction or two *)
Section whole.
  Context {D : Type} (E : env) (T : Prop) (g : graph D) (t ta : trans D) (s sa sb : tspec D).
  Context (Hh : history E T g t s) (Ha : history E T g ta sa).
  Context (Hi : only_inserts (ts_new s) (ts_txn s)) (Hia : only_inserts (ts_new sa) (ts_txn sa)) (Hib : only_inserts (ts_new sb) (ts_txn sb)).
  (** the nodes of the whole are those of the two parts *)
  Context (Hall : forall i n, ts_new s !! i = Some n <-> ts_new sa !! i = Some n \/ ts_new sb !! i = Some n).
  Context (Hsep : no_reference sa sb).

  Lemma whole_nodes : ts_new s ∪ gmap_of g = ts_new sb ∪ (ts_new sa ∪ gmap_of g).
  Proof using Hall.
    rewrite (assoc_L (∪)). f_equal. apply map_eq. intros i. apply option_eq. intros n. rewrite Hall, lookup_union_Some_raw. split.
    - intros [H|H]; [|by left]. destruct (ts_new sb !! i) as [n'|] eqn:Hb; [left|by right]. 
      assert (ts_new s !! i = Some n) as H1 by (apply Hall; by left). assert (ts_new s !! i = Some n') as H2 by (apply Hall; by right). congruence.
    - naive_solver.
  Qed.
  Lemma final_whole_first : bidi_fields E -> (forall v l, e_chk E v l = false -> nonvec E l) -> (forall l v, length (opposites_on E l v) <= 1) ->
    e_dbg E = false \/ ts_res sa = ∅ -> (exists g', commit E t g = Done g' tt) -> exists g1, commit E ta g = Done g1 tt.
  Proof using Ha Hall Hh Hi Hia.
    intros Hbf Hck Hone Hres. rewrite (inserts_success E T g t s Hh Hi Hbf Hck Hone), (inserts_success E T g ta sa Ha Hia Hbf Hck Hone).
    intros (_&H). split; [done|]. revert H. apply (conflict_mono E g); [done| |].
    - apply (ins_keep1 E T g ta sa Ha).
    - intros i n Hn. rewrite whole_nodes. apply lookup_union_Some_raw in Hn as [Hn|[Hn Hg]].
      + rewrite (assoc_L (∪)). apply lookup_union_Some_l. assert (ts_new s !! i = Some n) as Hs by (apply Hall; by left).
        destruct (ts_new sb !! i) as [n'|] eqn:Hb; [|by rewrite lookup_union_r].
        assert (ts_new s !! i = Some n') as H2 by (apply Hall; by right). rewrite (lookup_union_Some_l _ _ _ _ Hb). congruence.
      + rewrite <- whole_nodes. rewrite lookup_union_r; [done|]. apply eq_None_not_Some. intros Hs.
        by rewrite (history_new_fresh E T g t s i Hh Hs) in Hg.
  Qed.
  Lemma final_whole_same g1 g2 tb g' : (forall l k, k ∈ e_opp E l -> nonvec E l) -> history E T g1 tb sb ->
    commit E ta g = Done g1 tt -> commit E tb g1 = Done g2 tt -> commit E t g = Done g' tt ->
    forall i, option_Forall2 (same_node E) (graph_get g' i) (graph_get g2 i).
  Proof using Ha Hall Hh Hi Hia Hib Hsep.
    intros Hnv Hb Hc1 Hc2 Hc. 
    destruct (ins_first E T g g' t s Hh Hi Hnv Hc) as [Hh1 Hl1].
    destruct (ins_second E T g g1 ta tb sa sb Ha Hb Hia Hib Hnv Hc1 Hsep g2 Hc2) as [Hh2 Hl2]. rewrite whole_nodes in Hh1, Hl1.
    exact (held_same E g' g2 _ _ Hh1 Hh2 Hl1 Hl2).
  Qed.
  Lemma final_whole_second g1 tb : bidi_fields E -> (forall v l, e_chk E v l = false -> nonvec E l) -> (forall l v, length (opposites_on E l v) <= 1) ->
    history E T g1 tb sb -> e_dbg E = false \/ ts_res s = ∅ -> e_dbg E = false \/ ts_res sb = ∅ -> commit E ta g = Done g1 tt ->
    (exists g', commit E t g = Done g' tt) <-> exists g2, commit E tb g1 = Done g2 tt.
  Proof using Ha Hall Hh Hi Hia Hib Hsep.
    intros Hbf Hck Hone Hb Hr Hrb Hc1. assert (forall l k, k ∈ e_opp E l -> nonvec E l) as Hnv by (intros l k Hk; by eapply Hbf).
    destruct (proj1 (inserts_success E T g ta sa Ha Hia Hbf Hck Hone)) as (_&H1&H2); [by exists g1|].
    rewrite (inserts_success E T g t s Hh Hi Hbf Hck Hone), (inserts_success E T g1 tb sb Hb Hib Hbf Hck Hone).
    rewrite (ins_conflict E T g g1 ta tb sa sb Ha Hb Hia Hnv Hc1 Hsep Hone H1), (ins_typed E T g g1 ta tb sa sb Ha Hb Hia Hnv Hc1 Hsep H2).
    rewrite whole_nodes. naive_solver.
  Qed.
End whole.

(** ** Either first *)
Section either.
  Context {D : Type} (E : env) (T : Prop) (g g1 g2 : graph D) (ta tb : trans D) (sa sb : tspec D).
  Context (Ha : history E T g ta sa) (Hb : history E T g tb sb) (Hb1 : history E T g1 tb sb) (Ha2 : history E T g2 ta sa).
  Context (Hia : only_inserts (ts_new sa) (ts_txn sa)) (Hib : only_inserts (ts_new sb) (ts_txn sb)).
  Context (Hsa : no_reference sa sb).
  Context (Hsb : no_reference sb sa).
  Context (Hc1 : commit E ta g = Done g1 tt) (Hc2 : commit E tb g = Done g2 tt).
  Context (Hnv : forall l k, k ∈ e_opp E l -> nonvec E l).

  Lemma either_nodes : ts_new sb ∪ (ts_new sa ∪ gmap_of g) = ts_new sa ∪ (ts_new sb ∪ gmap_of g).
  Proof using Ha Hb1 Hc1 Hia Hnv.
    rewrite !(assoc_L (∪)). f_equal. apply map_union_comm, map_disjoint_spec. intros i n n' Hi Hi'.
    pose proof (ins_fresh E T g g1 ta tb sa sb Ha Hb1 Hia Hnv Hc1 i ltac:(eauto)) as Hf. apply lookup_union_None in Hf as [Hf _]. congruence.
  Qed.
  Lemma final_either_same g12 g21 : commit E tb g1 = Done g12 tt -> commit E ta g2 = Done g21 tt ->
    forall i, option_Forall2 (same_node E) (graph_get g12 i) (graph_get g21 i).
  Proof using Ha Ha2 Hb Hb1 Hc1 Hc2 Hia Hib Hnv Hsa Hsb.
    intros C12 C21.
    destruct (ins_second E T g g1 ta tb sa sb Ha Hb1 Hia Hib Hnv Hc1 Hsa g12 C12) as [Hh1 Hl1].
    destruct (ins_second E T g g2 tb ta sb sa Hb Ha2 Hib Hia Hnv Hc2 Hsb g21 C21) as [Hh2 Hl2]. rewrite <- either_nodes in Hh2, Hl2.
    exact (held_same E g12 g21 _ _ Hh1 Hh2 Hl1 Hl2).
  Qed.
  Lemma final_either_success : bidi_fields E -> (forall v l, e_chk E v l = false -> nonvec E l) -> (forall l v, length (opposites_on E l v) <= 1) ->
    (exists g12, commit E tb g1 = Done g12 tt) <-> (exists g21, commit E ta g2 = Done g21 tt).
  Proof using Ha Ha2 Hb Hb1 Hc1 Hc2 Hia Hib Hnv Hsa Hsb.
    intros Hbf Hck Hone.
    destruct (proj1 (inserts_success E T g ta sa Ha Hia Hbf Hck Hone)) as (Hra&A1&A2); [by exists g1|].
    destruct (proj1 (inserts_success E T g tb sb Hb Hib Hbf Hck Hone)) as (Hrb&B1&B2); [by exists g2|].
    rewrite (inserts_success E T g1 tb sb Hb1 Hib Hbf Hck Hone), (inserts_success E T g2 ta sa Ha2 Hia Hbf Hck Hone).
    rewrite (ins_conflict E T g g1 ta tb sa sb Ha Hb1 Hia Hnv Hc1 Hsa Hone A1), (ins_typed E T g g1 ta tb sa sb Ha Hb1 Hia Hnv Hc1 Hsa A2).
    rewrite (ins_conflict E T g g2 tb ta sb sa Hb Ha2 Hib Hnv Hc2 Hsb Hone B1), (ins_typed E T g g2 tb ta sb sa Hb Ha2 Hib Hnv Hc2 Hsb B2).
    rewrite either_nodes. naive_solver.
  Qed.
End either.
