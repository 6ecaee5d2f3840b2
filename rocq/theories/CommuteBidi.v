(** * Two transactions on one graph in either order, with bidirectional links

    Two open transactions are committed to one graph, once in each order.  With
    bidirectional declarations a commit also changes nodes it does not name, so the
    condition is about what the two commits do: every node is left alone by one of them.
    Used by PropsCommuteBidi.v (C83). *)
From stdpp Require Export gmap.
From Verif Require Export Ask.

(** [i] is inserted, removed or passed to a closure by the transaction, or links to an
    index that it redirects or removes *)
Definition reworks {D} (g : graph D) (s : tspec D) (i : idx) : Prop :=
  edits (ts_txn s) i \/ i ∈ ts_del s \/ exists n x, graph_get g i = Some n /\ x ∈ moved (ts_txn s) /\ links_to n x.
(** the commit that takes [g] to [g'] has nothing to do with the node at [i] *)
Definition leaves {D} (g g' : graph D) (s : tspec D) (i : idx) : Prop :=
  ~ reworks g s i /\ graph_get g' i = graph_get g i.
(** the commit from [g] to [g1] stays clear of what a transaction with content [s2] does:
    the nodes it works on do not link to what [s2] redirects or removes, and no node of
    [g] and [g1] links to a node that [s2] inserts *)
Record clear {D} (g g1 : graph D) (s1 s2 : tspec D) : Prop := {
  cl_moved : forall i n x, graph_get g1 i = Some n -> links_to n x -> x ∈ moved (ts_txn s2) -> leaves g g1 s1 i;
  cl_new : no_early g s2;
  cl_new1 : no_early g1 s2 }.
Definition apart_commits {D} (g g1 g2 : graph D) (s1 s2 : tspec D) : Prop :=
  (forall i, leaves g g1 s1 i \/ leaves g g2 s2 i) /\ clear g g1 s1 s2 /\ clear g g2 s2 s1.
Lemma apart_commits_sym {D} (g g1 g2 : graph D) s1 s2 : apart_commits g g1 g2 s1 s2 -> apart_commits g g2 g1 s2 s1.
Proof. intros (H1&H2&H3). split; [|done]. intros i. destruct (H1 i); tauto. Qed.

(** a commit does not change the variant of a node *)
Lemma commit_variant {D} (E : env) (T : Prop) (g g' : graph D) t s i n n' :
  T -> history E T g t s -> (forall l k, k ∈ e_opp E l -> nonvec E l) -> commit E t g = Done g' tt ->
  graph_get g i = Some n -> graph_get g' i = Some n' -> nvar n' = nvar n.
Proof.
  intros HT Hh Hnv Hc Hn Hn'. destruct (final_links_exact E T g t s Hh g' Hnv Hc) as (m&m'&Hm&Hsp&Hho&_).
  specialize (Hho i). rewrite Hn' in Hho. apply o2_l in Hho as (n1&Hn1&Hv&_). rewrite Hv.
  eapply (asks_var E T g t s m' Hh HT); [by exists m|done|done].
Qed.

Section second.
  Context {D : Type} (E : env) (T : Prop) (g g1 g2 : graph D) (t1 t2 : trans D) (s1 s2 : tspec D) (p q : gmap N (node D)).
  Context (HT : T) (H1 : history E T g t1 s1) (H2 : history E T g t2 s2) (H12 : history E T g1 t2 s2).
  Context (Hnv : forall l k, k ∈ e_opp E l -> nonvec E l) (Hsy : bidi_symmetric E g).
  Context (C1 : commit E t1 g = Done g1 tt) (C2 : commit E t2 g = Done g2 tt).
  Context (Hap : apart_commits g g1 g2 s1 s2).
  Context (Hp : asks g s2 p) (Hq : asks g1 s2 q).

  Lemma cb_at i : leaves g g1 s1 i -> q !! i = p !! i.
  Proof using H12 H2 Hp Hq.
    intros [_ Hi]. eapply (sp_commit_at (ts_txn s2) (gmap_of g1) (gmap_of g)).
    - by rewrite (history_nodes E T g1 t2 s2 H12 i), (history_nodes E T g t2 s2 H2 i).
    - by eapply asks_gmap.
    - by eapply asks_gmap.
  Qed.
  Lemma cb_plain (h : graph D) r i : history E T h t2 s2 -> asks h s2 r -> ~ edits (ts_txn s2) i -> i ∉ ts_del s2 ->
    (forall n x, graph_get h i = Some n -> x ∈ moved (ts_txn s2) -> ~ links_to n x) -> r !! i = graph_get h i.
  Proof.
    intros Hh Hr He Hd Hl. pose proof (asks_gmap E T h t2 s2 r Hh Hr) as Hs.
    destruct (sp_commit_other _ _ _ Hs) as (L&HL&_&Ha). rewrite (Ha _ _ i Hs He Hd), (history_nodes E T h t2 s2 Hh i).
    destruct (graph_get h i) as [n|] eqn:Hn; [|done]. cbn. f_equal. apply (node_redirects_id E).
    - apply (history_all_ok E T h t2 s2 Hh i). by rewrite (history_nodes E T h t2 s2 Hh i).
    - rewrite HL. intros x Hx. split; [|by apply (Hl n)]. intros ->. by apply (history_moved_nz E T h t2 s2 r Hh Hs).
  Qed.
  Lemma cb_left i : leaves g g2 s2 i -> p !! i = graph_get g i.
  Proof using H2 Hp.
    intros [Hr _]. apply (cb_plain g p i H2 Hp).
    - intros He. apply Hr. by left.
    - intros Hd. apply Hr. by right; left.
    - intros n x Hn Hx Hl. apply Hr. right; right. eauto.
  Qed.
  Lemma cb_left1 i : leaves g g2 s2 i -> q !! i = graph_get g1 i.
  Proof using H12 Hq Hap.
    intros [Hr _]. apply (cb_plain g1 q i H12 Hq).
    - intros He. apply Hr. by left.
    - intros Hd. apply Hr. by right; left.
    - intros n x Hn Hx Hl. destruct Hap as (_&Hc&_). destruct (cl_moved _ _ _ _ Hc i n x Hn Hl Hx) as [_ Heq].
      apply Hr. right; right. rewrite Heq in Hn. eauto.
  Qed.
  Lemma cb_cases i : (leaves g g1 s1 i /\ graph_get g1 i = graph_get g i /\ q !! i = p !! i) \/
    (leaves g g2 s2 i /\ graph_get g2 i = graph_get g i /\ p !! i = graph_get g i /\ q !! i = graph_get g1 i).
  Proof using H12 H2 Hap Hp Hq.
    destruct Hap as (Hc&_&_). destruct (Hc i) as [H|H]; [left|right].
    - split; [done|]. split; [apply H|by apply cb_at].
    - split; [done|]. split; [apply H|]. split; [by apply cb_left|by apply cb_left1].
  Qed.
  Lemma cb_added x y l : added g1 q x y l <-> added g p x y l.
  Proof using H12 H2 Hap Hp Hq.
    unfold added, in_graph, in_nodes. destruct (cb_cases x) as [(_&->&->)|(_&_&->&->)]; [done|]. naive_solver.
  Qed.
  Lemma cb_dropped x y l : dropped g1 q x y l <-> dropped g p x y l.
  Proof using H12 H2 Hap Hp Hq.
    unfold dropped, in_graph, in_nodes. destruct (cb_cases x) as [(_&->&->)|(_&_&->&->)]; [done|]. naive_solver.
  Qed.
  Lemma cb_dropped_some x y l : dropped g p x y l -> q !! x = p !! x.
  Proof using H12 H2 Hap Hp Hq.
    intros Hd. destruct (cb_cases x) as [(_&_&->)|(_&_&Hx&_)]; [done|]. destruct Hd as [Hd Hn]. destruct Hn.
    unfold in_graph, in_nodes in *. by rewrite Hx.
  Qed.
  Lemma cb_mirrored a b k : leaves g g1 s1 a -> mirrored E g1 q a b k <-> mirrored E g p a b k.
  Proof using H12 H2 Hap Hp Hq.
    intros Ha. pose proof (cb_at a Ha) as Hqa. unfold mirrored.
    assert (in_nodes q a b k <-> in_nodes p a b k) as -> by (unfold in_nodes; by rewrite Hqa).
    assert ((exists l, dropped g1 q b a l /\ k ∈ e_opp E l /\ is_Some (q !! b)) <->
            (exists l, dropped g p b a l /\ k ∈ e_opp E l /\ is_Some (p !! b))) as ->.
    { setoid_rewrite cb_dropped. split; intros (l&Hd&Hk&Hs); exists l; (split; [done|]); (split; [done|]);
        pose proof (cb_dropped_some _ _ _ Hd) as Heq; congruence. }
    rewrite Hqa. by setoid_rewrite cb_added.
  Qed.

  Lemma cb_links2 a b k : in_graph g2 a b k <-> mirrored E g p a b k.
  Proof using C2 H2 Hnv Hp.
    destruct (final_links_exact E T g t2 s2 H2 g2 Hnv C2) as (m&m'&Hm&Hsp&_&Hl). rewrite Hl.
    destruct Hp as (m0&Hm0&Hsp0). assert (m = m0) as -> by (apply map_eq; intros i; by rewrite Hm, Hm0).
    by rewrite (sp_commit_det (ts_txn s2) _ _ _ Hsp Hsp0).
  Qed.
  (** a node of [g1] that is not new was in [g], with the same variant *)
  Lemma cb_old a na1 : graph_get g1 a = Some na1 -> ts_new s1 !! a = None -> exists na, graph_get g a = Some na /\ nvar na1 = nvar na.
  Proof using HT H1 Hnv C1.
    intros Hna1 Hnew. destruct (final_links_exact E T g t1 s1 H1 g1 Hnv C1) as (m&m'&Hm&Hsp&Hho&_).
    specialize (Hho a). rewrite Hna1 in Hho. apply o2_l in Hho as (n1&Hn1&_).
    destruct (proj1 (sp_commit_dom _ _ _ Hsp a)) as [[[n Hn]|[n Hn]] _]; [by eauto|cbn in Hn; congruence|].
    rewrite Hm in Hn. exists n. split; [done|]. by eapply (commit_variant E T g g1 t1 s1 a).
  Qed.
  (** the source of an added link that [g] already answers was in [g] *)
  Lemma cb_source a b l k nb' : p !! b = Some nb' -> in_graph g a b k -> has_link nb' l a ->
    exists nb, graph_get g b = Some nb /\ nvar nb = l_var l.
  Proof using HT H2 Hp Hap.
    intros Hnb' (na&Hna&Hk) Hl. pose proof (asks_gmap E T g t2 s2 p H2 Hp) as Hsp.
    destruct (proj1 (sp_commit_dom _ _ _ Hsp b)) as [[[n Hn]|[n Hn]] _]; [by eauto| |].
    - destruct Hap as (_&Hc&_). cbn in Hn. pose proof (cl_new _ _ _ _ Hc a na b Hna ltac:(by exists k)). congruence.
    - rewrite (history_nodes E T g t2 s2 H2 b) in Hn. exists n. split; [done|].
      rewrite <- (asks_var E T g t2 s2 p H2 HT Hp b n nb' Hn Hnb'). apply Hl.
  Qed.
  (** an added link is not answered by [g] *)
  Lemma cb_unanswered a b l k na : graph_get g a = Some na -> added g p b a l -> k ∈ opposites_on E l (nvar na) -> ~ has_link na k b.
  Proof using HT H2 Hp Hap Hsy.
    intros Hna [(nb'&Hnb'&Hl) Hno] Hk Hkl. apply elem_of_list_filter in Hk as [Hv Hk].
    destruct (cb_source a b l k nb') as (nb&Hnb&Hvb); [done|by exists na|done|]. apply Hno. exists nb. split; [done|].
    apply (Hsy b a nb na l k); done.
  Qed.
  Lemma cb_no_add a b l na1 k : leaves g g2 s2 a -> graph_get g1 a = Some na1 -> added g p b a l -> opposites_on E l (nvar na1) <> [k].
  Proof using HT H1 H2 Hp Hap Hsy Hnv C1 C2.
    intros Ha Hna1 Hadd Hopp.
    assert (ts_new s1 !! a = None) as Hnew.
    { destruct (ts_new s1 !! a) as [n|] eqn:Hn; [|done]. exfalso.
      assert (graph_get g a = None) as Hga.
      { rewrite <- (history_nodes E T g t1 s1 H1 a). apply (history_new_fresh E T g t1 s1); [done|by exists n]. }
      assert (in_graph g2 b a l) as (nb&Hnb&Hl).
      { apply cb_links2. left. split; [apply Hadd|]. intros (l'&[(n'&Hn'&_) _]&_). congruence. }
      destruct Hap as (_&_&Hc). pose proof (cl_new1 _ _ _ _ Hc b nb a Hnb ltac:(by exists l)). congruence. }
    destruct (cb_old a na1 Hna1 Hnew) as (na&Hna&Hv). rewrite Hv in Hopp.
    apply (cb_unanswered a b l k na Hna Hadd); [rewrite Hopp; left|].
    assert (in_graph g2 a b k) as (n&Hn&Hkl).
    { apply cb_links2. right. exists l, na. split; [done|]. split; [|done]. by rewrite (cb_left a Ha). }
    rewrite (proj2 Ha) in Hn. congruence.
  Qed.
  Lemma cb_no_drop a b l k : leaves g g2 s2 a -> in_graph g1 a b k -> dropped g p b a l -> k ∈ e_opp E l -> is_Some (p !! b) -> False.
  Proof using HT H1 H2 Hp Hap Hsy Hnv C1 C2.
    intros Ha (na1&Hna1&Hk1) Hd Hk Hb. pose proof Hd as [(nb&Hnb&Hl) _].
    assert (ts_new s1 !! a = None) as Hnew.
    { destruct Hap as (_&_&Hc). by apply (cl_new _ _ _ _ Hc b nb a Hnb); exists l. }
    destruct (cb_old a na1 Hna1 Hnew) as (na&Hna&Hv).
    assert (has_link na k b) as Hkl.
    { apply (Hsy b a nb na l k); try done; [symmetry; apply Hl|rewrite <- Hv; symmetry; apply Hk1]. }
    assert (in_graph g2 a b k) as [[_ Hno]|(l'&na'&Hadd&Hna'&Hopp)]%cb_links2.
    { exists na. split; [|done]. by rewrite (proj2 Ha). }
    - apply Hno. by exists l.
    - rewrite (cb_left a Ha) in Hna'. assert (na' = na) as -> by congruence.
      apply (cb_unanswered a b l' k na Hna Hadd); [rewrite Hopp; left|done].
  Qed.
  Lemma cb_mirrored1 a b k : leaves g g2 s2 a -> mirrored E g1 q a b k <-> in_graph g1 a b k.
  Proof using HT H1 H2 H12 Hp Hq Hap Hsy Hnv C1 C2.
    intros Ha. assert (in_nodes q a b k <-> in_graph g1 a b k) as Hin.
    { unfold in_nodes, in_graph. by rewrite (cb_left1 a Ha). }
    unfold mirrored. rewrite Hin. split.
    - intros [[? _]|(l&na1&Hadd&Hna1&Hopp)]; [done|]. exfalso. apply cb_added in Hadd. rewrite (cb_left1 a Ha) in Hna1.
      by apply (cb_no_add a b l na1 k).
    - intros H. left. split; [done|]. intros (l&Hd%cb_dropped&Hk&Hs). rewrite (cb_dropped_some _ _ _ Hd) in Hs.
      by apply (cb_no_drop a b l k).
  Qed.

  (** the second commit *)
  Lemma cb_result g12 i : commit E t2 g1 = Done g12 tt ->
    (leaves g g1 s1 i -> option_Forall2 (same_node E) (graph_get g12 i) (graph_get g2 i)) /\
    (leaves g g2 s2 i -> option_Forall2 (same_node E) (graph_get g12 i) (graph_get g1 i)).
  Proof using HT H1 H2 H12 Hp Hq Hap Hsy Hnv C1 C2.
    intros C12. destruct (final_links_exact E T g1 t2 s2 H12 g12 Hnv C12) as (m&q'&Hm&Hsp&Hh12&Hl12).
    destruct (final_links_exact E T g t2 s2 H2 g2 Hnv C2) as (m0&p'&Hm0&Hsp0&Hh2&Hl2).
    assert (q' = q) as ->.
    { destruct Hq as (mq&Hmq&Hsq). assert (m = mq) as -> by (apply map_eq; intros j; by rewrite Hm, Hmq). exact (sp_commit_det (ts_txn s2) _ _ _ Hsp Hsq). }
    assert (p' = p) as ->.
    { destruct Hp as (mp&Hmp&Hsq). assert (m0 = mp) as -> by (apply map_eq; intros j; by rewrite Hm0, Hmp). exact (sp_commit_det (ts_txn s2) _ _ _ Hsp0 Hsq). }
    specialize (Hh12 i). specialize (Hh2 i). split; intros Hi.
    - rewrite (cb_at i Hi) in Hh12. destruct (p !! i) as [n|].
      + apply o2_r in Hh12 as (n1&He1&Hv1&Hd1&Hf1). apply o2_r in Hh2 as (n2&He2&Hv2&Hd2&Hf2). rewrite He1, He2. constructor. split.
        * split; [congruence|]. split; [congruence|]. intros f Hf. rewrite Hv1 in Hf. by rewrite Hf1, Hf2.
        * intros l y. assert (in_graph g12 i y l <-> in_graph g2 i y l) as Hin by (rewrite Hl12, Hl2; by apply cb_mirrored).
          unfold in_graph in Hin. rewrite He1, He2 in Hin. naive_solver.
      + apply o2_none in Hh12 as ->. apply o2_none in Hh2 as ->. constructor.
    - rewrite (cb_left1 i Hi) in Hh12. destruct (graph_get g1 i) as [n|] eqn:Hn.
      + apply o2_r in Hh12 as (n1&He1&Hv1&Hd1&Hf1). rewrite He1. constructor. split.
        * split; [done|]. split; [done|]. intros f Hf. rewrite Hv1 in Hf. by rewrite Hf1.
        * intros l y. assert (in_graph g12 i y l <-> in_graph g1 i y l) as Hin by (rewrite Hl12; by apply cb_mirrored1).
          unfold in_graph in Hin. rewrite He1, Hn in Hin. naive_solver.
      + apply o2_none in Hh12 as ->. constructor.
  Qed.

  (** the second commit raises no panic that it would not raise on [g] *)
  Lemma cb_no_conflict : (forall l v, length (opposites_on E l v) <= 1) -> no_conflict E g p -> no_conflict E g1 q.
  Proof using HT H1 H2 H12 Hp Hq Hap Hsy Hnv C1 C2.
    intros Hone Hnc x y l ny Hadd%cb_added Hny. destruct (cb_cases y) as [(Hy&_&Hqy)|(Hy&_&_&Hqy)].
    - rewrite Hqy in Hny. pose proof (Hnc x y l ny Hadd Hny) as Hn. specialize (Hone l (nvar ny)).
      destruct (opposites_on E l (nvar ny)) as [|k [|k2 ks]]; [done| |cbn in Hone; lia].
      intros Hk z Hz. apply Hn; [done|]. by apply cb_mirrored.
    - rewrite Hqy in Hny. specialize (Hone l (nvar ny)).
      destruct (opposites_on E l (nvar ny)) as [|k [|k2 ks]] eqn:Ho; [done| |cbn in Hone; lia].
      by destruct (cb_no_add y x l ny k Hy Hny Hadd).
  Qed.
  Lemma cb_added_typed : added_typed E g p -> added_typed E g1 q.
  Proof using HT H1 H2 H12 Hp Hq Hap Hsy Hnv C1 C2.
    intros Hat x y l ny Hadd%cb_added Hny. destruct (cb_cases y) as [(Hy&_&Hqy)|(Hy&_&Hpy&Hqy)].
    - rewrite Hqy in Hny. by apply (Hat x y).
    - rewrite Hqy in Hny.
      assert (ts_new s1 !! y = None) as Hnew.
      { destruct (ts_new s1 !! y) as [n|] eqn:Hn; [|done]. exfalso.
        assert (graph_get g y = None) as Hgy.
        { rewrite <- (history_nodes E T g t1 s1 H1 y). apply (history_new_fresh E T g t1 s1); [done|by exists n]. }
        assert (in_graph g2 x y l) as (nb&Hnb&Hl).
        { apply cb_links2. left. split; [apply Hadd|]. intros (l'&[(n'&Hn'&_) _]&_). congruence. }
        destruct Hap as (_&_&Hc). pose proof (cl_new1 _ _ _ _ Hc x nb y Hnb ltac:(by exists l)). congruence. }
      destruct (cb_old y ny Hny Hnew) as (n&Hn&->). apply (Hat x y); [done|]. congruence.
  Qed.
End second.

Lemma same_node_sym {D} (E : env) (n n' : node D) : same_node E n n' -> same_node E n' n.
Proof.
  intros ((Hv&Hd&Hf)&Hl). split; [|intros l y; by rewrite Hl]. split; [done|]. split; [done|].
  intros f Hb. symmetry. apply Hf. by rewrite <- Hv.
Qed.
Lemma same_node_trans {D} (E : env) (n1 n2 n3 : node D) : same_node E n1 n2 -> same_node E n2 n3 -> same_node E n1 n3.
Proof.
  intros ((Hv&Hd&Hf)&Hl) ((Hv'&Hd'&Hf')&Hl'). split; [|intros l y; by rewrite Hl]. split; [congruence|]. split; [congruence|].
  intros f Hb. rewrite Hf' by (by rewrite Hv). by apply Hf.
Qed.
Lemma o2_same_join {D} (E : env) (o1 o2 o : option (node D)) :
  option_Forall2 (same_node E) o1 o -> option_Forall2 (same_node E) o2 o -> option_Forall2 (same_node E) o1 o2.
Proof.
  intros Ha Hb. destruct o as [n|].
  - apply o2_l in Ha as (n1&->&Ha). apply o2_l in Hb as (n2&->&Hb). constructor.
    by eapply same_node_trans, same_node_sym.
  - inversion Ha; inversion Hb; subst. constructor.
Qed.

Section pair.
  Context {D : Type} (E : env) (T : Prop) (g : graph D) (t1 t2 : trans D) (s1 s2 : tspec D).
  Context (HT : T) (Hop : open_pair E T g t1 t2 s1 s2).
  Context (Hsy : bidi_symmetric E g).

  Lemma final_second g1 g2 g12 i : (forall l k, k ∈ e_opp E l -> nonvec E l) ->
    commit E t1 g = Done g1 tt -> commit E t2 g = Done g2 tt -> apart_commits g g1 g2 s1 s2 -> commit E t2 g1 = Done g12 tt ->
    (leaves g g1 s1 i -> option_Forall2 (same_node E) (graph_get g12 i) (graph_get g2 i)) /\
    (leaves g g2 s2 i -> option_Forall2 (same_node E) (graph_get g12 i) (graph_get g1 i)).
  Proof using HT Hop Hsy.
    intros Hnv C1 C2 Hap C12. pose proof (open_pair_history E T _ _ _ _ _ Hop) as H1.
    pose proof (open_pair_history E T _ _ _ _ _ (open_pair_sym E T _ _ _ _ _ Hop)) as H2.
    pose proof (open_pair_commit E T _ _ _ _ _ _ Hop C1) as H12.
    destruct (final_asks E T g t2 s2 g2 H2 C2) as [p Hp]. destruct (final_asks E T g1 t2 s2 g12 H12 C12) as [q Hq].
    by apply (cb_result E T g g1 g2 t1 t2 s1 s2 p q).
  Qed.
  Lemma final_second_succeeds g1 g2 m : bidi_fields E -> (forall v l, e_chk E v l = false -> nonvec E l) ->
    (forall l v, length (opposites_on E l v) <= 1) ->
    commit E t1 g = Done g1 tt -> commit E t2 g = Done g2 tt -> apart_commits g g1 g2 s1 s2 ->
    nodes_are g m -> sp_valid (ts_txn s2) m -> avoids_ix (ts_del s1) (ts_txn s2) m -> (forall x, x ∈ ts_del s1 -> x ∉ moved (ts_txn s2)) ->
    exists g12, commit E t2 g1 = Done g12 tt.
  Proof using HT Hop Hsy.
    intros Hbf Hck Hone C1 C2 Hap Hm Hv Hav Hdm. pose proof (open_pair_history E T _ _ _ _ _ Hop) as H1.
    pose proof (open_pair_history E T _ _ _ _ _ (open_pair_sym E T _ _ _ _ _ Hop)) as H2.
    pose proof (open_pair_commit E T _ _ _ _ _ _ Hop C1) as H12.
    assert (forall l k, k ∈ e_opp E l -> nonvec E l) as Hnv by (intros l k Hk; by eapply Hbf).
    pose proof (proj1 (final_commit_iff E T g t2 s2 H2 m Hbf Hck Hone Hm) ltac:(eauto)) as (Hres&_&Hok).
    destruct (final_asks E T g t2 s2 g2 H2 C2) as [p Hp]. pose proof Hp as (m0&Hm0&Hsp0).
    assert (m0 = m) as -> by (apply map_eq; intros i; by rewrite Hm, Hm0). destruct (Hok p Hsp0) as [Hnc Hat].
    assert (forall i, edits (ts_txn s2) i -> leaves g g1 s1 i) as Hed.
    { intros i Hi. destruct Hap as [Hl _]. destruct (Hl i) as [?|[Hr _]]; [done|]. destruct Hr. by left. }
    apply (final_success_exact E T g1 t2 s2 H12 (gmap_of g1) Hbf Hck Hone (history_nodes E T g1 t2 s2 H12) Hres).
    - eapply (valid_alike (ts_del s1) (ts_txn s2) (ts_del s1)); [done| |exact Hav| |exact Hv].
      + intros x Hx Hd. by apply (Hdm x).
      + split.
        * intros i Hi. rewrite (history_nodes E T g1 t2 s2 H12 i), Hm. apply (Hed i Hi).
        * intros i Hi Hd. rewrite (history_nodes E T g1 t2 s2 H12 i).
          destruct (final_links_exact E T g t1 s1 H1 g1 Hnv C1) as (m1&m1'&Hm1&Hsp1&Hho&_). specialize (Hho i).
          destruct (proj2 (sp_commit_dom _ _ _ Hsp1 i)) as [n Hn]; [split; [right; by rewrite Hm1, <- Hm|done]|].
          rewrite Hn in Hho. apply o2_r in Hho as (n1&->&_). eauto.
    - intros q Hq. assert (asks g1 s2 q) as Hqa by (exists (gmap_of g1); split; [apply (history_nodes E T g1 t2 s2 H12)|done]).
      split.
      + by apply (cb_no_conflict E T g g1 g2 t1 t2 s1 s2 p q).
      + by apply (cb_added_typed E T g g1 g2 t1 t2 s1 s2 p q).
  Qed.
End pair.

Theorem final_commute_bidi {D} (E : env) (T : Prop) (g : graph D) t1 t2 s1 s2 g1 g12 g2 g21 i :
  T -> open_pair E T g t1 t2 s1 s2 -> (forall l k, k ∈ e_opp E l -> nonvec E l) -> bidi_symmetric E g ->
  commit E t1 g = Done g1 tt -> commit E t2 g1 = Done g12 tt -> commit E t2 g = Done g2 tt -> commit E t1 g2 = Done g21 tt ->
  apart_commits g g1 g2 s1 s2 ->
  option_Forall2 (same_node E) (graph_get g12 i) (graph_get g21 i).
Proof.
  intros HT Hop Hnv Hsy C1 C12 C2 C21 Hap. pose proof (open_pair_sym E T _ _ _ _ _ Hop) as Hop'.
  pose proof (apart_commits_sym _ _ _ _ _ Hap) as Hap'.
  destruct (final_second E T g t1 t2 s1 s2 HT Hop Hsy g1 g2 g12 i Hnv C1 C2 Hap C12) as [Ha1 Ha2].
  destruct (final_second E T g t2 t1 s2 s1 HT Hop' Hsy g2 g1 g21 i Hnv C2 C1 Hap' C21) as [Hb1 Hb2].
  destruct Hap as (Hl&_). destruct (Hl i) as [H|H]; eapply o2_same_join; eauto.
Qed.
