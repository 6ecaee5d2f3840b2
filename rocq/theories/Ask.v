(** * What a transaction asks for

    [asks g s m']: the calls of a transaction with content [s], applied to the nodes of [g],
    make the nodes [m'], before the commit looks at bidirectional links.  What a commit
    leaves depends on the calls only through these nodes, and if they already agree with the
    declared bidirectional links the commit leaves exactly them.  Used by PropsAsk.v (C80, C81). *)
From stdpp Require Export gmap.
From Verif Require Export CutDel.

Definition asks {D} (g : graph D) (s : tspec D) (m' : gmap N (node D)) : Prop :=
  exists m, nodes_are g m /\ sp_commit (ts_txn s) m m'.
(** the declared bidirectional links are symmetric in [m] *)
Definition map_symmetric {D} (E : env) (m : gmap N (node D)) : Prop :=
  forall a b na nb l k, m !! a = Some na -> m !! b = Some nb -> k ∈ e_opp E l -> l_var l = nvar na -> l_var k = nvar nb ->
    (has_link na l b <-> has_link nb k a).

(** ** Equal requests *)
Lemma final_same_request {D} (E1 E2 : env) (T1 T2 : Prop) (g1 g2 : graph D) t1 t2 s1 s2 g1' g2' m' :
  (forall l, e_opp E1 l = e_opp E2 l) -> (forall l k, k ∈ e_opp E1 l -> nonvec E1 l /\ nonvec E2 l) ->
  history E1 T1 g1 t1 s1 -> history E2 T2 g2 t2 s2 -> (forall i, graph_get g1 i = graph_get g2 i) ->
  asks g1 s1 m' -> asks g2 s2 m' -> commit E1 t1 g1 = Done g1' tt -> commit E2 t2 g2 = Done g2' tt ->
  forall i, option_Forall2 (same_node E1) (graph_get g1' i) (graph_get g2' i).
Proof.
  intros Ho Hnv H1 H2 Heq (m1&Hm1&Hs1) (m2&Hm2&Hs2) Hc1 Hc2 i.
  destruct (final_links_exact E1 T1 g1 t1 s1 H1 g1') as (m&n'&Hm&Hsp&Hh1&Hl1); [intros l k Hk; by eapply Hnv|done|].
  destruct (final_links_exact E2 T2 g2 t2 s2 H2 g2') as (k&k'&Hk&Hsp'&Hh2&Hl2); [intros l k' Hk'; eapply Hnv; by rewrite Ho|done|].
  assert (m1 = m) as -> by (apply map_eq; intros j; by rewrite Hm1, Hm).
  assert (m2 = k) as -> by (apply map_eq; intros j; by rewrite Hm2, Hk).
  assert (n' = m') as -> by exact (sp_commit_det (ts_txn s1) _ _ _ Hsp Hs1).
  assert (k' = m') as -> by exact (sp_commit_det (ts_txn s2) _ _ _ Hsp' Hs2).
  assert (forall a b l, in_graph g1' a b l <-> in_graph g2' a b l) as Hin.
  { intros a b l. rewrite Hl1, Hl2. unfold mirrored, dropped, added, in_graph, opposites_on.
    setoid_rewrite Heq. by setoid_rewrite Ho. }
  specialize (Hh1 i). specialize (Hh2 i). destruct (m' !! i) as [n|].
  - apply o2_r in Hh1 as (n1&He1&Hv1&Hd1&Hf1). apply o2_r in Hh2 as (n2&He2&Hv2&Hd2&Hf2). rewrite He1, He2.
    constructor. split.
    + split; [congruence|]. split; [congruence|]. intros f Hf. rewrite Hv1 in Hf. rewrite Hf1, Hf2; [done| |done].
      intros [l Hl]. apply Hf. exists l. by rewrite Ho.
    + intros l y. specialize (Hin i y l). unfold in_graph in Hin. rewrite He1, He2 in Hin. naive_solver.
  - apply o2_none in Hh1 as ->. apply o2_none in Hh2 as ->. constructor.
Qed.

Lemma dropped_ext {D} (g1 g2 : graph D) m x y l : (forall i, graph_get g1 i = graph_get g2 i) -> dropped g1 m x y l <-> dropped g2 m x y l.
Proof. intros Heq. unfold dropped, in_graph. by rewrite Heq. Qed.
Lemma added_ext {D} (g1 g2 : graph D) m x y l : (forall i, graph_get g1 i = graph_get g2 i) -> added g1 m x y l <-> added g2 m x y l.
Proof. intros Heq. unfold added, in_graph. by rewrite Heq. Qed.
Lemma mirrored_ext {D} E (g1 g2 : graph D) m x y l : (forall i, graph_get g1 i = graph_get g2 i) -> mirrored E g1 m x y l <-> mirrored E g2 m x y l.
Proof. intros Heq. unfold mirrored. setoid_rewrite (dropped_ext g1 g2 m _ _ _ Heq). by setoid_rewrite (added_ext g1 g2 m _ _ _ Heq). Qed.
Lemma no_conflict_ext {D} E (g1 g2 : graph D) m : (forall i, graph_get g1 i = graph_get g2 i) -> no_conflict E g1 m -> no_conflict E g2 m.
Proof.
  intros Heq H x y l ny Ha%(added_ext g1 g2) Hy; [|done]. specialize (H x y l ny Ha Hy).
  destruct (opposites_on E l (nvar ny)) as [|k [|k2 ks]]; [done|..].
  - intros Hd z Hz. by apply H, (mirrored_ext E g1 g2).
  - destruct H as (k'&Hk&Hin&Hn). exists k'. split; [done|]. split; [done|]. intros (l'&Hl'&?). apply Hn. exists l'.
    by split; [apply (dropped_ext g1 g2)|].
Qed.
Lemma added_typed_ext {D} E (g1 g2 : graph D) m : (forall i, graph_get g1 i = graph_get g2 i) -> added_typed E g1 m -> added_typed E g2 m.
Proof. intros Heq H x y l ny Ha%(added_ext g1 g2) Hy; [|done]. by apply (H x y). Qed.

Lemma final_same_success {D} (E : env) (T : Prop) (g1 g2 : graph D) t1 t2 s1 s2 m m' :
  bidi_fields E -> (forall v l, e_chk E v l = false -> nonvec E l) -> (forall l v, length (opposites_on E l v) <= 1) ->
  history E T g1 t1 s1 -> history E T g2 t2 s2 -> nodes_are g1 m -> nodes_are g2 m ->
  (e_dbg E = false \/ ts_res s1 = ∅) -> (e_dbg E = false \/ ts_res s2 = ∅) ->
  sp_valid (ts_txn s1) m -> sp_valid (ts_txn s2) m -> sp_commit (ts_txn s1) m m' -> sp_commit (ts_txn s2) m m' ->
  (exists g1', commit E t1 g1 = Done g1' tt) <-> (exists g2', commit E t2 g2 = Done g2' tt).
Proof.
  intros Hbf Hck Hone H1 H2 Hm1 Hm2 Hr1 Hr2 Hv1 Hv2 Hs1 Hs2.
  rewrite (final_success_exact E T g1 t1 s1 H1 m), (final_success_exact E T g2 t2 s2 H2 m) by done.
  assert (forall i, graph_get g1 i = graph_get g2 i) as Heq by (intros i; by rewrite <- Hm1, <- Hm2).
  assert (forall m0, no_conflict E g1 m0 <-> no_conflict E g2 m0) as Hn.
  { intros m0. by split; apply no_conflict_ext. }
  assert (forall m0, added_typed E g1 m0 <-> added_typed E g2 m0) as Ha.
  { intros m0. by split; apply added_typed_ext. }
  split; intros H m0 Hs.
  - rewrite (sp_commit_det (ts_txn s2) _ _ _ Hs Hs2), <- Hn, <- Ha. by apply H.
  - rewrite (sp_commit_det (ts_txn s1) _ _ _ Hs Hs1), Hn, Ha. by apply H.
Qed.

(** ** Ways of asking for the same nodes *)
Section rephrase.
  Context {D : Type}.
  Implicit Types (m : gmap N (node D)) (s : tspec D).

  (** a mutate closure and an update closure that do the same *)
  Definition same_change (f : node D -> out (node D) unit) (h : node D -> res (node D)) : Prop :=
    forall n n', f n = Done n' tt <-> h n = Ok n'.
  Definition same_change_at (p : idx * (node D -> out (node D) unit)) (q : idx * (node D -> res (node D))) : Prop :=
    p.1 = q.1 /\ same_change p.2 q.2.
  Lemma mutates_updates fs hs m : Forall2 same_change_at fs hs -> sp_mutates fs m = sp_updates hs m.
  Proof.
    intros H. revert m. induction H as [|[i f] [j h] fs hs [Hi Hf] _ IH]; intros m; [done|]. cbn in Hi, Hf |- *. subst j.
    destruct (m !! i) as [n|]; [|done]. destruct (f n) as [n' []|] eqn:Hn.
    - apply Hf in Hn as ->. apply IH.
    - destruct (h n) as [n'|] eqn:Hh; [|done]. apply Hf in Hh. congruence.
  Qed.
  Lemma sp_commit_cut t1 t2 m m' :
    x_redir t1 = x_redir t2 -> x_new t1 = x_new t2 -> x_redir_all t1 = x_redir_all t2 -> x_del t1 = x_del t2 ->
    (forall m0, match sp_mutates (x_mut t1) m0 with Some m1 => sp_updates (x_upd t1) m1 | None => None end =
                match sp_mutates (x_mut t2) m0 with Some m1 => sp_updates (x_upd t2) m1 | None => None end) ->
    sp_commit t1 m m' -> sp_commit t2 m m'.
  Proof.
    intros E1 E2 E3 E4 Hq (m1&m2&m3&m4&H1&H2&H3&H4&H5). rewrite E1 in H1. rewrite E2 in H2. rewrite E3 in H4. rewrite E4 in H5.
    specialize (Hq (x_new t2 ∪ m1)). rewrite H2, H3 in Hq.
    destruct (sp_mutates (x_mut t2) (x_new t2 ∪ m1)) as [m2'|] eqn:Hm; [|done].
    by exists m1, m2', m3, m4.
  Qed.

  (** the calls other than mutate and update are the same *)
  Definition same_frame s1 s2 : Prop :=
    ts_redir s1 = ts_redir s2 /\ ts_new s1 = ts_new s2 /\ ts_redir_all s1 = ts_redir_all s2 /\ ts_del s1 = ts_del s2.
  Lemma same_frame_sym s1 s2 : same_frame s1 s2 -> same_frame s2 s1.
  Proof. intros (?&?&?&?). by repeat split. Qed.
  (** the mutates of [s1] are the first updates of [s2] *)
  Definition mutates_as_updates s1 s2 : Prop :=
    same_frame s1 s2 /\ exists hs, Forall2 same_change_at (ts_mut s1) hs /\ ts_mut s2 = [] /\ ts_upd s2 = hs ++ ts_upd s1.
  Lemma asks_updates (g : graph D) s1 s2 m' : mutates_as_updates s1 s2 -> asks g s1 m' <-> asks g s2 m'.
  Proof.
    intros ((F1&F2&F3&F4)&hs&HF&Hm2&Hu2).
    assert (forall m0, match sp_mutates (ts_mut s1) m0 with Some m1 => sp_updates (ts_upd s1) m1 | None => None end =
      match sp_mutates (ts_mut s2) m0 with Some m1 => sp_updates (ts_upd s2) m1 | None => None end) as Hq.
    { intros m0. rewrite Hm2, Hu2. cbn [sp_mutates]. rewrite sp_updates_app. by rewrite (mutates_updates _ hs). }
    split; intros (m&Hm&Hs); (exists m; split; [done|]); revert Hs; apply sp_commit_cut; cbn; done.
  Qed.

  (** two changes of one node one after the other *)
  Definition then_ (f h : node D -> out (node D) unit) : node D -> out (node D) unit :=
    fun n => match f n with Done n' _ => h n' | Panicked p n' => Panicked p n' end.
  Lemma mutates_fused fs i f h hs m : sp_mutates (fs ++ (i, f) :: (i, h) :: hs) m = sp_mutates (fs ++ (i, then_ f h) :: hs) m.
  Proof.
    rewrite !sp_mutates_app. destruct (sp_mutates fs m) as [m1|]; [|done]. cbn. unfold then_.
    destruct (m1 !! i) as [n|]; [|done]. destruct (f n) as [n' []|]; [|done]. rewrite lookup_insert.
    destruct (h n') as [n'' []|]; [|done]. by rewrite insert_insert.
  Qed.
  Lemma mutates_swapped fs i j f h hs m : i <> j ->
    sp_mutates (fs ++ (i, f) :: (j, h) :: hs) m = sp_mutates (fs ++ (j, h) :: (i, f) :: hs) m.
  Proof.
    intros Hij. rewrite !sp_mutates_app. destruct (sp_mutates fs m) as [m1|]; [|done]. cbn.
    destruct (m1 !! i) as [n|] eqn:Hi.
    - destruct (m1 !! j) as [n1|] eqn:Hj.
      + destruct (f n) as [n' []|] eqn:Hf, (h n1) as [n1' []|] eqn:Hh;
          rewrite ?(lookup_insert_ne m1 i j), ?(lookup_insert_ne m1 j i), ?Hi, ?Hj, ?Hf, ?Hh by congruence; try done.
        by rewrite insert_commute.
      + destruct (f n) as [n' []|]; [|done]. by rewrite lookup_insert_ne, Hj by congruence.
    - destruct (m1 !! j) as [n1|] eqn:Hj; [|done]. destruct (h n1) as [n1' []|]; [|done]. by rewrite lookup_insert_ne, Hi by congruence.
  Qed.
  (** one step of rearranging the mutates: merge two of one node, or exchange two of different nodes *)
  Inductive rearranged : list (idx * (node D -> out (node D) unit)) -> list (idx * (node D -> out (node D) unit)) -> Prop :=
  | ra_merge fs i f h hs : rearranged (fs ++ (i, f) :: (i, h) :: hs) (fs ++ (i, then_ f h) :: hs)
  | ra_swap fs i j f h hs : i <> j -> rearranged (fs ++ (i, f) :: (j, h) :: hs) (fs ++ (j, h) :: (i, f) :: hs).
  Lemma mutates_rearranged fs hs m : rtc rearranged fs hs -> sp_mutates fs m = sp_mutates hs m.
  Proof.
    induction 1 as [|fs hs ks H _ IH]; [done|]. rewrite <- IH.
    destruct H; [by rewrite mutates_fused|by rewrite mutates_swapped].
  Qed.
  Definition mutates_rearranged_to s1 s2 : Prop :=
    same_frame s1 s2 /\ rtc rearranged (ts_mut s1) (ts_mut s2) /\ ts_upd s1 = ts_upd s2.
  Lemma asks_rearranged (g : graph D) s1 s2 m' : mutates_rearranged_to s1 s2 -> asks g s1 m' <-> asks g s2 m'.
  Proof.
    intros ((F1&F2&F3&F4)&HR&Hu).
    assert (forall m0, match sp_mutates (ts_mut s1) m0 with Some m1 => sp_updates (ts_upd s1) m1 | None => None end =
      match sp_mutates (ts_mut s2) m0 with Some m1 => sp_updates (ts_upd s2) m1 | None => None end) as Hq.
    { intros m0. by rewrite (mutates_rearranged _ _ m0 HR), Hu. }
    split; intros (m&Hm&Hs); (exists m; split; [done|]); revert Hs; apply sp_commit_cut; cbn; done.
  Qed.
End rephrase.

(** a commit that succeeds asked for some nodes *)
Lemma final_asks {D} (E : env) (T : Prop) (g : graph D) t s g' : history E T g t s -> commit E t g = Done g' tt -> exists m', asks g s m'.
Proof.
  intros Hh Hc. destruct (history_ok E T g t s Hh) as (Hwf&Hty&Ht&_).
  destruct (commit_done E T g t Hwf Hty Ht g' Hc) as (_&g1&r&m'&Hcm&_).
  pose proof (cm_spec _ _ _ _ _ _ _ _ Hcm) as Hsp. rewrite (history_txn E T g t s Hh) in Hsp.
  exists m', (gmap_of g). split; [|done]. intros i. apply (history_nodes E T g t s Hh).
Qed.

(** ** Symmetric requests *)
Section keeps_ok.
  Context {D : Type} (E : env) (T : Prop).
  Implicit Types (m : gmap N (node D)).
  Lemma sp_mutates_ok fs m m' : (forall i f, (i, f) ∈ fs -> mut_ok E T f) -> all_ok E m -> sp_mutates fs m = Some m' -> all_ok E m'.
  Proof.
    revert m. induction fs as [|[i f] fs IH]; intros m Hfs Hok; cbn; [by intros [= <-]|].
    destruct (m !! i) as [n|] eqn:Hi; [|done]. destruct (f n) as [n' []|] eqn:Hf; [|done]. apply IH.
    - intros j h Hin. apply (Hfs j). by right.
    - intros j nj [[<- <-]|[_ Hj]]%lookup_insert_Some; [|by apply (Hok j)].
      by apply (Hfs i f ltac:(left) n n' (Hok _ _ Hi) Hf).
  Qed.
  Lemma sp_updates_ok fs m m' : (forall i f, (i, f) ∈ fs -> upd_ok E T f) -> all_ok E m -> sp_updates fs m = Some m' -> all_ok E m'.
  Proof.
    revert m. induction fs as [|[i f] fs IH]; intros m Hfs Hok; cbn; [by intros [= <-]|].
    destruct (m !! i) as [n|] eqn:Hi; [|done]. destruct (f n) as [n'|] eqn:Hf; [|done]. apply IH.
    - intros j h Hin. apply (Hfs j). by right.
    - intros j nj [[<- <-]|[_ Hj]]%lookup_insert_Some; [|by apply (Hok j)].
      by apply (Hfs i f ltac:(left) n n' (Hok _ _ Hi) Hf).
  Qed.
  Lemma sp_removes_ok xs m m' : all_ok E m -> sp_removes xs m = Some m' -> all_ok E m'.
  Proof.
    revert m. induction xs as [|x xs IH]; intros m Hok; cbn; [by intros [= <-]|].
    destruct (m !! x) as [nx|]; [|done]. apply IH. intros i n (n0&<-&Hn)%lookup_fmap_Some. apply lookup_delete_Some in Hn as [_ Hn].
    apply (node_redirects_ok E [(x, 0%N)]). by apply (Hok i).
  Qed.
End keeps_ok.

Section sym.
  Context {D : Type} (E : env) (T : Prop) (g : graph D) (t : trans D) (s : tspec D) (m' : gmap N (node D)).
  Context (Hh : history E T g t s) (HT : T) (Ha : asks g s m') (Hsy : map_symmetric E m').

  Lemma asks_gmap : sp_commit (ts_txn s) (gmap_of g) m'.
  Proof using Ha Hh.
    destruct Ha as (m&Hm&Hs). assert (m = gmap_of g) as <-; [|done].
    apply map_eq. intros i. by rewrite Hm, (history_nodes E T g t s Hh).
  Qed.
  Lemma asks_var i n n' : graph_get g i = Some n -> m' !! i = Some n' -> nvar n' = nvar n.
  Proof using Ha Hh HT.
    intros Hn Hn'. pose proof asks_gmap as Hsp. destruct (history_ok E T g t s Hh) as (Hwf&_&Ht&_).
    pose proof (trans_ok_true E T g t HT Ht) as Ht1.
    rewrite <- (history_txn E T g t s Hh) in Hsp.
    destruct (sp_commit_nvar E (trans_txn t) (gmap_of g) m' (to_mut _ _ _ _ Ht1) (to_upd _ _ _ _ Ht1)
      (ok_map_gmap E g Hwf) (ok_map_inc E T g t Ht) Hsp i n' Hn') as (n0&Hv&[H0|[_ H0]]).
    - assert (gmap_of g !! i = None) as Hg.
      { apply (history_new_fresh E T g t s i Hh). rewrite (history_own E T g t s Hh i). exists n0.
        revert H0. cbn. by rewrite (amap_get E) by apply Ht. }
      rewrite (history_nodes E T g t s Hh) in Hg. congruence.
    - rewrite (history_nodes E T g t s Hh) in H0. congruence.
  Qed.
  Lemma asks_ok : all_ok E m'.
  Proof using Ha Hh.
    pose proof asks_gmap as Hsp. destruct (history_ok E T g t s Hh) as (Hwf&_&Ht&_).
    rewrite <- (history_txn E T g t s Hh) in Hsp. destruct Hsp as (m1&m2&m3&m4&H1&H2&H3&H4&H5). cbn in *.
    eapply sp_removes_ok; [|done]. eapply sp_redirect_ok; [|done]. eapply (sp_updates_ok E T); [apply Ht| |done].
    eapply (sp_mutates_ok E T); [apply Ht| |done]. apply union_ok; [by apply (ok_map_inc E T g)|].
    eapply sp_redirect_ok; [|done]. by apply ok_map_gmap.
  Qed.

  Lemma sym_not_dropped a b k l na : m' !! a = Some na -> has_link na k b -> k ∈ e_opp E l -> is_Some (m' !! b) -> ~ dropped g m' b a l.
  Proof using Ha Hh HT Hsy.
    intros Hna Hl Hk [nb Hnb] [(nb0&Hnb0&Hl0) Hn]. apply Hn. exists nb. split; [done|].
    apply (Hsy b a nb na l k); [done|done|done| | |done].
    - rewrite (asks_var b nb0 nb) by done. symmetry. apply Hl0.
    - symmetry. apply Hl.
  Qed.
  Lemma sym_mirrored a b k : mirrored E g m' a b k <-> in_nodes m' a b k.
  Proof using Ha Hh HT Hsy.
    split.
    - intros [[? _]|(l&na&[(nb&Hnb&Hl) _]&Hna&Ho)]; [done|]. exists na. split; [done|].
      assert (k ∈ opposites_on E l (nvar na)) as Hk by (rewrite Ho; left). apply elem_of_list_filter in Hk as [Hv Hk].
      apply (Hsy b a nb na l k); [done|done|done| |done|done]. symmetry. apply Hl.
    - intros (na&Hna&Hl). left. split; [by exists na|]. intros (l&Hd&Hk&Hb). by apply (sym_not_dropped a b k l na) in Hd.
  Qed.
  Lemma sym_no_conflict : no_conflict E g m'.
  Proof using Ha Hh HT Hsy.
    intros x y l ny [(nx&Hnx&Hl) _] Hny.
    assert (forall k, k ∈ opposites_on E l (nvar ny) -> has_link ny k x) as Hopp.
    { intros k [Hv Hk]%elem_of_list_filter. apply (Hsy x y nx ny l k); [done|done|done| |done|done]. symmetry. apply Hl. }
    destruct (opposites_on E l (nvar ny)) as [|k [|k2 ks]] eqn:Ho; [done|..].
    - intros Hd z Hz. apply sym_mirrored in Hz as (ny'&Hny'&Hlz). assert (ny' = ny) as -> by congruence.
      destruct (Hopp k ltac:(left)) as (_&Hv&lv&Hlv&Hin). destruct Hlz as (_&_&lv2&Hlv2&Hin2). assert (lv2 = lv) as -> by congruence.
      destruct (asks_ok y ny Hny) as (kds&Hks&HF). destruct (Forall2_lookup_r _ _ _ _ _ HF Hlv) as (kd&Hkd&[Hko _]).
      unfold linkkind in Hd. rewrite <- Hv, Hks in Hd. cbn in Hd. assert (kd = KDirect) as -> by congruence.
      destruct lv; cbn in Hko; try done. cbn in Hin, Hin2. apply elem_of_list_singleton in Hin, Hin2. congruence.
    - exists k. split; [left|]. assert (has_link ny k x) as Hk by (apply Hopp; left). split; [by exists ny|].
      intros (l'&Hd&Hk'). by apply (sym_not_dropped y x k l' ny) in Hd.
  Qed.

  (** a node of the graph that is [n] up to the order inside bidirectional fields *)
  Lemma final_sym_exact g' : (forall l k, k ∈ e_opp E l -> nonvec E l) -> commit E t g = Done g' tt ->
    forall i, option_Forall2 (same_node E) (m' !! i) (graph_get g' i).
  Proof using Ha Hh HT Hsy.
    intros Hnv Hc i. destruct (final_links_exact E T g t s Hh g' Hnv Hc) as (m&n'&Hm&Hsp&Hho&Hl).
    assert (m = gmap_of g) as -> by (apply map_eq; intros j; rewrite Hm; symmetry; apply (history_nodes E T g t s Hh)).
    assert (n' = m') as -> by exact (sp_commit_det (ts_txn s) _ _ _ Hsp asks_gmap).
    specialize (Hho i). destruct (m' !! i) as [n|] eqn:Hn.
    - apply o2_r in Hho as (n1&Hn1&Hag). rewrite Hn1. constructor. split; [done|]. intros l y.
      assert (in_graph g' i y l <-> in_nodes m' i y l) as Hi by (rewrite Hl; apply sym_mirrored).
      unfold in_graph, in_nodes in Hi. rewrite Hn, Hn1 in Hi. naive_solver.
    - apply o2_none in Hho as ->. constructor.
  Qed.
  Lemma final_sym_succeeds m : bidi_fields E -> (forall v l, e_chk E v l = false -> nonvec E l) -> map_typed E m' ->
    nodes_are g m -> e_dbg E = false \/ ts_res s = ∅ -> sp_valid (ts_txn s) m -> exists g', commit E t g = Done g' tt.
  Proof using Ha Hh HT Hsy.
    intros Hbf Hck Hmt Hm Hres Hv. apply (final_succeeds_bidi E T g t s Hh m); try done. intros n' Hsp.
    assert (m = gmap_of g) as -> by (apply map_eq; intros j; rewrite Hm; symmetry; apply (history_nodes E T g t s Hh)).
    assert (n' = m') as -> by exact (sp_commit_det (ts_txn s) _ _ _ Hsp asks_gmap).
    split; [apply sym_no_conflict|]. intros x y l ny [(nx&Hnx&Hl) _] Hny. exact (Hmt x y nx ny l Hnx Hl Hny).
  Qed.
End sym.

(** ** Putting the old nodes back *)
Section restore.
  Context {D : Type} (E : env) (T : Prop) (g g1 : graph D) (t : trans D) (s : tspec D).
  Implicit Types (m : gmap N (node D)).
  (** [g] and [g1] have nodes of the same variants under the same indices *)
  Definition same_variants : Prop := forall i, nvar <$> graph_get g1 i = nvar <$> graph_get g i.
  (** nothing but updates that put nodes of [g] back, and at least those that differ *)
  Record restores : Prop := {
    rs_only : ts_txn s = Txn [] ∅ [] (ts_upd s) [] [];
    rs_old : forall i f, (i, f) ∈ ts_upd s -> exists n, graph_get g i = Some n /\ forall n0, nvar n0 = nvar n -> f n0 = Ok n;
    rs_all : forall i, i ∉ (ts_upd s).*1 -> graph_get g1 i = graph_get g i }.
  Context (Hh : history E T g1 t s) (Hrs : restores) (Hsv : same_variants).

  Lemma restore_updates us m : (forall i f, (i, f) ∈ us -> exists n, graph_get g i = Some n /\ forall n0, nvar n0 = nvar n -> f n0 = Ok n) ->
    (forall i, nvar <$> m !! i = nvar <$> graph_get g i) ->
    exists m', sp_updates us m = Some m' /\ (forall i, m' !! i = if decide (i ∈ us.*1) then graph_get g i else m !! i) /\
      ((forall i n, graph_get g i = Some n -> targets_in (fun y => is_Some (graph_get g y)) n) -> updates_known us m).
  Proof using.
    revert m. induction us as [|[i f] us IH]; intros m Hus Hdom.
    - exists m. split; [done|]. split; [|done]. intros i. by rewrite decide_False by apply not_elem_of_nil.
    - destruct (Hus i f ltac:(left)) as (n&Hn&Hf). pose proof (Hdom i) as Hi. rewrite Hn in Hi. cbn [sp_updates updates_known].
      destruct (m !! i) as [n0|] eqn:Hn0; [|done]. injection Hi as Hi. rewrite (Hf _ Hi).
      assert (forall j, nvar <$> <[i:=n]> m !! j = nvar <$> graph_get g j) as Hdom'.
      { intros j. destruct (decide (j = i)) as [->|Hne]; [by rewrite lookup_insert, Hn|by rewrite lookup_insert_ne]. }
      destruct (IH (<[i:=n]> m)) as (m'&Hm'&Hl&Hk); [|done|].
      + intros j h Hj. apply (Hus j h). by right.
      + exists m'. split; [done|]. split.
        * intros j. rewrite Hl. destruct (decide (j = i)) as [->|Hne].
          -- rewrite lookup_insert, Hn. rewrite (decide_True (P := i ∈ ((i, f) :: us).*1)) by (cbn; left). by case_decide.
          -- rewrite lookup_insert_ne by done. apply decide_ext. cbn. rewrite elem_of_cons. naive_solver.
        * intros Hcl n1 n' [= <-] Hfn. rewrite (Hf _ Hi) in Hfn. injection Hfn as <-. split; [|by apply Hk].
          destruct (Hcl i n Hn) as [H1 H2]. split; [|exact H2]. intros y Hy. specialize (Hdom y).
          destruct (H1 y Hy) as [ny Hny]. rewrite Hny in Hdom. destruct (m !! y); [by eexists|done].
  Qed.
  Lemma restore_asks m : nodes_are g m -> asks g1 s m.
  Proof using Hh Hrs Hsv.
    intros Hm. pose proof (history_nodes E T g1 t s Hh) as Hn. exists (gmap_of g1). split; [exact Hn|].
    rewrite (rs_only Hrs). unfold sp_commit. cbn. setoid_rewrite sp_redirect_nil.
    destruct (restore_updates (ts_upd s) (∅ ∪ gmap_of g1)) as (m'&Hu&Hl&_); [apply Hrs| |].
    { intros i. rewrite map_empty_union, Hn. apply Hsv. }
    assert (m' = m) as ->.
    { apply map_eq. intros i. rewrite Hl, Hm, map_empty_union, Hn. case_decide as Hi; [done|]. by apply Hrs. }
    exists (gmap_of g1), (∅ ∪ gmap_of g1), m, m. done.
  Qed.
  Lemma restore_valid : (forall i n, graph_get g i = Some n -> targets_in (fun y => is_Some (graph_get g y)) n) -> sp_valid (ts_txn s) (gmap_of g1).
  Proof using Hh Hrs Hsv.
    intros Hcl. pose proof (history_nodes E T g1 t s Hh) as Hn. rewrite (rs_only Hrs).
    split; [split; [exists ∅; constructor|intros o Ho; by apply elem_of_nil in Ho]|]. cbn.
    intros m1 ->%sp_redirect_nil. split; [done|]. eexists. split; [done|].
    destruct (restore_updates (ts_upd s) (∅ ∪ gmap_of g1)) as (m'&Hu&_&Hk); [apply Hrs| |].
    { intros i. rewrite map_empty_union, Hn. apply Hsv. }
    split; [by apply Hk|].
    exists m'. split; [done|]. split; [split; [exists ∅; constructor|intros o Ho; by apply elem_of_nil in Ho]|].
    intros m4 ->%sp_redirect_nil. by eexists.
  Qed.
  Lemma final_restore : T -> bidi_fields E -> (forall v l, e_chk E v l = false -> nonvec E l) -> WF E g ->
    bidi_symmetric E g -> links_typed E g -> (forall i n, graph_get g i = Some n -> targets_in (fun y => is_Some (graph_get g y)) n) ->
    e_dbg E = false \/ ts_res s = ∅ ->
    exists g', commit E t g1 = Done g' tt /\ forall i, option_Forall2 (same_node E) (graph_get g i) (graph_get g' i).
  Proof using Hh Hrs Hsv.
    intros HT Hbf Hck Hwf Hsym Htyp Hcl Hres.
    assert (forall i, gmap_of g !! i = graph_get g i) as Hn by (intros i; by apply (gmap_of_get E)).
    pose proof (restore_asks (gmap_of g) Hn) as Has.
    assert (map_symmetric E (gmap_of g)) as Hsy by (intros a b na nb l k; rewrite !Hn; apply Hsym).
    destruct (final_sym_succeeds E T g1 t s (gmap_of g) Hh HT Has Hsy (gmap_of g1)) as (g'&Hc); [done|done| |
      apply (history_nodes E T g1 t s Hh)|done|by apply restore_valid|].
    - intros x y nx ny l Hx Hl Hy. destruct (e_chk E (nvar ny) l) eqn:Hf; [done|]. rewrite <- Hf. rewrite Hn in Hx, Hy.
      apply (Htyp x y nx ny l Hx Hl (Hck _ _ Hf) Hy).
    - exists g'. split; [done|]. intros i. rewrite <- Hn.
      apply (final_sym_exact E T g1 t s (gmap_of g) Hh HT Has Hsy g'); [|done]. intros l k Hk. by eapply Hbf.
  Qed.
End restore.
