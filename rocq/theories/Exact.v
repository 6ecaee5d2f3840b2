(** * Commits with bidirectional links: the exact result, and when they succeed *)
From Verif Require Export Grouped.

Section maintenance.
  Context {D : Type} (E : env) (g : graph D) (m' : gmap N (node D)).
  (** [m'] is what the transaction asks for.  The links it adds to and drops from [g]: *)
  Definition added (x y : idx) (l : link) : Prop := in_nodes m' x y l /\ ~ in_graph g x y l.
  Definition dropped (x y : idx) (l : link) : Prop := in_graph g x y l /\ ~ in_nodes m' x y l.
  (** The links after the maintenance: what the transaction asks for, without the opposites
      of dropped links, and with the opposites of added links where there is only one
      possible opposite *)
  Definition mirrored (a b : idx) (k : link) : Prop :=
    (in_nodes m' a b k /\ ~ exists l, dropped b a l /\ k ∈ e_opp E l /\ is_Some (m' !! b)) \/
    exists l na, added b a l /\ m' !! a = Some na /\ opposites_on E l (nvar na) = [k].

  (** no added link leads to a conflict: either there is no opposite, or one that is a set
      or a direct link with no other claim on it, or there are several and one of them is
      already there *)
  Definition no_conflict : Prop :=
    forall x y l ny, added x y l -> m' !! y = Some ny ->
      match opposites_on E l (nvar ny) with
      | [] => True
      | [k] => linkkind E k = Some KDirect -> forall z, mirrored y z k -> z = x
      | ks => exists k, k ∈ ks /\ in_nodes m' y x k /\ ~ exists l', dropped x y l' /\ k ∈ e_opp E l'
      end.
  (** added links respect the link types *)
  Definition added_typed : Prop :=
    forall x y l ny, added x y l -> m' !! y = Some ny -> e_chk E (nvar ny) l = true.
End maintenance.

(** the links declared bidirectional exist and are no Vec links *)
Definition bidi_fields (E : env) : Prop :=
  forall l k, k ∈ e_opp E l -> nonvec E l /\ (linkkind E k = Some KDirect \/ exists sk, linkkind E k = Some (KSet sk)).

Section exact.
  Context {D : Type} (E : env) (T : Prop) (g : graph D) (t : trans D) (s : tspec D).
  Implicit Types (n : node D) (l k : link) (m : gmap N (node D)).

  Lemma opposites_match n l : match_bd n (e_opp E l) = opposites_on E l (nvar n).
  Proof. unfold match_bd, opposites_on. apply list_filter_iff. naive_solver. Qed.
  Lemma nonvec_opp n l k : (forall l k, k ∈ e_opp E l -> nonvec E l) -> opposites_on E l (nvar n) = [k] -> nonvec E l.
  Proof.
    intros H Ho. apply (H l k). assert (k ∈ opposites_on E l (nvar n)) as Hin by (rewrite Ho; left).
    by apply elem_of_list_filter in Hin as [_ ?].
  Qed.

  Section st.
    Context (c : N) (DD : idx -> Prop) (m' : gmap N (node D)) (g1 : graph D) (r : lcr).
    Context (Hst : ST E (glink g) c DD T m' g1 r).
    Lemma st_get x : graph_get g1 x = m' !! x.
    Proof using Hst. by rewrite (st_abs _ _ _ _ _ _ _ _ Hst). Qed.
    Lemma st_in x y l : glink g1 x y l <-> in_nodes m' x y l.
    Proof using Hst. unfold glink, in_nodes. by rewrite st_get. Qed.
    Lemma st_adds x y l : nonvec E l -> (x, y, l) ∈ lc_adds r <-> added g m' x y l.
    Proof using Hst.
      intros Hl. pose proof (st_lc _ _ _ _ _ _ _ _ Hst) as Hlc. unfold added. rewrite <- st_in. split.
      - intros Hin. apply (lc_a _ _ _ _ Hlc); [|done..]. by eapply (lc_nz_a _ _ _ _ Hlc).
      - intros [H1 H2]. apply (lc_a _ _ _ _ Hlc); [|done..]. by eapply glink_nz.
    Qed.
    Lemma st_rems x y l : nonvec E l -> (x, y, l) ∈ lc_rems r <-> dropped g m' x y l.
    Proof using Hst.
      intros Hl. pose proof (st_lc _ _ _ _ _ _ _ _ Hst) as Hlc. unfold dropped. rewrite <- st_in. split.
      - intros Hin. apply (lc_r _ _ _ _ Hlc); [|done..]. by eapply (lc_nz_r _ _ _ _ Hlc).
      - intros [H1 H2]. apply (lc_r _ _ _ _ Hlc); [|done..]. by eapply glink_nz.
    Qed.
    Lemma bidi_links_mirrored a b k : (forall l k, k ∈ e_opp E l -> nonvec E l) ->
      bidi_links E (lc_rems r) (lc_adds r) g1 a b k <-> mirrored E g m' a b k.
    Proof using Hst.
      intros Hnv. unfold bidi_links, mirrored, sole_opp. rewrite st_in, !st_get.
      assert ((exists l, (b, a, l) ∈ lc_rems r /\ k ∈ e_opp E l /\ is_Some (m' !! b)) <->
              (exists l, dropped g m' b a l /\ k ∈ e_opp E l /\ is_Some (m' !! b))) as ->.
      { split; intros (l&Hl&Hk&Hb); exists l; (split; [|done]); by apply st_rems; [by eapply Hnv|]. }
      assert ((exists l, (b, a, l) ∈ lc_adds r /\ is_Some (m' !! b) /\ exists na, m' !! a = Some na /\ match_bd na (e_opp E l) = [k]) <->
              (exists l na, added g m' b a l /\ m' !! a = Some na /\ opposites_on E l (nvar na) = [k])) as ->; [|done].
      split.
      - intros (l&Hl&Hb&na&Ha&Hm). rewrite opposites_match in Hm. exists l, na. split; [|done].
        apply st_adds; [by eapply nonvec_opp|done].
      - intros (l&na&Hl&Ha&Hm). exists l. split; [apply st_adds; [by eapply nonvec_opp|done]|].
        split; [destruct Hl as [(nb&?&_) _]; eauto|]. exists na. by rewrite opposites_match.
    Qed.
  End st.

  Context (Hh : history E T g t s).

  (** C53 *)
  Lemma final_links_exact g' : (forall l k, k ∈ e_opp E l -> nonvec E l) -> commit E t g = Done g' tt ->
    exists m m', nodes_are g m /\ sp_commit (ts_txn s) m m' /\ holds_nonbidi E g' m' /\
      forall a b k, in_graph g' a b k <-> mirrored E g m' a b k.
  Proof using Hh.
    intros Hnv Hc. destruct (history_ok E T g t s Hh) as (Hwf&Hty&Ht&_).
    destruct (commit_done E T g t Hwf Hty Ht g' Hc) as (_&g1&r&m1&Hcm&_).
    pose proof (cm_spec _ _ _ _ _ _ _ _ Hcm) as Hsp. rewrite (history_txn E T g t s Hh) in Hsp.
    exists (gmap_of g), m1. split; [exact (history_nodes E T g t s Hh)|]. split; [done|]. split; [by eapply committed_holds|].
    intros a b k. rewrite <- (bidi_links_mirrored _ _ _ _ _ (cm_st _ _ _ _ _ _ _ _ Hcm) a b k Hnv).
    apply (cm_links _ _ _ _ _ _ _ _ Hcm).
  Qed.

  (** the maintenance does not panic without a conflict *)
  Lemma no_conflict_maintained g1 r m1 p : bidi_fields E -> ST E (glink g) (g_ctx g) (disp_bound g t) T m1 g1 r ->
    no_conflict E g m1 -> ~ bidi_panics E (lc_rems r) (lc_adds r) g1 p.
  Proof.
    intros Hbf Hst Hnc Hb. assert (forall l k, k ∈ e_opp E l -> nonvec E l) as Hnv by (intros l k Hk; by eapply Hbf).
    destruct Hb as [(x&y&l&k&_&Hk&Hbad)|(x&y&l&ny&Hin&Hy&Hx&Hcase)].
    { destruct (Hbf _ _ Hk) as [_ Hkind]. unfold badkind in Hbad. naive_solver congruence. }
    rewrite (st_get _ _ _ _ _ Hst) in Hy. rewrite opposites_match in Hcase.
    assert (nonvec E l) as Hl.
    { assert (exists k, k ∈ opposites_on E l (nvar ny)) as (k&Hk).
      - destruct Hcase as [(_&Hlen&_)|(k&Hk&_)].
        + destruct (opposites_on E l (nvar ny)) as [|k ks]; [cbn in Hlen; lia|]. exists k. left.
        + exists k. rewrite Hk. left.
      - apply elem_of_list_filter in Hk as [_ Hk]. by eapply Hnv. }
    apply (st_adds _ _ _ _ _ Hst) in Hin; [|done]. pose proof (Hnc x y l ny Hin Hy) as Hn.
    destruct Hcase as [(_&Hlen&Hno)|(k&Hk&Hcase)].
    - destruct (opposites_on E l (nvar ny)) as [|k1 [|k2 ks]]; [cbn in Hlen; lia..|].
      destruct Hn as (k&Hk&HK&Hnd). apply (Hno k Hk). split; [by apply (st_in _ _ _ _ _ Hst)|].
      intros (l'&Hl'&Hk'). apply Hnd. exists l'. split; [|done]. apply (st_rems _ _ _ _ _ Hst); [by eapply Hnv|done].
    - rewrite Hk in Hn. assert (k ∈ opposites_on E l (nvar ny)) as Hko by (rewrite Hk; left).
      apply elem_of_list_filter in Hko as [_ Hko]. destruct Hcase as [Hbad|(_&Hd&z&Hz&Hbl)].
      + destruct (Hbf _ _ Hko) as [_ Hkind]. unfold badkind in Hbad. naive_solver congruence.
      + apply Hz. apply Hn; [done|]. by apply (bidi_links_mirrored _ _ _ _ _ Hst y z k Hnv).
  Qed.
  (** nor does the check of the link types *)
  Lemma added_typed_checked g1 r m1 g' x y l ny : (forall v l, e_chk E v l = false -> nonvec E l) -> committed E T g t g1 r m1 g' ->
    added_typed E g m1 -> (x, y, l) ∈ lc_adds r -> graph_get g' y = Some ny -> e_chk E (nvar ny) l <> false.
  Proof.
    intros Hck Hcm Hat Hin Hy Hf. pose proof (cm_st _ _ _ _ _ _ _ _ Hcm) as Hst.
    apply (st_adds _ _ _ _ _ Hst) in Hin; [|by eapply Hck].
    assert (exists ny1, graph_get g1 y = Some ny1 /\ nvar ny1 = nvar ny) as (ny1&Hy1&Hvy).
    { destruct (graph_get g1 y) as [n1|] eqn:H1.
      - exists n1. split; [done|]. symmetry. eapply (bframe_nvar _ _ _ _ _ _ (cm_frame _ _ _ _ _ _ _ _ Hcm)); done.
      - apply (bfr_none _ _ _ (cm_frame _ _ _ _ _ _ _ _ Hcm)) in H1. congruence. }
    rewrite (st_get _ _ _ _ _ Hst) in Hy1. pose proof (Hat x y l ny1 Hin Hy1). congruence.
  Qed.
  (** a commit that succeeds had no conflict, if no variant has two opposites of one link *)
  Lemma done_clean g1 r m' g' : bidi_fields E -> (forall v l, e_chk E v l = false -> nonvec E l) ->
    (forall l v, length (opposites_on E l v) <= 1) -> committed E T g t g1 r m' g' ->
    (forall x y l ny, (x, y, l) ∈ lc_adds r -> graph_get g' y = Some ny -> e_chk E (nvar ny) l = true) ->
    no_conflict E g m' /\ added_typed E g m'.
  Proof.
    intros Hbf Hck Hone Hcm Hchk. assert (forall l k, k ∈ e_opp E l -> nonvec E l) as Hnv by (intros l k Hk; by eapply Hbf).
    pose proof (cm_st _ _ _ _ _ _ _ _ Hcm) as Hst. split.
    - intros x y l ny Ha Hy. specialize (Hone l (nvar ny)).
      destruct (opposites_on E l (nvar ny)) as [|k [|k2 ks]] eqn:Hopp; [done| |cbn in Hone; lia].
      intros Hd z Hz. 
      assert (glink g' y z k) as (n1&Hg1&Hl1) by (apply (cm_links _ _ _ _ _ _ _ _ Hcm); by apply (bidi_links_mirrored _ _ _ _ _ Hst y z k Hnv)).
      assert (glink g' y x k) as (n2&Hg2&Hl2).
      { apply (cm_links _ _ _ _ _ _ _ _ Hcm). apply (bidi_links_mirrored _ _ _ _ _ Hst y x k Hnv). right. exists l, ny. done. }
      assert (n2 = n1) as -> by congruence. destruct (wf_nodes _ _ (cm_wf _ _ _ _ _ _ _ _ Hcm) y n1 Hg1) as (ks&Hks&HF).
      destruct Hl1 as (_&Hv1&lv&Hlv&Hin1), Hl2 as (_&_&lv2&Hlv2&Hin2). assert (lv2 = lv) as -> by congruence.
      destruct (Forall2_lookup_r _ _ _ _ _ HF Hlv) as (kd&Hkd&[Hko _]).
      unfold linkkind in Hd. rewrite <- Hv1, Hks in Hd. cbn in Hd. assert (kd = KDirect) as -> by congruence.
      destruct lv; cbn in Hko; try done. cbn in Hin1, Hin2. apply elem_of_list_singleton in Hin1, Hin2. congruence.
    - intros x y l ny Ha Hy. destruct (e_chk E (nvar ny) l) eqn:Hf; [done|]. exfalso.
      assert ((x, y, l) ∈ lc_adds r) as Hin by (apply (st_adds _ _ _ _ _ Hst); [by eapply Hck|done]).
      rewrite <- (st_get _ _ _ _ _ Hst) in Hy. destruct (bfr_some _ _ _ (cm_frame _ _ _ _ _ _ _ _ Hcm) y ny Hy) as (ny'&Hy'&Hvy&_).
      pose proof (Hchk x y l ny' Hin Hy'). congruence.
  Qed.

  (** C41 with bidirectional links and link types *)
  Lemma final_succeeds_bidi m : bidi_fields E -> (forall v l, e_chk E v l = false -> nonvec E l) ->
    nodes_are g m -> e_dbg E = false \/ ts_res s = ∅ -> sp_valid (ts_txn s) m ->
    (forall m', sp_commit (ts_txn s) m m' -> no_conflict E g m' /\ added_typed E g m') ->
    exists g', commit E t g = Done g' tt.
  Proof using Hh.
    intros Hbf Hck Hm Hres Hv Hok. destruct (history_ok E T g t s Hh) as (Hwf&Hty&Ht&_).
    assert (m = gmap_of g) as ->. { apply map_eq. intros i. by rewrite Hm, (history_nodes E T g t s Hh). }
    rewrite <- (history_txn E T g t s Hh) in Hv, Hok.
    pose proof (commit_spec E T g t Hwf Hty Ht) as Hs.
    destruct (commit E t g) as [g' []|p g'] eqn:Hc; [by exists g'|exfalso].
    destruct Hs as [[Hg'|_ Hnv'|g1 r m1 _ Hsp Hst Hb]|(_&g1&r&m1&Hcm&x&y&l&ny&Hin&Hy&Hf)]; [|done|..].
    - apply (final_guard E T g t s Hh) in Hg' as [Hd ?]. destruct Hres as [Hd'|?]; [congruence|done].
    - by eapply no_conflict_maintained, Hb; [done|done|apply Hok].
    - by eapply (added_typed_checked g1 r m1 g' x y l ny); [done|done|apply Hok, Hcm|..].
  Qed.

  (** the conditions of [final_succeeds_bidi] are also necessary if no variant has two
      opposites of one link *)
  Lemma final_success_exact m : bidi_fields E -> (forall v l, e_chk E v l = false -> nonvec E l) ->
    (forall l v, length (opposites_on E l v) <= 1) ->
    nodes_are g m -> e_dbg E = false \/ ts_res s = ∅ -> sp_valid (ts_txn s) m ->
    (exists g', commit E t g = Done g' tt) <->
    (forall m', sp_commit (ts_txn s) m m' -> no_conflict E g m' /\ added_typed E g m').
  Proof using Hh.
    intros Hbf Hck Hone Hm Hres Hv. split; [|by apply final_succeeds_bidi].
    intros (g'&Hc) m' Hsp. destruct (history_ok E T g t s Hh) as (Hwf&Hty&Ht&_).
    assert (m = gmap_of g) as ->. { apply map_eq. intros i. by rewrite Hm, (history_nodes E T g t s Hh). }
    destruct (commit_done E T g t Hwf Hty Ht g' Hc) as (_&g1&r&m1&Hcm&_&Hchk).
    pose proof (cm_spec _ _ _ _ _ _ _ _ Hcm) as Hsp1. rewrite (history_txn E T g t s Hh) in Hsp1.
    assert (m1 = m') as -> by exact (sp_commit_det (ts_txn s) _ _ _ Hsp1 Hsp).
    by eapply done_clean.
  Qed.
End exact.

(** two nodes with the same variant and data, the same values in the fields not declared
    bidirectional and the same links *)
Definition same_node {D} (E : env) (n n' : node D) : Prop :=
  agree_nonbidi E n n' /\ forall l y, has_link n l y <-> has_link n' l y.

(** C54 *)
Lemma final_deterministic {D} (E1 E2 : env) (T1 T2 : Prop) (g1 g2 : graph D) t1 t2 s1 s2 g1' g2' :
  (forall l, e_opp E1 l = e_opp E2 l) -> (forall l k, k ∈ e_opp E1 l -> nonvec E1 l /\ nonvec E2 l) ->
  history E1 T1 g1 t1 s1 -> history E2 T2 g2 t2 s2 -> ts_txn s1 = ts_txn s2 ->
  (forall i, graph_get g1 i = graph_get g2 i) -> commit E1 t1 g1 = Done g1' tt -> commit E2 t2 g2 = Done g2' tt ->
  forall i, option_Forall2 (same_node E1) (graph_get g1' i) (graph_get g2' i).
Proof.
  intros Ho Hnv H1 H2 Htx Heq Hc1 Hc2 i.
  destruct (final_links_exact E1 T1 g1 t1 s1 H1 g1') as (m&m'&Hm&Hsp&Hh1&Hl1); [intros l k Hk; by eapply Hnv|done|].
  destruct (final_links_exact E2 T2 g2 t2 s2 H2 g2') as (k&k'&Hk&Hsp'&Hh2&Hl2); [intros l k' Hk'; eapply Hnv; by rewrite Ho|done|].
  assert (k = m) as -> by (apply map_eq; intros j; by rewrite Hk, Hm, Heq). rewrite <- Htx in Hsp'.
  assert (k' = m') as -> by exact (sp_commit_det (ts_txn s1) _ _ _ Hsp' Hsp).
  assert (forall a b l, in_graph g1' a b l <-> in_graph g2' a b l) as Hin.
  { intros a b l. rewrite Hl1, Hl2. unfold mirrored, dropped, added, in_graph, opposites_on.
    setoid_rewrite Heq. by setoid_rewrite Ho. }
  specialize (Hh1 i). specialize (Hh2 i). destruct (m' !! i) as [n|].
  - inversion Hh1 as [? n1 (Hv1&Hd1&Hf1) Heq0 Heq1|]; subst. inversion Hh2 as [? n2 (Hv2&Hd2&Hf2) Heq2 Heq3|]; subst.
    constructor. split.
    + split; [congruence|]. split; [congruence|]. intros f Hf. rewrite Hv1 in Hf. rewrite Hf1, Hf2; [done| |done].
      intros [l Hl]. apply Hf. exists l. by rewrite Ho.
    + intros l y. specialize (Hin i y l). unfold in_graph in Hin. rewrite <- Heq1, <- Heq3 in Hin.
      split; intros Hl; [destruct (proj1 Hin) as (?&[= <-]&?)|destruct (proj2 Hin) as (?&[= <-]&?)]; eauto.
  - inversion Hh1; subst. inversion Hh2; subst. constructor.
Qed.

(** the transaction without its redirect_all_links and remove calls, which come last *)
Definition before_redirect_all {D} (tx : txn D) : txn D :=
  Txn (x_redir tx) (x_new tx) (x_mut tx) (x_upd tx) [] [].

Section loop_all.
  Context {D : Type} (E : env) (T : Prop) (g : graph D) (t : trans D) (s : tspec D).

  (** C10 *)
  Lemma final_loop_all_panics m : history E T g t s -> e_dbg E = false \/ ts_res s = ∅ ->
    nodes_are g m -> sp_valid (before_redirect_all (ts_txn s)) m ->
    redir_bad (ts_redir_all s) -> exists g', commit E t g = Panicked PLoop g'.
  Proof using.
    intros Hh Hres Hm Hv Hl. destruct (history_ok E T g t s Hh) as (Hwf&Hty&Ht&_&Hr&_).
    assert (m = gmap_of g) as ->. { apply map_eq. intros i. by rewrite Hm, (history_nodes E T g t s Hh). }
    rewrite <- (tr_redir_all _ _ _ Hr) in Hl. rewrite <- (history_txn E T g t s Hh) in Hv.
    assert (~ guard_fails E g t) as Hg.
    { rewrite (final_guard E T g t s Hh). intros [Hd ?]. destruct Hres; congruence. }
    set (t0 := with_dec (with_redir_all t []) []).
    assert (trans_ok E T g t0) as Ht0.
    { destruct Ht. split; try done. cbn. by intros o ?%elem_of_nil. }
    pose proof (commit_body_wp E T g t0 (gmap_of g) Hwf (gmap_of_abs E g Hwf) Hty Ht0) as Hwp.
    apply fa_build_err in Hl as [p0 Hl]. pose proof (fa_build_spec (t_redir_all t)) as Hs. rewrite Hl in Hs. destruct Hs as [-> _].
    unfold commit. unfold bindM at 1. rewrite (do_commit_unfold E g t Hg).
    unfold wp in Hwp. destruct (commit_body E t0 (g, lcr_new)) as [[g1 r1] []|p [g1 r1]] eqn:Hb; [|by destruct Hwp].
    assert (exists s1, commit_body E t (g, lcr_new) = Panicked PLoop s1) as [[g2 r2] Hb'].
    { unfold commit_body, t0, bindM in *. cbn [t_redir t_inc t_mut t_upd t_redir_all t_dec with_dec with_redir_all] in Hb.
      destruct (redirect_links_vec (t_redir t) (g, lcr_new)) as [s1 []|]; [|done].
      destruct (merge_nodes E (t_inc t) s1) as [s2 []|]; [|done].
      destruct (mfor (t_mut t) _ s2) as [s3 []|]; [|done].
      destruct (mfor (t_upd t) _ s3) as [s4 []|]; [|done].
      exists s4. unfold redirect_links_vec, bindM. rewrite Hl. done. }
    unfold bindM. rewrite Hb'. by exists g2.
  Qed.
End loop_all.

(** environments that differ only in the iteration order of HashSets and the build profile *)
Definition same_schema (E1 E2 : env) : Prop :=
  e_kinds E1 = e_kinds E2 /\ (forall l, e_opp E1 l = e_opp E2 l) /\ forall v l, e_chk E1 v l = e_chk E2 v l.

(** C52, C54: whether a valid transaction succeeds does not depend on the order either *)
Lemma final_same_success {D} (E1 E2 : env) (T1 T2 : Prop) (g1 g2 : graph D) t1 t2 s1 s2 m :
  same_schema E1 E2 -> bidi_fields E1 -> (forall v l, e_chk E1 v l = false -> nonvec E1 l) ->
  (forall l v, length (opposites_on E1 l v) <= 1) ->
  history E1 T1 g1 t1 s1 -> history E2 T2 g2 t2 s2 -> ts_txn s1 = ts_txn s2 ->
  e_dbg E1 = false \/ ts_res s1 = ∅ -> e_dbg E2 = false \/ ts_res s2 = ∅ ->
  nodes_are g1 m -> nodes_are g2 m -> sp_valid (ts_txn s1) m ->
  (exists g1', commit E1 t1 g1 = Done g1' tt) <-> (exists g2', commit E2 t2 g2 = Done g2' tt).
Proof.
  intros (Hk&Ho&Hc) Hbf Hck Hone H1 H2 Htx Hr1 Hr2 Hm1 Hm2 Hv.
  assert (forall l, linkkind E1 l = linkkind E2 l) as Hlk by (intros l; unfold linkkind; by rewrite Hk).
  assert (forall l, nonvec E1 l <-> nonvec E2 l) as Hnv by (intros l; unfold nonvec; by rewrite Hk).
  assert (forall l v, opposites_on E1 l v = opposites_on E2 l v) as Hop by (intros l v; unfold opposites_on; by rewrite Ho).
  assert (bidi_fields E2) as Hbf2.
  { intros l k Hin. rewrite <- Ho in Hin. rewrite <- Hnv, <- Hlk. by apply Hbf. }
  assert (forall v l, e_chk E2 v l = false -> nonvec E2 l) as Hck2.
  { intros v l Hf. rewrite <- Hc in Hf. rewrite <- Hnv. by eapply Hck. }
  rewrite (final_success_exact E1 T1 g1 t1 s1 H1 m Hbf Hck Hone Hm1 Hr1 Hv).
  rewrite (final_success_exact E2 T2 g2 t2 s2 H2 m); try done; [|by setoid_rewrite <- Hop|by rewrite <- Htx].
  rewrite <- Htx.
  assert (forall x y l, in_graph g1 x y l <-> in_graph g2 x y l) as Hin.
  { intros x y l. unfold in_graph. by rewrite <- Hm1, <- Hm2. }
  assert (forall m' x y l, added g1 m' x y l <-> added g2 m' x y l) as Hadd by (intros m' x y l; unfold added; by rewrite Hin).
  assert (forall m' x y l, dropped g1 m' x y l <-> dropped g2 m' x y l) as Hdr by (intros m' x y l; unfold dropped; by rewrite Hin).
  assert (forall m' x y l, mirrored E1 g1 m' x y l <-> mirrored E2 g2 m' x y l) as Hmi.
  { intros m' x y l. unfold mirrored. setoid_rewrite Hadd. setoid_rewrite Hdr. setoid_rewrite Hop. by setoid_rewrite Ho. }
  assert (forall m', no_conflict E1 g1 m' <-> no_conflict E2 g2 m') as Hnc.
  { intros m'. unfold no_conflict. split; intros H x y l ny Ha Hy.
    - apply Hadd in Ha. specialize (H x y l ny Ha Hy). rewrite <- Hop.
      destruct (opposites_on E1 l (nvar ny)) as [|k [|k2 ks]]; [done| |].
      + intros Hd z Hz. apply H; [by rewrite Hlk|by apply Hmi].
      + destruct H as (k'&Hk'&Hx&Hno). exists k'. split; [done|]. split; [done|]. intros (l'&Hl'&Hkl). apply Hno.
        exists l'. split; [by apply Hdr|by rewrite Ho].
    - apply Hadd in Ha. specialize (H x y l ny Ha Hy). rewrite Hop.
      destruct (opposites_on E2 l (nvar ny)) as [|k [|k2 ks]]; [done| |].
      + intros Hd z Hz. apply H; [by rewrite <- Hlk|by apply Hmi].
      + destruct H as (k'&Hk'&Hx&Hno). exists k'. split; [done|]. split; [done|]. intros (l'&Hl'&Hkl). apply Hno.
        exists l'. split; [by apply Hdr|by rewrite <- Ho]. }
  assert (forall m', added_typed E1 g1 m' <-> added_typed E2 g2 m') as Hat.
  { intros m'. unfold added_typed. by setoid_rewrite Hadd; setoid_rewrite Hc. }
  by setoid_rewrite Hnc; setoid_rewrite Hat.
Qed.
