(** * The abstract machine with bidirectional links

    The machine of [Machine.v] for schemas with bidirectional declarations: a commit carries
    out what the transaction asks for and then chooses any nodes with the links that the
    bidirectional declarations prescribe.  What is left open is the order inside sets. *)
From stdpp Require Export gmap.
From Verif Require Export Machine SameSucc.

Section machine.
  Context {D : Type} (E : env) (T : Prop).
  Implicit Types (m : gmap N (node D)) (n : node D) (L : list (idx * node D)).

  (** links that a commit adds to and drops from the nodes [m], if it asks for [m'] *)
  Definition m_added m m' (x y : idx) (l : link) : Prop := in_nodes m' x y l /\ ~ in_nodes m x y l.
  Definition m_dropped m m' (x y : idx) (l : link) : Prop := in_nodes m x y l /\ ~ in_nodes m' x y l.
  (** the links after the maintenance *)
  Definition m_mirrored m m' (a b : idx) (k : link) : Prop :=
    (in_nodes m' a b k /\ ~ exists l, m_dropped m m' b a l /\ k ∈ e_opp E l /\ is_Some (m' !! b)) \/
    exists l na, m_added m m' b a l /\ m' !! a = Some na /\ opposites_on E l (nvar na) = [k].
  (** no direct link gets two opposites *)
  Definition m_unclaimed m m' : Prop :=
    forall x y l ny k, m_added m m' x y l -> m' !! y = Some ny -> opposites_on E l (nvar ny) = [k] -> linkkind E k = Some KDirect ->
      forall z, m_mirrored m m' y z k -> z = x.

  (** the maintenance keeps variant, data and the fields that no declaration names, and it
      neither adds nor removes the empty index in sets *)
  Definition kept n n' : Prop :=
    node_ok E n' /\ agree_nonbidi E n n' /\ forall s, src_val n' s 0%N <-> src_val n s 0%N.
  Record maintained m m' (R : idx -> idx -> link -> Prop) : Prop := {
    mt_nodes : forall i, option_Forall2 kept (m !! i) (m' !! i);
    mt_links : forall a b k, in_nodes m' a b k <-> R a b k }.

  Inductive bstep (a : aworld (D:=D)) : op (D:=D) -> aworld (D:=D) -> Prop :=
  | bs_other o a' : no_maintenance o -> astep E T a o a' -> bstep a o a'
  | bs_commit kg k c s A m' m2 : aw_trans a !! k = Some (c, s) -> aw_graphs a !! kg = Some (c, A) ->
      ts_res s = ∅ -> commit_listed (ts_txn s) (ag_nodes A) (ag_known A) ->
      sp_commit (ts_txn s) (ag_nodes A) m' -> new_links_typed E (ag_nodes A) m' -> m_unclaimed (ag_nodes A) m' ->
      maintained m' m2 (m_mirrored (ag_nodes A) m') ->
      bstep a (OCommit kg k)
        (AW (aw_ctx a) (<[kg := (c, AG m2 (l_commit (ts_txn s) (ag_known A)))]> (aw_graphs a)) (delete k (aw_trans a)))
  | bs_deser kg s m2 : (forall i n, (i, n) ∈ gs_nodes s -> node_ok E n /\ (0 < i < usize_mod)%N) -> NoDup (gs_nodes s).*1 ->
      unclaimed E (gs_nodes s) -> maintained (list_to_map (gs_nodes s)) m2 (completed E (gs_nodes s)) ->
      bstep a (ODeser kg s)
        (AW (aw_ctx a ++ [(gs_ctx s, fold_left N.max ((gs_nodes s).*1) 0%N)])
           (<[kg := (length (aw_ctx a), AG m2 (known_in (gs_nodes s)))]> (aw_graphs a)) (aw_trans a)).

  Inductive bruns : list (op (D:=D)) -> aworld (D:=D) -> Prop :=
  | bruns_nil : bruns [] aw_new
  | bruns_snoc os a o a' : bruns os a -> bstep a o a' -> bruns (os ++ [o]) a'.

  Lemma bstep_plain a o a' : bstep a o a' -> plain_op o.
  Proof. destruct 1 as [o a' Hn _| |]; [|done..]. by destruct o. Qed.

  Context (Hdb : e_dbg E = true) (Hbf : bidi_fields E) (Hone : forall l v, length (opposites_on E l v) <= 1)
    (Hck : forall v l, e_chk E v l = false -> nonvec E l).
  Local Lemma Hnv : forall l k, k ∈ e_opp E l -> nonvec E l.
  Proof using Hbf. intros l k Hk. by eapply Hbf. Qed.

  (** ** The notions about graphs and those about maps *)
  Section maps.
    Context (g : graph D) (m : gmap N (node D)) (Hm : nodes_are g m).
    Lemma in_graph_iff x y l : in_graph g x y l <-> in_nodes m x y l.
    Proof using Hm. unfold in_graph, in_nodes. by setoid_rewrite Hm. Qed.
    Lemma mirrored_iff m' a b k : mirrored E g m' a b k <-> m_mirrored m m' a b k.
    Proof using Hm. unfold mirrored, m_mirrored, added, dropped, m_added, m_dropped. by setoid_rewrite in_graph_iff. Qed.
    Lemma conflict_iff m' : no_conflict E g m' <-> m_unclaimed m m'.
    Proof using Hm Hone.
      assert (forall x y l, added g m' x y l <-> m_added m m' x y l) as Ha by (intros; unfold added, m_added; by rewrite in_graph_iff).
      split.
      - intros H x y l ny k Hx Hy Hop Hd z Hz. specialize (H x y l ny (proj2 (Ha _ _ _) Hx) Hy). rewrite Hop in H. apply H; [done|]. by apply mirrored_iff.
      - intros H x y l ny Hx Hy. pose proof (Hone l (nvar ny)) as H1. destruct (opposites_on E l (nvar ny)) as [|k [|k2 ks]] eqn:Hop; [done| |cbn in H1; lia].
        intros Hd z Hz. eapply H; [by apply Ha|done|done|done|]. by apply mirrored_iff.
    Qed.
  End maps.

  Lemma commit_kept (g : graph D) t s g' : history E T g t s -> commit E t g = Done g' tt ->
    exists m', sp_commit (ts_txn s) (gmap_of g) m' /\ maintained m' (gmap_of g') (m_mirrored (gmap_of g) m').
  Proof using Hbf.
    intros Hh Hc. destruct (history_ok E T g t s Hh) as (Hwf&Hty&Ht&_).
    destruct (commit_done E T g t Hwf Hty Ht g' Hc) as (_&g1&r&m1&Hcm&_).
    pose proof (cm_spec _ _ _ _ _ _ _ _ Hcm) as Hsp. rewrite (history_txn E T g t s Hh) in Hsp.
    exists m1. split; [done|]. pose proof (cm_wf _ _ _ _ _ _ _ _ Hcm) as Hwf'. pose proof (cm_st _ _ _ _ _ _ _ _ Hcm) as Hst.
    assert (nodes_are g' (gmap_of g')) as Hn'. { intros i. by rewrite (gmap_of_get E). }
    split.
    - intros i. pose proof (committed_holds _ _ _ _ _ _ _ _ Hcm i) as H1. rewrite (gmap_of_get E) by done.
      rewrite <- (st_get _ _ _ _ _ _ _ _ Hst) in H1 |- *.
      destruct (graph_get g1 i) as [a|] eqn:Ea.
      + apply o2_r in H1 as (n&En&Hag). rewrite En. constructor. split; [by apply (wf_nodes _ _ Hwf' i)|]. split; [done|].
        intros s0. by apply (bfr_zero _ _ _ (cm_frame _ _ _ _ _ _ _ _ Hcm) i).
      + apply o2_none in H1. rewrite H1. constructor.
    - intros a b k. rewrite <- (in_graph_iff g' _ Hn'), <- (mirrored_iff g _ (history_nodes E T g t s Hh)).
      rewrite <- (bidi_links_mirrored E T g _ _ _ _ _ Hst a b k Hnv). apply (cm_links _ _ _ _ _ _ _ _ Hcm).
  Qed.
  Lemma commit_iff' (g : graph D) t s B : history E T g t s -> known E T g B ->
    (exists g', commit E t g = Done g' tt) <->
    ts_res s = ∅ /\ commit_listed (ts_txn s) (gmap_of g) B /\
    forall m', sp_commit (ts_txn s) (gmap_of g) m' -> new_links_typed E (gmap_of g) m' /\ m_unclaimed (gmap_of g) m'.
  Proof using Hdb Hbf Hck Hone.
    intros Hh HB. pose proof (history_nodes E T g t s Hh) as Hm. rewrite (known_commit_iff E T g t s (gmap_of g) B Hh Hbf Hck Hone Hm HB), Hdb. split.
    - intros (H1&H2&H3). split; [by destruct H1|]. split; [done|]. intros m' Hsp. destruct (H3 m' Hsp) as [H4 H5].
      split; [by apply (typed_iff E g)|by apply (conflict_iff g)].
    - intros (H1&H2&H3). split; [by right|]. split; [done|]. intros m' Hsp. destruct (H3 m' Hsp) as [H4 H5].
      split; [by apply (conflict_iff g (gmap_of g))|by apply (typed_iff E g (gmap_of g))].
  Qed.

  Lemma deser_kept (s : gserial D) cnt g : (forall i n, (i, n) ∈ gs_nodes s -> node_ok E n /\ (0 < i < usize_mod)%N) ->
    deserialize_graph E s = Ok (cnt, g) ->
    cnt = fold_left N.max ((gs_nodes s).*1) 0%N /\ NoDup (gs_nodes s).*1 /\ unclaimed E (gs_nodes s) /\
    maintained (list_to_map (gs_nodes s)) (gmap_of g) (completed E (gs_nodes s)) /\ known E T g (known_in (gs_nodes s)).
  Proof using Hbf Hone.
    intros Hok Hd. assert (forall i n, (i, n) ∈ gs_nodes s -> node_ok E n /\ i <> 0%N) as Hok'.
    { intros i n Hin. destruct (Hok i n Hin). split; [done|lia]. }
    split. { unfold deserialize_graph in Hd. destruct (do_deserialize E (gs_ctx s) (gs_nodes s)); [|done]. by injection Hd as <- _. }
    destruct (proj1 (final_deser_success E s Hbf Hok' Hone)) as [Hnd Hun]; [eauto|].
    split; [done|]. split; [done|]. split; [|by eapply kn_deser].
    destruct (deser_ok E s cnt g Hok' Hd) as (_&a&g1&r&Hfi&[Hmg Hwf Hfr Hln _]).
    assert (nodes_are g (gmap_of g)) as Hn. { intros i. by rewrite (gmap_of_get E). }
    split.
    - intros i. assert (list_to_map (gs_nodes s) !! i = graph_get g1 i) as ->.
      { apply option_eq. intros n. rewrite (mg_entry E _ _ _ _ _ Hmg Hfi Hnd). by rewrite elem_of_list_to_map. }
      assert (forall i, option_Forall2 (agree_nonbidi E) (graph_get g1 i) (graph_get g i)) as Hag.
      { eapply bframe_agree; [done|]. intros j k (x&l&_&Hk). by exists l. }
      specialize (Hag i). rewrite (gmap_of_get E) by done. destruct (graph_get g1 i) as [b|] eqn:Eb.
      + apply o2_r in Hag as (n&En&Hn1). rewrite En. constructor. split; [by apply (wf_nodes _ _ Hwf i)|]. split; [done|].
        intros s0. by apply (bfr_zero _ _ _ Hfr i).
      + apply o2_none in Hag. rewrite Hag. constructor.
    - intros x y k. rewrite <- (in_graph_iff g _ Hn). destruct (final_deser_links E s cnt g Hnv Hok' Hd) as (_&_&_&H). apply H.
  Qed.

  (** ** One call *)
  Lemma fwd_bidi w lg a o w' : lreach E T w lg -> sim E T w lg a -> plain_op o -> step E T w o w' ->
    exists a', bstep a o a' /\ sim E T w' (log_step w o lg) a'.
  Proof using Hdb Hbf Hck Hone.
    intros Hl Hs Hp Hst. destruct (decide (no_maintenance o)) as [Hn|Hn].
    { destruct (fwd_other E T w lg a o w' Hl Hs Hn Hst) as (a'&Ha'&Hs'). exists a'. split; [by constructor|done]. }
    pose proof (sim_ctx _ _ _ _ _ Hs) as Hcx.
    destruct Hst; try done; try (by destruct Hn); cbn [log_step].
    - destruct (history_in E T w lg kg k c g t Hl) as (s&Hh&Hlg); [done|done|].
      destruct (sim_t E T w lg a k c t Hl Hs) as (s1&u&cnt&Ha&Hlg'&_); [done|]. assert (s1 = s) as -> by congruence.
      destruct (sim_g E T w lg a kg c g Hs) as (A&HA&Hm&HB); [done|].
      destruct (proj1 (commit_iff' g t s (ag_known A) Hh HB)) as (Hres&Hcl&Hty); [eauto|].
      destruct (commit_kept g t s g' Hh) as (m'&Hsp&Hmt); [done|]. destruct (Hty m' Hsp) as [Hty1 Hun].
      rewrite Hm in *. eexists. split; [by eapply bs_commit|].
      refine (sim_set_g E T _ _ (AW (aw_ctx a) (aw_graphs a) (delete k (aw_trans a))) _ _ _ _ _ _ _); [by apply sim_del_t|done|].
      by eapply kn_commit.
    - destruct (deser_kept s cnt g) as (->&Hnd&Hun&Hmt&HB); [done|done|]. eexists. split; [by eapply bs_deser|].
      rewrite Hcx. refine (sim_ctx_to E T (set_g w kg (length (w_ctx w), g)) lg (AW (aw_ctx a) (<[kg := (length (w_ctx w), _)]> (aw_graphs a)) (aw_trans a)) _ _).
      by apply sim_set_g.
  Qed.
  Lemma bwd_bidi w lg a o a' : lreach E T w lg -> sim E T w lg a -> bstep a o a' -> exists w', step E T w o w'.
  Proof using Hdb Hbf Hck Hone.
    intros Hl Hs Hst. destruct Hst as [o a' Hn Ha|kg k c s A m' m2 Ht HA Hres Hcl Hsp Hty Hun Hmt|kg s m2 Hok Hnd Hun Hmt].
    - by eapply bwd_other.
    - destruct (sim_t' E T w lg a k c s Hl Hs Ht) as (t&u&cnt&Ht'&Hlg&Htr&Hc&Hh).
      destruct (sim_g' E T w lg a kg c A Hs HA) as (g&Hg&Hm&HB).
      destruct (history_in E T w lg kg k c g t Hl) as (s1&Hh1&Hlg1); [done|done|]. assert (s1 = s) as -> by congruence.
      destruct (proj2 (commit_iff' g t s (ag_known A) Hh1 HB)) as (g'&Hg').
      { rewrite Hm. split; [done|]. split; [done|]. intros m1 Hm1. by assert (m1 = m') as -> by by eapply sp_commit_det. }
      eexists. by eapply st_commit.
    - assert (exists cnt g, deserialize_graph E s = Ok (cnt, g)) as (cnt&g&Hd).
      { apply (final_deser_success E s Hbf); [|done|done]. intros i n Hin. destruct (Hok i n Hin). split; [done|lia]. }
      eexists. by eapply st_deser.
  Qed.

  Lemma runs_fwd_bidi os w : runs E T os w -> Forall plain_op os -> exists lg a, lreach E T w lg /\ bruns os a /\ sim E T w lg a.
  Proof using Hdb Hbf Hck Hone.
    induction 1 as [|os w o w' Hr IH Hs]; intros Hp.
    - exists (fun _ => []), aw_new. split; [constructor|]. split; [constructor|]. split; [done|..]; intros k; cbn; rewrite !lookup_empty; constructor.
    - apply Forall_app in Hp as [Hp Ho]. inversion_clear Ho as [|? ? Ho1 _]. rename Ho1 into Ho. destruct (IH Hp) as (lg&a&Hl&Ha&Hsim).
      destruct (fwd_bidi w lg a o w' Hl Hsim Ho Hs) as (a'&Ha'&Hs'). exists (log_step w o lg), a'. split; [|split; [by econstructor|done]].
      econstructor; [done|done|]. destruct o; try done. intros c g _. by rewrite Hdb.
  Qed.

  Definition same_contents (w : world (D:=D)) (a : aworld (D:=D)) : Prop :=
    w_ctx w = aw_ctx a /\
    (forall kg, option_Forall2 (fun cg ca => cg.1 = ca.1 /\ (forall i, graph_get cg.2 i = ag_nodes ca.2 !! i) /\ known E T cg.2 (ag_known ca.2))
       (w_graphs w !! kg) (aw_graphs a !! kg)) /\
    (forall k, option_Forall2 (fun ct cs => ct.1 = cs.1 /\ trans_is ct.2 cs.2) (w_trans w !! k) (aw_trans a !! k)).
  Lemma sim_same w lg a : lreach E T w lg -> sim E T w lg a -> same_contents w a.
  Proof.
    intros Hl Hs. destruct (lreach_inv E T w lg Hl) as [Hi _].
    split; [symmetry; apply Hs|]. split.
    - intros kg. pose proof (sim_graphs _ _ _ _ _ Hs kg) as H. destruct (w_graphs w !! kg) as [[c g]|] eqn:Hg.
      + inversion H as [? [c' A] (?&Hm&HB) Heq|]; subst. cbn in *. subst. constructor. cbn. split; [done|]. split; [|done].
        intros i. rewrite <- Hm, (gmap_of_get E); [done|]. by eapply (iv_graph _ _ _ Hi).
      + inversion H. constructor.
    - intros k. destruct (w_trans w !! k) as [[c t]|] eqn:Ht.
      + destruct (sim_t E T w lg a k c t Hl Hs Ht) as (s&u&cnt&->&_&Htr&_). constructor. split; [done|]. by eapply trep_is.
      + pose proof (sim_trans _ _ _ _ _ Hs k) as H. rewrite Ht in H. inversion H. constructor.
  Qed.

  Lemma final_runs_bidi os w : runs E T os w -> Forall plain_op os ->
    exists a, bruns os a /\ same_contents w a /\ forall o, plain_op o -> (exists w', step E T w o w') <-> exists a', bstep a o a'.
  Proof using Hdb Hbf Hck Hone.
    intros Hw Hp. destruct (runs_fwd_bidi os w Hw Hp) as (lg&a&Hl&Ha&Hs). exists a. split; [done|]. split; [by eapply sim_same|].
    intros o Ho. split.
    - intros [w' Hw']. destruct (fwd_bidi w lg a o w' Hl Hs Ho Hw') as (a'&?&_). eauto.
    - intros [a' Ha']. by eapply bwd_bidi.
  Qed.

  (** ** What the machine leaves open *)
  Lemma maintained_alike m1 m2 (n1 n2 : gmap N (node D)) (R1 R2 : idx -> idx -> link -> Prop) : malike m1 m2 -> (forall a b k, R1 a b k <-> R2 a b k) ->
    maintained m1 n1 R1 -> maintained m2 n2 R2 -> malike n1 n2.
  Proof using Hbf.
    intros Hm HR [H1 L1] [H2 L2] i. specialize (Hm i). specialize (H1 i). specialize (H2 i).
    destruct (m1 !! i) as [a|] eqn:Ea.
    - apply o2_r in Hm as (b&Eb&Hab). rewrite Eb in H2. apply o2_r in H1 as (n&En&Hok&Hag&Hz), H2 as (n'&En'&Hok'&Hag'&Hz').
      rewrite En, En'. constructor. eapply (alike_maintained E E a b n n'); try done.
      intros l y. pose proof (L1 i y l) as Hl1. pose proof (L2 i y l) as Hl2. unfold in_nodes in Hl1, Hl2. rewrite En in Hl1. rewrite En' in Hl2.
      specialize (HR i y l). naive_solver.
    - apply o2_none in Hm. rewrite Hm in H2. apply o2_none in H1, H2. rewrite H1, H2. constructor.
  Qed.

  (** worlds of the machine that differ only in the order inside sets *)
  Record aalike (a b : aworld (D:=D)) : Prop := {
    aa_ctx : aw_ctx a = aw_ctx b;
    aa_graphs : forall kg, option_Forall2 (fun p q : nat * agraph (D:=D) => p.1 = q.1 /\ malike (ag_nodes p.2) (ag_nodes q.2) /\ forall y, ag_known p.2 y <-> ag_known q.2 y)
      (aw_graphs a !! kg) (aw_graphs b !! kg);
    aa_trans : forall k, option_Forall2 (fun p q : nat * tspec D => p.1 = q.1 /\ ts_alike p.2 q.2 /\
      (forall i f, (i, f) ∈ ts_mut p.2 -> mut_same f) /\ (forall i f, (i, f) ∈ ts_upd p.2 -> upd_same f)) (aw_trans a !! k) (aw_trans b !! k) }.

  Lemma bstep_choices a o a1 a2 : bstep a o a1 -> bstep a o a2 ->
    aw_ctx a1 = aw_ctx a2 /\ aw_trans a1 = aw_trans a2 /\
    forall kg, option_Forall2 (fun p q : nat * agraph (D:=D) => p.1 = q.1 /\ malike (ag_nodes p.2) (ag_nodes q.2) /\ forall y, ag_known p.2 y <-> ag_known q.2 y)
      (aw_graphs a1 !! kg) (aw_graphs a2 !! kg).
  Proof using Hbf.
    assert (forall m, malike m m) as Hrefl. { intros m i. destruct (m !! i); constructor. apply alike_refl. }
    assert (forall (M : gmap nat (nat * agraph (D:=D))) kg, option_Forall2 (fun p q : nat * agraph (D:=D) => p.1 = q.1 /\ malike (ag_nodes p.2) (ag_nodes q.2) /\ forall y, ag_known p.2 y <-> ag_known q.2 y)
      (M !! kg) (M !! kg)) as Hr. { intros M kg. destruct (M !! kg); constructor. done. }
    intros H1 H2. destruct H1 as [o a1 Hn Ha|kg k c s A m' m2 Ht HA Hres Hcl Hsp Hty Hun Hmt|kg s m2 Hok Hnd Hun Hmt].
    - destruct H2 as [o a2 Hn' Ha'| |]; [|done..]. assert (a2 = a1) as -> by by eapply astep_det. done.
    - inversion H2 as [? ? Hn|? ? c1 s1 A1 m1' m21 Ht' HA' Hres' Hcl' Hsp' Hty' Hun' Hmt'|]; [done|]. subst. cbn.
      rewrite Ht in Ht'. injection Ht' as <- <-. rewrite HA in HA'. injection HA' as <-.
      assert (m1' = m') as -> by by eapply sp_commit_det. split; [done|]. split; [done|]. intros kg'.
      destruct (decide (kg' = kg)) as [->|Hne]; [|rewrite !lookup_insert_ne by done; apply Hr].
      rewrite !lookup_insert. constructor. cbn. split; [done|]. split; [|done]. by eapply maintained_alike.
    - inversion H2 as [? ? Hn| |? ? m21 Hok' Hnd' Hun' Hmt']; [done|]. subst. cbn. split; [done|]. split; [done|]. intros kg'.
      destruct (decide (kg' = kg)) as [->|Hne]; [|rewrite !lookup_insert_ne by done; apply Hr].
      rewrite !lookup_insert. constructor. cbn. split; [done|]. split; [|done]. by eapply maintained_alike.
  Qed.

  (** ** Programs whose closures look at sets as sets *)
  Lemma aa_t a b k c s : aalike a b -> aw_trans a !! k = Some (c, s) ->
    exists s', aw_trans b !! k = Some (c, s') /\ ts_alike s s' /\ (forall i f, (i, f) ∈ ts_mut s -> mut_same f) /\ (forall i f, (i, f) ∈ ts_upd s -> upd_same f).
  Proof. intros H Hk. pose proof (aa_trans _ _ H k) as Hx. rewrite Hk in Hx. apply o2_r in Hx as ([c' s']&Hs&Hc&Hx). cbn in *. subst c'. by exists s'. Qed.
  Lemma aa_g a b kg c A : aalike a b -> aw_graphs a !! kg = Some (c, A) ->
    exists A', aw_graphs b !! kg = Some (c, A') /\ malike (ag_nodes A) (ag_nodes A') /\ forall y, ag_known A y <-> ag_known A' y.
  Proof. intros H Hk. pose proof (aa_graphs _ _ H kg) as Hx. rewrite Hk in Hx. apply o2_r in Hx as ([c' A']&Hs&Hc&Hx). cbn in *. subst c'. by exists A'. Qed.
  Lemma aa_put_t a b k c s s' l : aalike a b -> ts_alike s s' -> (forall i f, (i, f) ∈ ts_mut s -> mut_same f) -> (forall i f, (i, f) ∈ ts_upd s -> upd_same f) ->
    aalike (AW l (aw_graphs a) (<[k := (c, s)]> (aw_trans a))) (AW l (aw_graphs b) (<[k := (c, s')]> (aw_trans b))).
  Proof.
    intros [H1 H2 H3] Hs Hm Hu. split; [done|done|]. cbn. intros k'. destruct (decide (k' = k)) as [->|Hne].
    - rewrite !lookup_insert. by constructor.
    - rewrite !lookup_insert_ne by done. apply H3.
  Qed.
  Lemma aa_del_t a b k : aalike a b -> aalike (AW (aw_ctx a) (aw_graphs a) (delete k (aw_trans a))) (AW (aw_ctx b) (aw_graphs b) (delete k (aw_trans b))).
  Proof.
    intros [H1 H2 H3]. split; [done|done|]. cbn. intros k'. destruct (decide (k' = k)) as [->|Hne].
    - rewrite !lookup_delete. constructor.
    - rewrite !lookup_delete_ne by done. apply H3.
  Qed.
  Lemma aa_put_g a b kg c A A' l : aalike a b -> malike (ag_nodes A) (ag_nodes A') -> (forall y, ag_known A y <-> ag_known A' y) ->
    aalike (AW l (<[kg := (c, A)]> (aw_graphs a)) (aw_trans a)) (AW l (<[kg := (c, A')]> (aw_graphs b)) (aw_trans b)).
  Proof.
    intros [H1 H2 H3] Hm HB. split; [done| |done]. cbn. intros k'. destruct (decide (k' = kg)) as [->|Hne].
    - rewrite !lookup_insert. by constructor.
    - rewrite !lookup_insert_ne by done. apply H2.
  Qed.
  Lemma aa_del_g a b kg : aalike a b -> aalike (AW (aw_ctx a) (delete kg (aw_graphs a)) (aw_trans a)) (AW (aw_ctx b) (delete kg (aw_graphs b)) (aw_trans b)).
  Proof.
    intros [H1 H2 H3]. split; [done| |done]. cbn. intros k'. destruct (decide (k' = kg)) as [->|Hne].
    - rewrite !lookup_delete. constructor.
    - rewrite !lookup_delete_ne by done. apply H2.
  Qed.
  Lemma aa_sym a b : aalike a b -> aalike b a.
  Proof.
    intros [H1 H2 H3]. split; [done|..].
    - intros kg. destruct (H2 kg) as [p q (?&?&Hy)|]; constructor. split; [done|]. split; [by apply malike_sym|]. intros y. by rewrite Hy.
    - intros k. destruct (H3 k) as [p q (?&Ha&?&?)|]; constructor. split; [done|]. split; [by apply ts_alike_sym|].
      split; [by rewrite <- (ta_mut _ _ Ha)|by rewrite <- (ta_upd _ _ Ha)].
  Qed.

  Lemma call_same_of o k i (tc : tcall D) : call_of o = Some (k, i, tc) -> op_same o -> call_same tc.
  Proof. destruct o; cbn; try done; by intros [= <- <- <-]. Qed.
  Lemma other_alike a b o a' : aalike a b -> no_maintenance o -> op_same o -> astep E T a o a' -> exists b', astep E T b o b' /\ aalike a' b'.
  Proof.
    intros Hab Hn Ho Ha. pose proof (aa_ctx _ _ Hab) as Hcx.
    destruct Ha as [u|k c u cnt Hc|k c u cnt Hc|o k i tc c s s1 u cnt cnt' Hco Ht Hc Hty Hfi Hout Hcall|k kg c s s1 A Ht HA Hev|k|kg| | |]; try (by destruct Hn).
    - eexists. split; [constructor|]. rewrite Hcx. destruct Hab as [H1 H2 H3]. by split.
    - rewrite Hcx in *. eexists. split; [by econstructor|]. apply aa_put_g; [done| |done]. intros i. cbn. rewrite !lookup_empty. constructor.
    - rewrite Hcx in *. eexists. split; [by econstructor|]. apply aa_put_t; [done|apply ts_alike_empty|..]; by intros i f ?%elem_of_nil.
    - destruct (aa_t a b k c s Hab Ht) as (s'&Ht'&Hss&Hm&Hu). pose proof (call_same_of o k i tc Hco Ho) as Hcs.
      destruct (ts_call_same i s s' tc Hss Hcs) as [s1' Hcall']; [by eexists|]. rewrite Hcx in *.
      eexists. split; [eapply as_call; try done|].
      { destruct tc; try done. cbn in *. by rewrite <- (ta_res _ _ Hss). }
      destruct (ts_run_same [EvCall i tc] s s1) as [Hm1 Hu1]; [cbn; by rewrite Hcall|intros e ->%elem_of_list_singleton; exact Hcs|done|done|].
      rewrite ?Hcx. apply aa_put_t; [done| |done|done].
      eapply (ts_event_alike (EvCall i tc) (EvCall i tc) s s'); [|done|done|done].
      constructor; intros j f ->; [by apply mut_same_blind|by apply upd_same_blind].
    - destruct (aa_t a b k c s Hab Ht) as (s'&Ht'&Hss&Hm&Hu). destruct (aa_g a b kg c A Hab HA) as (A'&HA'&HAA&_).
      eexists. split; [by eapply as_merge|].
      refine (aa_del_g (AW (aw_ctx a) (aw_graphs a) (<[k := (c, s1)]> (aw_trans a))) (AW (aw_ctx b) (aw_graphs b) (<[k := (c, _)]> (aw_trans b))) kg _).
      rewrite Hcx. apply aa_put_t; [done| |..].
      + eapply (ts_event_alike (EvMerge (ag_nodes A)) (EvMerge (ag_nodes A')) s s'); [by constructor|done|done|done].
      + injection Hev as <-. exact Hm.
      + injection Hev as <-. exact Hu.
    - eexists. split; [constructor|]. by apply aa_del_t.
    - eexists. split; [constructor|]. by apply aa_del_g.
  Qed.

  Section alike_maps.
    Context (m n m' n' : gmap N (node D)) (Hm : malike m n) (Hm' : malike m' n').
    Lemma m_added_alike x y l : m_added m m' x y l <-> m_added n n' x y l.
    Proof using Hm Hm'. unfold m_added. by rewrite (malike_link _ _ _ _ _ Hm), (malike_link _ _ _ _ _ Hm'). Qed.
    Lemma m_mirrored_alike a b k : m_mirrored m m' a b k <-> m_mirrored n n' a b k.
    Proof using Hm Hm'.
      unfold m_mirrored, m_added, m_dropped. setoid_rewrite (malike_link _ _ _ _ _ Hm). setoid_rewrite (malike_link _ _ _ _ _ Hm').
      setoid_rewrite (malike_some _ _ _ Hm'). apply or_iff_compat_l. apply exist_proper. intros l. specialize (Hm' a).
      split; intros (na&Hl&Ha&Hop); rewrite Ha in Hm'; inversion Hm' as [x y Hxy|]; subst.
      - exists y. split; [done|]. split; [done|]. by rewrite <- (proj1 Hxy).
      - exists x. split; [done|]. split; [done|]. by rewrite (proj1 Hxy).
    Qed.
    Lemma m_unclaimed_alike : m_unclaimed m m' -> m_unclaimed n n'.
    Proof using Hm Hm'.
      intros H x y l ny k Ha Hy Hop Hd z Hz. pose proof (Hm' y) as Hyy. rewrite Hy in Hyy. apply o2_l in Hyy as (my&Hmy&Hv&_).
      eapply H; [by apply m_added_alike|done|by rewrite Hv|done|by apply m_mirrored_alike].
    Qed.
    Lemma m_typed_alike : new_links_typed E m m' -> new_links_typed E n n'.
    Proof using Hm Hm'.
      intros H x y l ny H1 H2 Hy. pose proof (Hm' y) as Hyy. rewrite Hy in Hyy. apply o2_l in Hyy as (my&Hmy&Hv&_). rewrite <- Hv.
      eapply (H x y l my); [by apply (malike_link m' n')| |done]. by rewrite (malike_link _ _ _ _ _ Hm).
    Qed.
  End alike_maps.

  Lemma bwd_alike w lg a b o a' : lreach E T w lg -> sim E T w lg b -> aalike a b -> op_same o -> bstep a o a' ->
    exists w' b', step E T w o w' /\ bstep b o b' /\ sim E T w' (log_step w o lg) b' /\ aalike a' b'.
  Proof using Hdb Hbf Hck Hone.
    intros Hl Hs Hab Ho Hst. pose proof (bstep_plain _ _ _ Hst) as Hp. pose proof (aa_ctx _ _ Hab) as Hcx.
    destruct Hst as [o a' Hn Ha|kg k c s A m' m2 Ht HA Hres Hcl Hsp Hty Hun Hmt|kg s m2 Hok Hnd Hun Hmt].
    - destruct (other_alike a b o a' Hab Hn Ho Ha) as (b'&Hb'&Hab'). destruct (bwd_other E T w lg b o b' Hl Hs Hn Hb') as (w'&Hw').
      destruct (fwd_other E T w lg b o w' Hl Hs Hn Hw') as (b1&Hb1&Hs1). assert (b1 = b') as -> by by eapply astep_det.
      exists w', b'. split; [done|]. split; [by constructor|]. done.
    - destruct (aa_t a b k c s Hab Ht) as (s'&Ht'&Hss&Hmf&Huf). destruct (aa_g a b kg c A Hab HA) as (A'&HA'&HAA&HAB).
      destruct (sim_t' E T w lg b k c s' Hl Hs Ht') as (t&u&cnt&Htw&Hlg&Htr&Hc&Hh).
      destruct (sim_g' E T w lg b kg c A' Hs HA') as (g&Hg&Hm&HB).
      destruct (history_in E T w lg kg k c g t Hl) as (s1&Hh1&Hlg1); [done|done|]. assert (s1 = s') as -> by congruence.
      assert (exists w', step E T w (OCommit kg k) w') as [w' Hw'].
      { destruct (proj2 (commit_iff' g t s' (ag_known A') Hh1 HB)) as (g'&Hg'); [|eexists; by eapply st_commit].
        rewrite Hm. split; [by rewrite <- (ta_res _ _ Hss)|]. split; [by eapply (commit_listed_alike s s'); [..|apply HAB|done|done|done]|].
        intros m1 Hm1. assert (malike m' m1) as Hmm by by eapply sp_commit_alike.
        split; [by eapply m_typed_alike|by eapply m_unclaimed_alike]. }
      destruct (fwd_bidi w lg b (OCommit kg k) w' Hl Hs Hp Hw') as (b'&Hb'&Hs'). exists w', b'. split; [done|]. split; [done|]. split; [done|].
      inversion Hb' as [? ? Hn|? ? c1 s1 A1 m1' m21 Ht1 HA1 Hres1 Hcl1 Hsp1 Hty1 Hun1 Hmt1|]; [done|]. subst.
      rewrite Ht' in Ht1. injection Ht1 as <- <-. rewrite HA' in HA1. injection HA1 as <-.
      assert (malike m' m1') as Hmm by by eapply sp_commit_alike.
      rewrite Hcx. refine (aa_put_g (AW (aw_ctx a) (aw_graphs a) (delete k (aw_trans a))) (AW (aw_ctx b) (aw_graphs b) (delete k (aw_trans b))) kg c _ _ _ _ _ _).
      + by apply aa_del_t.
      + cbn. eapply maintained_alike; [exact Hmm| |done|done]. intros x y l. by apply m_mirrored_alike.
      + cbn. intros y. split; [eapply l_commit_alike; [done|apply HAB]|eapply l_commit_alike; [by apply ts_alike_sym|apply HAB]].
    - assert (exists cnt g, deserialize_graph E s = Ok (cnt, g)) as (cnt&g&Hd).
      { apply (final_deser_success E s Hbf); [|done|done]. intros i n Hin. destruct (Hok i n Hin). split; [done|lia]. }
      assert (exists w', step E T w (ODeser kg s) w') as [w' Hw'] by (eexists; by eapply st_deser).
      destruct (fwd_bidi w lg b (ODeser kg s) w' Hl Hs Hp Hw') as (b'&Hb'&Hs'). exists w', b'. split; [done|]. split; [done|]. split; [done|].
      inversion Hb' as [? ? Hn| |? ? m21 Hok1 Hnd1 Hun1 Hmt1]; [done|]. subst. rewrite Hcx. apply aa_put_g; [done| |done]. cbn.
      eapply maintained_alike; [| |exact Hmt|exact Hmt1]; [|done]. intros i. destruct (_ !! i); constructor. apply alike_refl.
  Qed.

  Lemma runs_bwd_bidi os a : bruns os a -> Forall op_same os ->
    exists w lg b, runs E T os w /\ lreach E T w lg /\ bruns os b /\ sim E T w lg b /\ aalike a b.
  Proof using Hdb Hbf Hck Hone.
    induction 1 as [|os a o a' Hr IH Hs]; intros Hp.
    - exists world_new, (fun _ => []), aw_new. split; [constructor|]. split; [constructor|]. split; [constructor|].
      split; (split; [done|..]; intros k; cbn; rewrite !lookup_empty; constructor).
    - apply Forall_app in Hp as [Hp Ho]. inversion_clear Ho as [|? ? Ho1 _]. destruct (IH Hp) as (w&lg&b&Hw&Hl&Hb&Hsim&Hab).
      destruct (bwd_alike w lg a b o a' Hl Hsim Hab Ho1 Hs) as (w'&b'&Hw'&Hb'&Hs'&Hab').
      exists w', (log_step w o lg), b'. split; [by econstructor|]. split; [|split; [by econstructor|done]].
      econstructor; [done|done|]. destruct o; try done. intros c g _. by rewrite Hdb.
  Qed.
  Lemma bruns_plain os a : bruns os a -> Forall plain_op os.
  Proof. induction 1; [done|]. apply Forall_app. split; [done|]. constructor; [by eapply bstep_plain|constructor]. Qed.

  Lemma final_bruns_iff os : Forall op_same os -> (exists w, runs E T os w) /\ Forall plain_op os <-> exists a, bruns os a.
  Proof using Hdb Hbf Hck Hone.
    intros Hsm. split.
    - intros [[w Hw] Hp]. destruct (runs_fwd_bidi os w Hw Hp) as (lg&a&_&Ha&_). eauto.
    - intros [a Ha]. split; [|by eapply bruns_plain]. destruct (runs_bwd_bidi os a Ha Hsm) as (w&lg&b&Hw&_). eauto.
  Qed.
  Lemma final_bruns_alike os w a : Forall op_same os -> runs E T os w -> bruns os a ->
    exists b, same_contents w b /\ aalike a b.
  Proof using Hdb Hbf Hck Hone.
    intros Hsm Hw Ha. destruct (runs_bwd_bidi os a Ha Hsm) as (w'&lg&b&Hw'&Hl&_&Hs&Hab). assert (w' = w) as -> by by eapply runs_det.
    exists b. split; [by eapply sim_same|done].
  Qed.
End machine.
