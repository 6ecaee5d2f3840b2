(** * The same program in two environments, with bidirectional links *)
From stdpp Require Export gmap.
From Verif Require Export Alike2 SwitchBidi Sim.

Section logged.
  Context {D : Type} (E : env).
  (** [runs] with the log of the calls on every transaction, and no merge of a graph with
      leftover reservations ([clean_merge]) *)
  Inductive lruns T : list (op (D:=D)) -> world (D:=D) -> (nat -> list (tevent D)) -> Prop :=
  | lruns_nil : lruns T [] world_new (fun _ => [])
  | lruns_snoc os w lg o w' : lruns T os w lg -> step E T w o w' -> clean_merge E w o -> lruns T (os ++ [o]) w' (log_step w o lg).
  Lemma lruns_lreach T os w lg : lruns T os w lg -> lreach E T w lg.
  Proof. induction 1; [constructor|by constructor]. Qed.
  Lemma lruns_runs T os w lg : lruns T os w lg -> runs E T os w.
  Proof. induction 1; [constructor|by econstructor]. Qed.
  Lemma lruns_nil_inv T w lg : lruns T [] w lg -> w = world_new /\ lg = fun _ => [].
  Proof. inversion 1 as [|os ????? ? ? Heq]; [done|]. by destruct os. Qed.
  Lemma lruns_snoc_inv T os o w lg : lruns T (os ++ [o]) w lg ->
    exists w0 lg0, lruns T os w0 lg0 /\ step E T w0 o w /\ clean_merge E w0 o /\ lg = log_step w0 o lg0.
  Proof.
    intros H. remember (os ++ [o]) as os1 eqn:Heq. destruct H as [|os' w0 lg0 o' w' Hr Hs Hc]; [by destruct os|].
    apply app_inj_tail in Heq as [-> ->]. by exists w0, lg0.
  Qed.
  (** the program merges no graph, or runs in a debug build *)
  Lemma runs_lruns T os w : runs E T os w -> e_dbg E = true \/ (forall k kg, OMerge k kg ∉ os) -> exists lg, lruns T os w lg.
  Proof.
    induction 1 as [|os w o w' _ IH Hs]; intros Hd; [eexists; constructor|].
    destruct IH as [lg Hl]. { destruct Hd as [?|Hd]; [by left|right]. intros k kg Hin. apply (Hd k kg). apply elem_of_app. by left. }
    exists (log_step w o lg). constructor; [done|done|]. destruct o; try done. intros c g _ Hf.
    destruct Hd as [?|Hd]; [congruence|]. destruct (Hd k kg). apply elem_of_app. right. by left.
  Qed.
End logged.

Section replica.
  Context {D : Type} (E E' : env) (Hk : e_kinds E = e_kinds E') (Ho : forall l, e_opp E l = e_opp E' l) (Hbf : bidi_fields E).
  Implicit Types (g : graph D) (n : node D) (o : op (D:=D)).

  Lemma node_switched_alike g f n1 n2 n1' n2' : alike n1 n2 -> node_switched g f n1 n1' -> node_switched g f n2 n2' -> alike n1' n2'.
  Proof.
    intros (Hv&Hd&HF) (Hv1&Hd1&Hl1&H1) (Hv2&Hd2&Hl2&H2). split; [congruence|]. split; [congruence|].
    pose proof (Forall2_length _ _ _ HF) as Hlen.
    apply Forall2_same_length_lookup_2; [congruence|]. intros i lv1' lv2' E1 E2.
    destruct (lookup_lt_is_Some_2 (nlinks n1) i) as [lv1 Hlv1]. { rewrite <- Hl1. by eapply lookup_lt_Some. }
    destruct (Forall2_lookup_l _ _ _ _ _ HF Hlv1) as (lv2&Hlv2&Ha).
    destruct (H1 _ _ Hlv1) as (x1&Hx1&Hs1), (H2 _ _ Hlv2) as (x2&Hx2&Hs2).
    assert (x1 = lv1') as -> by congruence. assert (x2 = lv2') as -> by congruence.
    destruct lv1, lv2; cbn in Ha; try done; destruct lv1', lv2'; cbn in Hs1, Hs2; try done; cbn.
    - congruence.
    - destruct Ha as [Hkk Hp], Hs1 as (->&Hn1&Hz1), Hs2 as (->&Hn2&Hz2). split; [done|]. apply NoDup_Permutation; [done|done|].
      intros z. rewrite Hz1, Hz2. by setoid_rewrite Hp.
    - congruence.
  Qed.
  Lemma same_keys_find g g' (x : idx) : (graph_iter g).*1 = (graph_iter g').*1 ->
    fst <$> list_find (fun kv : idx * node D => kv.1 = x) (graph_iter g) = fst <$> list_find (fun kv : idx * node D => kv.1 = x) (graph_iter g').
  Proof.
    generalize (graph_iter g), (graph_iter g'). induction l as [|[i n] l IH]; intros [|[j m] l'] [=]; [done|]. subst j. cbn.
    case_decide; [done|]. specialize (IH l' H1).
    destruct (list_find _ l) as [[? ?]|], (list_find _ l') as [[? ?]|]; cbn in *; congruence.
  Qed.

  Lemma new_index_keys g g' c x : (graph_iter g).*1 = (graph_iter g').*1 -> new_index g c x = new_index g' c x.
  Proof.
    intros H. pose proof (same_keys_find g g' x H) as Hf. unfold new_index.
    destruct (list_find _ (graph_iter g)) as [[? ?]|], (list_find _ (graph_iter g')) as [[? ?]|]; cbn in Hf; congruence.
  Qed.
  Lemma node_switched_keys g g' f f' n n' : (graph_iter g).*1 = (graph_iter g').*1 -> (forall x, f x = f' x) ->
    node_switched g f n n' -> node_switched g' f' n n'.
  Proof.
    intros Hg Hf (Hv&Hd&Hl&H). split; [done|]. split; [done|]. split; [done|]. intros fld lv Hlv.
    destruct (H fld lv Hlv) as (lv'&Hlv'&Hs). exists lv'. split; [done|].
    destruct lv as [x|k ids|ids], lv' as [x'|k' ids'|ids']; cbn in Hs |- *; try done.
    - by rewrite <- Hf.
    - destruct Hs as (->&Hnd&Hz). split; [done|]. split; [done|]. intros z. rewrite Hz. unfold comes_after. rewrite Hg. by setoid_rewrite Hf.
    - rewrite Hs. apply list_fmap_ext. intros ? ? _. apply Hf.
  Qed.
  Lemma relabelled_alike g g' c a a' : (graph_iter g).*1 = (graph_iter g').*1 -> galike g g' -> relabelled E g c a -> relabelled E' g' c a' ->
    forall i, option_Forall2 alike (arena_get a i) (arena_get a' i).
  Proof.
    intros Hkey Hg [_ _ Hs Hon] [_ _ Hs' Hon'] i.
    assert (forall x, new_index g c x = new_index g' c x) as Hni by (intros; by apply new_index_keys).
    destruct (arena_get a i) as [n1|] eqn:H1.
    - destruct (Hon i n1 H1) as (x&n&Hx&->&Hsw). pose proof (Hg x) as Hgx. rewrite Hx in Hgx. apply o2_r in Hgx as (n'&Hx'&Ha).
      destruct (Hs' x n' Hx') as (n1'&Hn1'&Hsw'). rewrite Hni, Hn1'. constructor.
      eapply node_switched_alike; [exact Ha|exact Hsw|]. eapply node_switched_keys; [| |exact Hsw']; [done|]. intros z. by rewrite Hni.
    - destruct (arena_get a' i) as [n1'|] eqn:H1'; [|constructor]. exfalso.
      destruct (Hon' i n1' H1') as (x&n'&Hx'&->&_). pose proof (Hg x) as Hgx. rewrite Hx' in Hgx. apply o2_l in Hgx as (n&Hx&_).
      destruct (Hs x n Hx) as (n1&Hn1&_). rewrite Hni in Hn1. congruence.
  Qed.
  Lemma switch_alike T g g' ctx c c1 c1' g1 g1' : graph_of E T g -> graph_of E' T g' -> (graph_iter g).*1 = (graph_iter g').*1 -> galike g g' ->
    (c + N.of_nat (length (graph_iter g)) < usize_mod)%N ->
    switch_context E g ctx c = Done c1 g1 -> switch_context E' g' ctx c = Done c1' g1' -> c1' = c1 /\ galike g1 g1'.
  Proof using Hk Ho Hbf.
    intros Hg Hg' Hkey Ha Hroom. assert (length (graph_iter g') = length (graph_iter g)) as Hlen.
    { rewrite <- (fmap_length fst (graph_iter g)), Hkey, fmap_length. done. }
    destruct (switch_prepared E T g ctx c Hg Hroom) as (a&Hrl&->).
    destruct (switch_prepared E' T g' ctx c Hg') as (a'&Hrl'&->); [by rewrite Hlen|].
    pose proof (rebuild_spec E ctx a (rl_ok _ _ _ _ Hrl) (rl_nodes _ _ _ _ Hrl)) as Hrb.
    pose proof (rebuild_spec E' ctx a' (rl_ok _ _ _ _ Hrl') (rl_nodes _ _ _ _ Hrl')) as Hrb'.
    destruct (rebuild E ctx a) as [[g2 r] []|p [g2 r]]; [|done]. destruct (rebuild E' ctx a') as [[g2' r'] []|p' [g2' r']]; [|done].
    pose proof (check_link_type_spec E r g2) as Hc. destruct (check_link_type E r g2) as [g3 []|]; [|done].
    pose proof (check_link_type_spec E' r' g2') as Hc'. destruct (check_link_type E' r' g2') as [g3' []|]; [|done].
    intros [= <- <-] [= <- <-]. destruct Hc as [-> _], Hc' as [-> _]. split; [by rewrite Hlen|].
    destruct Hrb as (h&Hrb), Hrb' as (h'&Hrb'). eapply (rebuilt_alike E E'); [done|done|done| |exact Hrb|exact Hrb'].
    by eapply relabelled_alike.
  Qed.
  Lemma deser_alike s cnt cnt' g g' : (forall i n, (i, n) ∈ gs_nodes s -> node_ok E n /\ i <> 0%N) -> 
    deserialize_graph E s = Ok (cnt, g) -> deserialize_graph E' s = Ok (cnt', g') -> cnt' = cnt /\ galike g g'.
  Proof using Hk Ho Hbf.
    intros Hok Hd Hd'. split.
    { unfold deserialize_graph in *. destruct (do_deserialize E _ _); [|done]. destruct (do_deserialize E' _ _); [|done]. congruence. }
    destruct (deser_ok E s cnt g Hok Hd) as (Hnd&a&g1&r&Hfi&Hrb).
    destruct (deser_ok E' s cnt' g') as (Hnd'&a'&g1'&r'&Hfi'&Hrb').
    { intros i n Hin. destruct (Hok i n Hin) as [H1 ?]. split; [|done]. revert H1. unfold node_ok. by rewrite Hk. } { done. }
    eapply (rebuilt_alike E E'); [done|done|done| |exact Hrb|exact Hrb']. intros i. rewrite (fi_get _ _ _ Hfi), (fi_get _ _ _ Hfi').
    destruct (omap_get i (gs_nodes s)); constructor. apply alike_refl.
  Qed.

  (** ** Transactions *)
  Lemma ts_run_alike L L' (s s' s1 s1' : tspec D) : Forall2 ev_alike L L' -> ts_alike s s' ->
    ts_run s L = Some s1 -> ts_run s' L' = Some s1' -> ts_alike s1 s1'.
  Proof.
    intros HF. revert s s'. induction HF as [|e e' L L' He HF IH]; intros s s' Hs; cbn; [by intros [= <-] [= <-]|].
    destruct (ts_event s e) as [s2|] eqn:H2; [|done]. destruct (ts_event s' e') as [s2'|] eqn:H2'; [|done].
    apply IH. by eapply ts_event_alike.
  Qed.

  (** ** Worlds *)
  Notation world := (world (D:=D)).
  Notation log := (nat -> list (tevent D)).
  Implicit Types (w : world) (lg : log) (T : Prop).
  Record walike w w' lg lg' : Prop := {
    wa_ctx : w_ctx w' = w_ctx w;
    wa_graph : forall kg, option_Forall2 (fun p q : nat * graph D => p.1 = q.1 /\ galike p.2 q.2) (w_graphs w !! kg) (w_graphs w' !! kg);
    wa_trans : forall k, option_Forall2 (fun p q : nat * trans D => p.1 = q.1) (w_trans w !! k) (w_trans w' !! k);
    wa_log : forall k, Forall2 ev_alike (lg k) (lg' k) }.

  Lemma walike_g w w' lg lg' kg c c' g g' : walike w w' lg lg' -> w_graphs w !! kg = Some (c, g) -> w_graphs w' !! kg = Some (c', g') ->
    c' = c /\ galike g g'.
  Proof. intros H Hg Hg'. pose proof (wa_graph _ _ _ _ H kg) as Hx. rewrite Hg, Hg' in Hx. apply o2_some in Hx as [Hc ?]. by cbn in Hc. Qed.
  Lemma walike_t w w' lg lg' k c c' t t' : walike w w' lg lg' -> w_trans w !! k = Some (c, t) -> w_trans w' !! k = Some (c', t') -> c' = c.
  Proof. intros H Ht Ht'. pose proof (wa_trans _ _ _ _ H k) as Hx. rewrite Ht, Ht' in Hx. by apply o2_some in Hx. Qed.
  Lemma walike_set_g w w' lg lg' kg c g g' : walike w w' lg lg' -> galike g g' -> walike (set_g w kg (c, g)) (set_g w' kg (c, g')) lg lg'.
  Proof.
    intros [H1 H2 H3 H4] Hg. split; [done| |done|done]. cbn. intros k. destruct (decide (k = kg)) as [->|Hne].
    - rewrite !lookup_insert. by constructor.
    - rewrite !lookup_insert_ne by done. apply H2.
  Qed.
  Lemma walike_del_g w w' lg lg' kg : walike w w' lg lg' -> walike (del_g w kg) (del_g w' kg) lg lg'.
  Proof.
    intros [H1 H2 H3 H4]. split; [done| |done|done]. cbn. intros k. destruct (decide (k = kg)) as [->|Hne].
    - rewrite !lookup_delete. constructor.
    - rewrite !lookup_delete_ne by done. apply H2.
  Qed.
  Lemma walike_set_t w w' lg lg' k c t t' L L' : walike w w' lg lg' -> Forall2 ev_alike L L' ->
    walike (set_t w k (c, t)) (set_t w' k (c, t')) (lput lg k L) (lput lg' k L').
  Proof.
    intros [H1 H2 H3 H4] HL. split; [done|done| |].
    - cbn. intros k'. destruct (decide (k' = k)) as [->|Hne].
      + rewrite !lookup_insert. by constructor.
      + rewrite !lookup_insert_ne by done. apply H3.
    - intros k'. unfold lput. destruct (decide (k' = k)) as [->|Hne]; [done|apply H4].
  Qed.
  Lemma walike_del_t w w' lg lg' k : walike w w' lg lg' -> walike (del_t w k) (del_t w' k) lg lg'.
  Proof.
    intros [H1 H2 H3 H4]. split; [done|done| |done]. cbn. intros k'. destruct (decide (k' = k)) as [->|Hne].
    - rewrite !lookup_delete. constructor.
    - rewrite !lookup_delete_ne by done. apply H3.
  Qed.
  Lemma walike_set_cnt w w' lg lg' c u cnt : walike w w' lg lg' -> walike (set_cnt w c u cnt) (set_cnt w' c u cnt) lg lg'.
  Proof. intros [H1 H2 H3 H4]. split; [|done..]. cbn. by rewrite H1. Qed.
  Lemma walike_call w w' lg lg' k c t t' i tc : walike w w' lg lg' ->
    (forall j f, tc = CMutate j f -> mut_blind f) -> (forall j f, tc = CUpdate j f -> upd_blind f) ->
    walike (set_t w k (c, t)) (set_t w' k (c, t')) (lcall lg k i tc) (lcall lg' k i tc).
  Proof.
    intros H Hm Hu. apply walike_set_t; [done|]. apply Forall2_app; [apply (wa_log _ _ _ _ H)|]. constructor; [by constructor|constructor].
  Qed.

  (** the closures of a call do not look at the order inside sets *)
  Definition op_blind o : Prop :=
    match o with OMutate _ _ f => mut_blind f | OUpdate _ _ f => upd_blind f | _ => True end.

  Lemma history_in E0 T w lg kg k c g t : lreach E0 T w lg -> w_graphs w !! kg = Some (c, g) -> w_trans w !! k = Some (c, t) ->
    exists s, history E0 T g t s /\ ts_run ts_empty (lg k) = Some s.
  Proof.
    intros Hl Hg Ht. assert (pair_log E0 T g t (lg k)) as Hp by by exists w, lg, kg, k, c.
    destruct (pair_log_rep E0 T g t (lg k) Hp) as (s&Hs&_). exists s. split; [|done]. by exists (lg k).
  Qed.

  Lemma step_alike T w w' lg lg' o w1 w1' : lreach E T w lg -> lreach E' T w' lg' -> walike w w' lg lg' ->
    step E T w o w1 -> step E' T w' o w1' -> (forall kg k p, o <> OCommitPanic kg k p) -> op_blind o ->
    (forall kg c c1 c2 g g', o = OSwitch kg c -> w_graphs w !! kg = Some (c1, g) -> w_graphs w' !! kg = Some (c2, g') -> (graph_iter g).*1 = (graph_iter g').*1) ->
    walike w1 w1' (log_step w o lg) (log_step w' o lg').
  Proof using Hk Ho Hbf.
    intros Hl Hl' Hw Hs Hs' Hnp Hb Hkeys. pose proof (wa_ctx _ _ _ _ Hw) as Hctx.
    assert (inv E T w) as Hi by by eapply reachable_inv, lreach_reachable.
    assert (inv E' T w') as Hi' by by eapply reachable_inv, lreach_reachable.
    assert (forall kg k c g t g1 c' g' t' g1', w_trans w !! k = Some (c, t) -> w_graphs w !! kg = Some (c, g) -> commit E t g = Done g1 tt ->
      w_trans w' !! k = Some (c', t') -> w_graphs w' !! kg = Some (c', g') -> commit E' t' g' = Done g1' tt -> c' = c /\ galike g1 g1') as Hcommit.
    { intros kg k c g t g1 c' g' t' g1' Ht Hg Hc Ht' Hg' Hc'. destruct (walike_g _ _ _ _ _ _ _ _ _ Hw Hg Hg') as [-> Hgg]. split; [done|].
      destruct (history_in E T w lg kg k c g t Hl Hg Ht) as (s&Hh&Hs1), (history_in E' T w' lg' kg k c g' t' Hl' Hg' Ht') as (s'&Hh'&Hs1').
      eapply (commit_alike E E'); [done|done|done|exact Hh|exact Hh'|exact Hgg| |exact Hc|exact Hc'].
      eapply ts_run_alike; [apply (wa_log _ _ _ _ Hw)|apply ts_alike_empty|exact Hs1|exact Hs1']. }
    destruct Hs; inversion Hs'; subst; clear Hs'; cbn [log_step].
    - destruct Hw as [? H2 H3 H4]. split; cbn; [by rewrite Hctx|done..].
    - rewrite Hctx in *. apply walike_set_g; [done|]. intros i. unfold graph_get, graph_new. cbn [g_nodes]. rewrite !arena_new_get. constructor.
    - apply walike_set_t; [done|constructor].
    - assert (c0 = c) as -> by by eapply walike_t. rewrite Hctx in *. assert (u0 = u /\ cnt0 = cnt) as [-> ->] by (split; congruence).
      apply (trans_insert_step E T) in H3 as (->&_&_); [|by eapply (iv_trans _ _ _ Hi)|done|done|by apply (inv_bound E T w k c t u cnt)].
      match goal with H : trans_insert E' _ _ = _ |- _ => apply (trans_insert_step E' T) in H as (->&_&_); [|by eapply (iv_trans _ _ _ Hi')|done|done|eapply (inv_bound E' T w' k c _ u cnt); [done|done|by rewrite Hctx]] end.
      apply walike_set_cnt. by apply walike_call.
    - assert (c0 = c) as -> by by eapply walike_t. rewrite Hctx in *. assert (u0 = u /\ cnt0 = cnt) as [-> ->] by (split; congruence).
      apply (trans_alloc_step E T) in H2 as (->&_&_); [|by eapply (iv_trans _ _ _ Hi)|done|by apply (inv_bound E T w k c t u cnt)].
      match goal with H : trans_alloc E' _ _ = _ |- _ => apply (trans_alloc_step E' T) in H as (->&_&_); [|by eapply (iv_trans _ _ _ Hi')|done|eapply (inv_bound E' T w' k c _ u cnt); [done|done|by rewrite Hctx]] end.
      apply walike_set_cnt. by apply walike_call.
    - assert (c0 = c) as -> by by eapply walike_t. rewrite Hctx in *. assert (u0 = u /\ cnt0 = cnt) as [-> ->] by (split; congruence).
      apply (trans_alloc_untyped_step E T) in H2 as (->&_&_); [|by eapply (iv_trans _ _ _ Hi)|done|by apply (inv_bound E T w k c t u cnt)].
      match goal with H : trans_alloc_untyped E' _ = _ |- _ => apply (trans_alloc_untyped_step E' T) in H as (->&_&_); [|by eapply (iv_trans _ _ _ Hi')|done|eapply (inv_bound E' T w' k c _ u cnt); [done|done|by rewrite Hctx]] end.
      apply walike_set_cnt. by apply walike_call.
    - assert (c0 = c) as -> by by eapply walike_t. by apply walike_call.
    - assert (c0 = c) as -> by by eapply walike_t. by apply walike_call.
    - assert (c0 = c) as -> by by eapply walike_t. by apply walike_call.
    - assert (c0 = c) as -> by by eapply walike_t. apply walike_call; [done|by intros j h [= <- <-]|done].
    - assert (c0 = c) as -> by by eapply walike_t. apply walike_call; [done|done|by intros j h [= <- <-]].
    - assert (c0 = c) as -> by by eapply walike_t. by apply walike_call.
    - assert (c0 = c) as -> by by eapply walike_t. by apply walike_call.
    - destruct (walike_g _ _ _ _ _ _ _ _ _ Hw H0 H5) as [-> Hgg]. rewrite H0, H5. apply walike_del_g, walike_set_t; [done|].
      apply Forall2_app; [apply (wa_log _ _ _ _ Hw)|]. constructor; [|constructor]. constructor. intros i.
      rewrite (gmap_of_get E), (gmap_of_get E') by (by eapply (iv_graph _ _ _ Hi) || by eapply (iv_graph _ _ _ Hi')). apply Hgg.
    - by apply walike_del_t.
    - by apply walike_del_g.
    - match goal with Hx : commit E _ _ = _, Hy : commit E' _ _ = _, Ht : w_trans w !! k = _, Ht' : w_trans w' !! k = _,
        Hg : w_graphs w !! kg = _, Hg' : w_graphs w' !! kg = _ |- _ => destruct (Hcommit _ _ _ _ _ _ _ _ _ _ Ht Hg Hx Ht' Hg' Hy) as [-> Hgg] end.
      apply walike_set_g; [by apply walike_del_t|done].
    - match goal with Hx : commit_checked E _ _ _ = _, Hy : commit_checked E' _ _ _ = _, Ht : w_trans w !! k = _, Ht' : w_trans w' !! k = _,
        Hg : w_graphs w !! kg = _, Hg' : w_graphs w' !! kg = _ |- _ => apply commit_checked_commit in Hx, Hy;
        destruct (Hcommit _ _ _ _ _ _ _ _ _ _ Ht Hg Hx Ht' Hg' Hy) as [-> Hgg] end.
      apply walike_set_g; [by apply walike_del_t|done].
    - by destruct (Hnp kg k p).
    - rewrite Hctx in *. assert (u0 = u /\ cnt0 = cnt) as [-> ->] by (split; congruence).
      match goal with Hg : w_graphs w !! kg = Some (?c0, ?g), Hg' : w_graphs w' !! kg = Some (?c0', ?g'),
        Hx : switch_context E _ _ _ = Done ?c1 ?g1, Hy : switch_context E' _ _ _ = Done ?c1' ?g1' |- _ =>
        destruct (walike_g _ _ _ _ _ _ _ _ _ Hw Hg Hg') as [_ Hgg];
        assert (graph_of E T g) as Hgo by (exists w, kg, c0; split; [by eapply lreach_reachable|done]);
        assert (graph_of E' T g') as Hgo' by (exists w', kg, c0'; split; [by eapply lreach_reachable|done]);
        pose proof (Hkeys kg c c0 c0' g g' eq_refl Hg Hg') as Hkk;
        destruct (switch_alike T g g' u cnt c1 c1' g1 g1') as [-> Hg1]; [done..|]
      end.
      apply walike_set_cnt. by apply walike_set_g.
    - edestruct (deser_alike s cnt cnt0 g g0) as [-> Hg1]; [|done..|].
      { intros i n Hin. match goal with Hx : forall i n, _ -> node_ok E n /\ _ |- _ => destruct (Hx i n Hin) as [? ?] end. split; [done|lia]. }
      pose proof (walike_set_g _ _ _ _ kg (length (w_ctx w)) g g0 Hw Hg1) as [H1' H2' H3' H4']. split; cbn in *; [by rewrite Hctx|by rewrite Hctx|done|done].
  Qed.
End replica.
