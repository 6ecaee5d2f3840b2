(** * Whether a call panics does not depend on the hash order *)
From stdpp Require Export gmap.
From Verif Require Export Known TransFinal AlikeRuns.

Section spec.
  Context {D : Type}.
  Implicit Types (n : node D) (m : gmap N (node D)) (B : idx -> Prop).

  (** closures that look at sets as sets: for equal nodes both calls give equal nodes, or
      both panic *)
  Definition mut_same (f : mut_fn D) : Prop := forall n n', alike n n' ->
    match f n, f n' with Done a _, Done b _ => alike a b | Panicked _ _, Panicked _ _ => True | _, _ => False end.
  Definition upd_same (f : upd_fn D) : Prop := forall n n', alike n n' ->
    match f n, f n' with Ok a, Ok b => alike a b | Err _, Err _ => True | _, _ => False end.
  Lemma mut_same_blind f : mut_same f -> mut_blind f.
  Proof. intros H n n' a b Ha H1 H2. specialize (H n n' Ha). by rewrite H1, H2 in H. Qed.
  Lemma upd_same_blind f : upd_same f -> upd_blind f.
  Proof. intros H n n' a b Ha H1 H2. specialize (H n n' Ha). by rewrite H1, H2 in H. Qed.

  Lemma alike_refers n n' y : alike n n' -> refers n y -> refers n' y.
  Proof.
    intros (_&_&HF) (f&lv&Hf&Hin&Hnz). destruct (Forall2_lookup_l _ _ _ _ _ HF Hf) as (lv'&Hf'&Ha). exists f, lv'.
    split; [done|]. split; [by apply (lv_alike_elems lv lv')|]. destruct Hnz as [?|(k&l&->)]; [by left|right].
    destruct lv'; cbn in Ha; try done. eauto.
  Qed.
  Lemma malike_sym m m' : malike m m' -> malike m' m.
  Proof. intros H i. destruct (H i); constructor. by apply alike_sym. Qed.

  Lemma ts_alike_sym (s s' : tspec D) : ts_alike s s' -> ts_alike s' s.
  Proof. intros []. split; try done; [by apply malike_sym|by rewrite <- ta_mut|by rewrite <- ta_upd]. Qed.

  Lemma l_new_alike m m' B B' y : malike m m' -> (forall y, B y -> B' y) -> l_new m B y -> l_new m' B' y.
  Proof.
    intros Hm HB [H|[H|(x&n&Hx&Hn)]].
    - left. by apply HB.
    - right. left. by apply (malike_some m m').
    - right. right. specialize (Hm x). rewrite Hx in Hm. apply o2_r in Hm as (n'&Hx'&Ha). exists x, n'. split; [done|]. by eapply alike_refers.
  Qed.
  Lemma l_queue_alike (s s' : tspec D) B B' y : ts_alike s s' -> (forall y, B y -> B' y) -> l_queue (ts_txn s) B y -> l_queue (ts_txn s') B' y.
  Proof.
    intros [] HB. unfold l_queue. cbn. apply l_new_alike; [done|]. intros z. unfold l_redir. rewrite ta_redir. intros [?|?]; [left; by apply HB|by right].
  Qed.
  Lemma l_commit_alike (s s' : tspec D) B B' y : ts_alike s s' -> (forall y, B y -> B' y) -> l_commit (ts_txn s) B y -> l_commit (ts_txn s') B' y.
  Proof.
    intros Hs HB. pose proof Hs as []. unfold l_commit. cbn. rewrite ta_del. intros [H ?]. split; [|done].
    unfold l_redir in *. rewrite <- ta_redir_all. destruct H as [H|H]; [left; by eapply l_queue_alike|by right].
  Qed.
  Lemma mutates_listed_alike fs B B' m m' : (forall i f, (i, f) ∈ fs -> mut_same f) -> malike m m' -> (forall y, B y -> B' y) ->
    mutates_listed fs B m -> mutates_listed fs B' m'.
  Proof.
    intros Hf Hm HB. revert m m' Hm. induction fs as [|[i f] fs IH]; intros m m' Hm; cbn; [done|].
    intros (n&a&Hn&Ha&Hr&H). pose proof (Hm i) as Hi. rewrite Hn in Hi. apply o2_r in Hi as (n'&Hn'&Hnn).
    pose proof (Hf i f ltac:(left) n n' Hnn) as Hfn. rewrite Ha in Hfn. destruct (f n') as [b []|] eqn:Hb; [|done].
    exists n', b. split; [done|]. split; [done|]. split; [intros y Hy; apply HB, Hr; eapply alike_refers; [by apply alike_sym|done]|].
    apply (IH ltac:(intros j h Hj; apply (Hf j h); by right) (<[i := a]> m)); [by apply malike_insert|done].
  Qed.
  Lemma updates_listed_alike fs B B' m m' : (forall i f, (i, f) ∈ fs -> upd_same f) -> malike m m' -> (forall y, B y -> B' y) ->
    updates_listed fs B m -> updates_listed fs B' m'.
  Proof.
    intros Hf Hm HB. revert m m' Hm. induction fs as [|[i f] fs IH]; intros m m' Hm; cbn; [done|].
    intros (n&a&Hn&Ha&Hr&H). pose proof (Hm i) as Hi. rewrite Hn in Hi. apply o2_r in Hi as (n'&Hn'&Hnn).
    pose proof (Hf i f ltac:(left) n n' Hnn) as Hfn. rewrite Ha in Hfn. destruct (f n') as [b|] eqn:Hb; [|done].
    exists n', b. split; [done|]. split; [done|]. split; [intros y Hy; apply HB, Hr; eapply alike_refers; [by apply alike_sym|done]|].
    apply (IH ltac:(intros j h Hj; apply (Hf j h); by right) (<[i := a]> m)); [by apply malike_insert|done].
  Qed.
  Lemma sp_removes_some xs m m' : malike m m' -> is_Some (sp_removes xs m) -> is_Some (sp_removes xs m').
  Proof.
    revert m m'. induction xs as [|x xs IH]; intros m m' H; cbn; [by eexists|].
    destruct (H x) as [n n' Hn|]; [|done]. apply IH. unfold sp_remove. apply malike_fmap; [|by apply malike_delete].
    intros a b. apply node_redirect_alike.
  Qed.
  Lemma sp_redirect_exists reps m m' m1 : malike m m' -> sp_redirect reps m m1 -> exists m1', sp_redirect reps m' m1' /\ malike m1 m1'.
  Proof. intros H (r&Hr&->). eexists. split; [by exists r|]. apply malike_fmap; [|done]. intros n n'. apply node_redirects_alike. Qed.

  Lemma commit_listed_alike (s s' : tspec D) m m' B B' : ts_alike s s' -> malike m m' -> (forall y, B y -> B' y) ->
    (forall i f, (i, f) ∈ ts_mut s -> mut_same f) -> (forall i f, (i, f) ∈ ts_upd s -> upd_same f) ->
    commit_listed (ts_txn s) m B -> commit_listed (ts_txn s') m' B'.
  Proof.
    intros Hs Hm HB Hmf Huf. pose proof Hs as []. pose proof (fun y => l_queue_alike s s' B B' y Hs HB) as HQ.
    unfold commit_listed. cbn in *. rewrite <- ta_mut, <- ta_upd, <- ta_redir_all, <- ta_redir, <- ta_del. intros [H1 H2].
    split; [by eapply redir_listed_ext|]. intros m1' Hm1'.
    destruct (sp_redirect_exists _ _ m _ (malike_sym _ _ Hm) Hm1') as (m1&Hm1&Hmm1). apply malike_sym in Hmm1.
    assert (malike (ts_new s ∪ m1) (ts_new s' ∪ m1')) as Hu by by apply malike_union.
    destruct (H2 m1 Hm1) as [H3 H4]. split; [by eapply mutates_listed_alike|]. intros m2' Hm2'.
    destruct (mutates_listed_some _ _ _ H3) as [m2 Hm2]. assert (malike m2 m2') as Hmm2 by (eapply sp_mutates_alike; [exact ta_mut_blind|exact Hu|done..]).
    destruct (H4 m2 Hm2) as (H5&H6&H7). split; [by eapply updates_listed_alike|]. split; [by eapply redir_listed_ext|].
    intros m3' m4' Hm3' Hm4'. destruct (updates_listed_some _ _ _ H5) as [m3 Hm3].
    assert (malike m3 m3') as Hmm3 by (eapply sp_updates_alike; [exact ta_upd_blind|exact Hmm2|done..]).
    destruct (sp_redirect_exists _ _ m3 _ (malike_sym _ _ Hmm3) Hm4') as (m4&Hm4&Hmm4). apply malike_sym in Hmm4.
    eapply sp_removes_some; [exact Hmm4|]. by eapply H7.
  Qed.
End spec.

Section two.
  Context {D : Type} (E E' : env) (Hk : e_kinds E = e_kinds E') (Ho : forall l, e_opp E l = e_opp E' l) (Hbf : bidi_fields E).
  Context (Hck : forall v l, e_chk E v l = e_chk E' v l) (Hcv : forall v l, e_chk E v l = false -> nonvec E l).
  Context (Hone : forall l v, length (opposites_on E l v) <= 1) (Hdbg : e_dbg E' = true -> e_dbg E = true).
  Implicit Types (g : graph D) (n : node D) (m : gmap N (node D)) (L : list (idx * node D)).

  Lemma kind_same l : linkkind E l = linkkind E' l.
  Proof using Hk. unfold linkkind. by rewrite Hk. Qed.
  Lemma node_ok_same n : node_ok E n -> node_ok E' n.
  Proof using Hk. unfold node_ok. by rewrite Hk. Qed.
  Lemma node_ok_same' n : node_ok E' n -> node_ok E n.
  Proof using Hk. unfold node_ok. by rewrite Hk. Qed.

  Lemma added_alike g g' m m' x y l : galike g g' -> malike m m' -> added g' m' x y l -> added g m x y l.
  Proof. intros Hg Hm [H1 H2]. split; [by apply (malike_link m m')|]. intros H. apply H2. by apply (galike_link g g'). Qed.
  Lemma conflict_alike g g' m m' : galike g g' -> malike m m' ->
    no_conflict E g m /\ added_typed E g m -> no_conflict E' g' m' /\ added_typed E' g' m'.
  Proof using Hk Ho Hck Hone.
    intros Hg Hm [H1 H2]. split.
    - intros x y l ny' Ha Hy'. pose proof (Hm y) as Hy. rewrite Hy' in Hy. apply o2_l in Hy as (ny&Hy&(Hv&_)).
      specialize (H1 x y l ny (added_alike _ _ _ _ _ _ _ Hg Hm Ha) Hy). rewrite <- Hv, <- (opposites_same E E' Ho).
      specialize (Hone l (nvar ny)). destruct (opposites_on E l (nvar ny)) as [|k [|k2 ks]]; [done| |cbn in Hone; lia].
      rewrite <- kind_same. intros Hd z Hz. apply H1; [done|]. by eapply (mirrored_alike E E' Ho g g' m m').
    - intros x y l ny' Ha Hy'. pose proof (Hm y) as Hy. rewrite Hy' in Hy. apply o2_l in Hy as (ny&Hy&(Hv&_)).
      rewrite <- Hv, <- Hck. by apply (H2 x y l ny (added_alike _ _ _ _ _ _ _ Hg Hm Ha)).
  Qed.
  Lemma Hbf' : bidi_fields E'.
  Proof using Hk Ho Hbf. by apply (bidi_fields_same E E'). Qed.
  Lemma Hcv' v l : e_chk E' v l = false -> nonvec E' l.
  Proof using Hk Hck Hcv. rewrite <- Hck. intros H. apply (nonvec_same E E' Hk). by eapply Hcv. Qed.
  Lemma Hone' l v : length (opposites_on E' l v) <= 1.
  Proof using Ho Hone. by rewrite <- (opposites_same E E' Ho). Qed.

  Lemma commit_same T g g' t t' (s s' : tspec D) g1 : history E T g t s -> history E' T g' t' s' -> galike g g' -> ts_alike s s' ->
    (forall y, listed g y <-> listed g' y) -> (forall i f, (i, f) ∈ ts_mut s -> mut_same f) -> (forall i f, (i, f) ∈ ts_upd s -> upd_same f) ->
    commit E t g = Done g1 tt -> exists g1', commit E' t' g' = Done g1' tt /\ forall y, listed g1 y <-> listed g1' y.
  Proof using Hk Ho Hbf Hck Hcv Hone Hdbg.
    intros Hh Hh' Hg Hs Hl Hm Hu Hc. pose proof (history_nodes E T g t s Hh) as Hn. pose proof (history_nodes E' T g' t' s' Hh') as Hn'.
    assert (malike (gmap_of g) (gmap_of g')) as Hmm by by eapply galike_maps.
    assert (exists g1', commit E' t' g' = Done g1' tt) as [g1' Hc'].
    { apply (final_commit_iff E' T g' t' s' Hh' (gmap_of g') Hbf' Hcv' Hone' Hn').
      destruct (proj1 (final_commit_iff E T g t s Hh (gmap_of g) Hbf Hcv Hone Hn)) as (H1&H2&H3); [by exists g1|].
      split; [|split].
      - rewrite <- (ta_res _ _ Hs). destruct H1 as [H1|H1]; [|by right]. left. destruct (e_dbg E'); [|done]. by rewrite Hdbg in H1.
      - eapply commit_listed_alike; [exact Hs|exact Hmm|intros y; apply Hl|done|done|done].
      - intros m1' Hm1'. destruct (history_ok E T g t s Hh) as (Hwf&Hty&Ht&_).
        destruct (commit_done E T g t Hwf Hty Ht g1 Hc) as (_&g2&r&m1&Hcm&_).
        pose proof (cm_spec _ _ _ _ _ _ _ _ Hcm) as Hsp. rewrite (history_txn E T g t s Hh) in Hsp.
        eapply conflict_alike; [exact Hg| |by apply H3, Hsp]. by eapply sp_commit_alike. }
    exists g1'. split; [done|]. intros y. destruct (final_listed E T g t s Hh g1 Hc) as [_ H1], (final_listed E' T g' t' s' Hh' g1' Hc') as [_ H1'].
    rewrite H1, H1'. split; [apply l_commit_alike; [done|intros z; apply Hl]|apply l_commit_alike; [by apply ts_alike_sym|intros z; apply Hl]].
  Qed.

  (** ** switch_context *)
  Lemma switched_alike g g' c L L' i n' : (graph_iter g).*1 = (graph_iter g').*1 -> galike g g' ->
    switched_entries g c L -> switched_entries g' c L' -> (i, n') ∈ L' -> exists n, (i, n) ∈ L /\ alike n n'.
  Proof.
    intros Hkey Hg (_&H1&_) (_&_&H2) Hi. destruct (H2 i n' Hi) as (x&m'&Hx'&->&Hsw').
    assert (forall x, new_index g c x = new_index g' c x) as Hni by (intros; by apply new_index_keys).
    pose proof (Hg x) as Hx. rewrite Hx' in Hx. apply o2_l in Hx as (m&Hx&Ha). destruct (H1 x m Hx) as (n&Hn&Hsw).
    exists n. split; [by rewrite <- Hni|]. eapply node_switched_alike; [exact Ha|exact Hsw|].
    eapply node_switched_keys; [| |exact Hsw']; [done|]. intros z. by rewrite Hni.
  Qed.
  Definition lalike L L' : Prop := forall i n', (i, n') ∈ L' -> exists n, (i, n) ∈ L /\ alike n n'.
  Lemma entry_alike L L' x y l : lalike L L' -> entry_link L' x y l -> entry_link L x y l.
  Proof. intros H (n'&Hn'&Hl). destruct (H x n' Hn') as (n&Hn&Ha). exists n. split; [done|]. by apply (alike_link_iff n n'). Qed.
  Lemma completed_alike L L' x y k : lalike L L' -> completed E' L' x y k -> completed E L x y k.
  Proof using Ho.
    intros H [H1|(l&na&H1&H2&H3)]; [left; by eapply entry_alike|right]. destruct (H x na H2) as (n&Hn&(Hv&_)).
    exists l, n. split; [by eapply entry_alike|]. split; [done|]. by rewrite (opposites_same E E' Ho), Hv.
  Qed.
  Lemma known_alike L L' y : lalike L L' -> known_in L' y -> known_in L y.
  Proof.
    intros H (i&n'&Hi&Hy). destruct (H i n' Hi) as (n&Hn&Ha). exists i, n. split; [done|]. destruct Hy as [?|Hy]; [by left|right].
    eapply alike_refers; [by apply alike_sym|done].
  Qed.
  Lemma switch_same T g g' ctx c c1 g1 : graph_of E T g -> graph_of E' T g' -> (graph_iter g).*1 = (graph_iter g').*1 -> galike g g' ->
    (c + N.of_nat (length (graph_iter g)) < usize_mod)%N -> switch_context E g ctx c = Done c1 g1 -> graph_of E T g1 ->
    exists g1', switch_context E' g' ctx c = Done c1 g1' /\ forall y, listed g1 y <-> listed g1' y.
  Proof using Hk Ho Hbf Hck Hone.
    intros Hg Hg' Hkey Ha Hroom Hs Hgo1. assert (length (graph_iter g') = length (graph_iter g)) as Hlen.
    { rewrite <- (fmap_length fst (graph_iter g)), Hkey, fmap_length. done. }
    assert (c + N.of_nat (length (graph_iter g')) < usize_mod)%N as Hroom' by by rewrite Hlen.
    destruct (final_switch_bidi E T g ctx c Hg Hbf Hroom) as (L&HL&HS).
    destruct (final_switch_bidi E' T g' ctx c Hg' Hbf' Hroom') as (L'&HL'&HS').
    assert (galike g' g) as Ha' by (intros i; destruct (Ha i); constructor; by apply alike_sym).
    assert (lalike L L') as Hll by (intros i n'; by apply (switched_alike g g' c)).
    assert (lalike L' L) as Hll'.
    { intros i n Hi. eapply (switched_alike g' g c L' L) in Hi as (n'&Hn'&Hal); [|done|done|done|done]. exists n'. done. }
    rewrite Hs in HS. destruct HS as (->&_&Hdom&Hent&Hlk&Hty).
    assert (exists g1', switch_context E' g' ctx c = Done (c + N.of_nat (length (graph_iter g)))%N g1') as [g1' Hs'].
    { destruct (switch_context E' g' ctx c) as [c1' g1'|p c1']; [destruct HS' as [-> _]; rewrite Hlen; eauto|exfalso].
      destruct HS' as (_&x&y&l&ny'&Hl&Hy&Hcase). destruct (Hll y ny' Hy) as (ny&Hny&(Hv&_)). apply (entry_alike L) in Hl; [|done].
      destruct Hcase as [[_ Hf]|[(_&H2&_)|(_&k&z&Hop&Hd&Hz&Hcp)]].
      - rewrite <- Hck, <- Hv in Hf. by rewrite (Hty x y l ny Hl Hny) in Hf.
      - pose proof (Hone' l (nvar ny')). lia.
      - apply (completed_alike L) in Hcp; [|done]. rewrite <- (opposites_same E E' Ho), <- Hv in Hop. rewrite <- kind_same in Hd.
        assert (completed E L y x k) as Hcx by (right; by exists l, ny).
        apply Hlk in Hcp as (n1&Hg1&Hl1), Hcx as (n2&Hg2&Hl2). assert (n2 = n1) as -> by congruence.
        assert (node_ok E n1) as (ks&Hks&HF).
        { destruct (graph_of_ok E T g1 Hgo1) as [Hwf _]. eapply (wf_nodes _ _ Hwf). done. }
        destruct Hl1 as (_&Hv1&lv&Hlv&Hin1), Hl2 as (_&_&lv2&Hlv2&Hin2). assert (lv2 = lv) as -> by congruence.
        destruct (Forall2_lookup_r _ _ _ _ _ HF Hlv) as (kd&Hkd&[Hko _]).
        unfold linkkind in Hd. rewrite <- Hv1, Hks in Hd. cbn in Hd. assert (kd = KDirect) as -> by congruence.
        destruct lv; cbn in Hko; try done. cbn in Hin1, Hin2. apply elem_of_list_singleton in Hin1, Hin2. congruence. }
    exists g1'. split; [done|]. intros y.
    rewrite (switch_listed E T g ctx c _ g1 L Hg Hroom Hs HL y), (switch_listed E' T g' ctx c _ g1' L' Hg' Hroom' Hs' HL' y).
    split; by apply known_alike.
  Qed.
  Lemma deser_same s cnt g : (forall i n, (i, n) ∈ gs_nodes s -> node_ok E n /\ i <> 0%N) -> deserialize_graph E s = Ok (cnt, g) ->
    exists g', deserialize_graph E' s = Ok (cnt, g') /\ forall y, listed g y <-> listed g' y.
  Proof using Hk Ho Hbf Hone.
    intros Hok Hd.
    assert (forall i n, (i, n) ∈ gs_nodes s -> node_ok E' n /\ i <> 0%N) as Hok'.
    { intros i n Hi. destruct (Hok i n Hi). split; [by apply node_ok_same|done]. }
    destruct (proj1 (final_deser_success E s Hbf Hok Hone)) as [Hnd Hu]; [by exists cnt, g|].
    assert (lalike (gs_nodes s) (gs_nodes s)) as Hll by (intros i n Hi; exists n; split; [done|apply alike_refl]).
    destruct (proj2 (final_deser_success E' s Hbf' Hok' Hone')) as (cnt'&g'&Hd').
    { split; [done|]. intros x y l ny k Hl Hy Hop Hkd z Hz. apply (Hu x y l ny k); try done.
      - by rewrite (opposites_same E E' Ho).
      - by rewrite kind_same.
      - by apply (completed_alike _ (gs_nodes s)). }
    assert (cnt' = cnt) as ->.
    { unfold deserialize_graph in *. destruct (do_deserialize E _ _); [|done]. destruct (do_deserialize E' _ _); [|done]. congruence. }
    exists g'. split; [done|]. intros y. by rewrite (deser_listed E s cnt g Hok Hd), (deser_listed E' s cnt g' Hok' Hd').
  Qed.

  (** ** Calls on transactions *)
  Definition call_same (c : tcall D) : Prop :=
    match c with CMutate _ f => mut_same f | CUpdate _ f => upd_same f | _ => True end.
  Definition ev_same (e : tevent D) : Prop := match e with EvCall _ c => call_same c | EvMerge _ => True end.
  Lemma ts_run_same (L : list (tevent D)) (s s1 : tspec D) : ts_run s L = Some s1 -> (forall e, e ∈ L -> ev_same e) ->
    (forall i f, (i, f) ∈ ts_mut s -> mut_same f) -> (forall i f, (i, f) ∈ ts_upd s -> upd_same f) ->
    (forall i f, (i, f) ∈ ts_mut s1 -> mut_same f) /\ (forall i f, (i, f) ∈ ts_upd s1 -> upd_same f).
  Proof.
    revert s. induction L as [|e L IH]; intros s Hr He Hm Hu; cbn in Hr; [by injection Hr as <-|].
    destruct (ts_event s e) as [s2|] eqn:H2; [|done]. specialize (He e ltac:(left)) as He1.
    apply (IH s2 Hr); [intros e' He'; apply He; by right|..]; intros i f; destruct e as [j c|m]; cbn in H2, He1.
    - destruct c; cbn in H2, He1; repeat case_match; simplify_eq; cbn; try by apply Hm.
      intros [Hin|[= -> ->]%elem_of_list_singleton]%elem_of_app; [by eapply Hm|done].
    - injection H2 as <-. apply Hm.
    - destruct c; cbn in H2, He1; repeat case_match; simplify_eq; cbn; try by apply Hu.
      intros [Hin|[= -> ->]%elem_of_list_singleton]%elem_of_app; [by eapply Hu|done].
    - injection H2 as <-. apply Hu.
  Qed.
  Lemma ts_call_same i (s s' : tspec D) c : ts_alike s s' -> call_same c -> is_Some (ts_call i s c) -> is_Some (ts_call i s' c).
  Proof.
    intros [] Hc. destruct c as [| | |j n|j n|j|j f|j f| |]; cbn [ts_call call_same] in *; rewrite <- ?ta_res; try (intros _; by eexists).
    - case_match; [case_match; [case_decide|]|]; first [by intros [? [=]]|intros _; by eexists].
    - intros _. destruct (ts_new s' !! j); [by eexists|]. destruct (ts_res s !! j); by eexists.
    - destruct (ta_new j) as [n n' Hn|]; [|intros _; by eexists]. specialize (Hc n n' Hn).
      destruct (f n) as [? []|]; [|by intros [? [=]]]. destruct (f n') as [? []|]; [|done]. intros _. by eexists.
    - destruct (ta_new j) as [n n' Hn|]; [|intros _; by eexists]. specialize (Hc n n' Hn).
      destruct (f n) as [?|]; [|by intros [? [=]]]. destruct (f n') as [?|]; [|done]. intros _. by eexists.
  Qed.

  (** ** Worlds *)
  Notation world := (world (D:=D)).
  Notation log := (nat -> list (tevent D)).
  Implicit Types (w : world) (lg : log) (T : Prop) (o : op (D:=D)).
  Definition op_same o : Prop :=
    match o with
    | OMutate _ _ f => mut_same f | OUpdate _ _ f => upd_same f
    | OCommitPanic _ _ _ | OCommitChecked _ _ _ => False
    | _ => True
    end.
  Lemma op_same_blind o : op_same o -> op_blind o.
  Proof. destruct o; cbn; try done; [apply mut_same_blind|apply upd_same_blind]. Qed.
  Definition log_same lg : Prop := forall k e, e ∈ lg k -> ev_same e.
  Lemma log_same_step w o lg : op_same o -> log_same lg -> log_same (log_step w o lg).
  Proof.
    intros Ho1 Hl k e. assert (forall k1 (L : list (tevent D)), (forall e, e ∈ L -> ev_same e) -> e ∈ lput lg k1 L k -> ev_same e) as Hput.
    { intros k1 L HL. unfold lput. case_decide; [apply HL|apply Hl]. }
    assert (forall k1 i c, call_same c -> e ∈ lcall lg k1 i c k -> ev_same e) as Hcall.
    { intros k1 i c Hc. apply Hput. intros e1 [H1| ->%elem_of_list_singleton]%elem_of_app; [by eapply Hl|done]. }
    destruct o; cbn [log_step]; try apply Hl; try (by apply Hcall).
    - apply Hput. by intros ? ?%elem_of_nil.
    - destruct (w_graphs w !! kg) as [[c g]|]; [|apply Hl]. apply Hput.
      intros e1 [H1| ->%elem_of_list_singleton]%elem_of_app; [by eapply Hl|done].
  Qed.
  Definition listed_same w w' : Prop :=
    forall kg c c' g g', w_graphs w !! kg = Some (c, g) -> w_graphs w' !! kg = Some (c', g') -> forall y, listed g y <-> listed g' y.
  Lemma listed_same_put w w' w1 w1' kg c c' g g' : listed_same w w' -> (forall y, listed g y <-> listed g' y) ->
    w_graphs w1 = <[kg := (c, g)]> (w_graphs w) -> w_graphs w1' = <[kg := (c', g')]> (w_graphs w') -> listed_same w1 w1'.
  Proof.
    intros Hw Hg H1 H1' k x x' a a'. rewrite H1, H1'. destruct (decide (k = kg)) as [->|Hne].
    - rewrite !lookup_insert. intros [= <- <-] [= <- <-]. exact Hg.
    - rewrite !lookup_insert_ne by done. apply Hw.
  Qed.
  Lemma listed_same_del w w' w1 w1' kg : listed_same w w' ->
    w_graphs w1 = delete kg (w_graphs w) -> w_graphs w1' = delete kg (w_graphs w') -> listed_same w1 w1'.
  Proof. intros Hw H1 H1' k x x' a a'. rewrite H1, H1'. intros [_ H2]%lookup_delete_Some [_ H3]%lookup_delete_Some. by eapply Hw. Qed.

  Lemma call_same_run T w w' lg lg' k c t t' u cnt (cl : tcall D) cnt1 t1 i :
    lreach E T w lg -> lreach E' T w' lg' -> walike w w' lg lg' -> log_same lg -> call_same cl ->
    w_trans w !! k = Some (c, t) -> w_trans w' !! k = Some (c, t') -> w_ctx w !! c = Some (u, cnt) ->
    tc_ok E t cl -> (allocates cl = true -> cnt + 1 < usize_mod)%N ->
    tc_run E cl (cnt, t) = Done (cnt1, t1) i -> tc_ok E' t' cl /\ exists t1', tc_run E' cl (cnt, t') = Done (cnt1, t1') i.
  Proof using Hk.
    intros Hl Hl' Hw Hls Hcs Ht Ht' Hc Hok Hb Hr. pose proof (wa_ctx _ _ _ _ Hw) as Hctx.
    assert (open_trans E T cnt t (lg k)) as Hop by by exists w, lg, k, c, u.
    assert (open_trans E' T cnt t' (lg' k)) as Hop' by (exists w', lg', k, c, u; by rewrite Hctx).
    destruct (open_rep E T cnt t _ Hop) as (u1&Hh), (open_rep E' T cnt t' _ Hop') as (u1'&Hh').
    destruct (t_hist_rep E _ _ _ _ Hh) as (s&Hs&Hrep&_), (t_hist_rep E' _ _ _ _ Hh') as (s'&Hs'&Hrep'&_).
    assert (ts_alike s s') as Ha by (eapply ts_run_alike; [apply (wa_log _ _ _ _ Hw)|apply ts_alike_empty|exact Hs|exact Hs']).
    assert (tc_ok E' t' cl) as Hok'.
    { destruct cl as [| | | |j n| | | | |]; cbn in *; try done; try by apply node_ok_same. destruct Hok as [H1 H2]. split; [by apply node_ok_same|].
      pose proof (tr_res _ _ _ Hrep j) as R. pose proof (tr_res _ _ _ Hrep' j) as R'. rewrite (ta_res _ _ Ha), R' in R. rewrite (decide_True _ _ H2) in R.
      by destruct (decide (j ∈ t_alloc t')). }
    split; [done|]. pose proof (open_call E T cnt t _ cl s Hop Hs Hok Hb) as H1. rewrite Hr in H1. destruct H1 as (s1&Hc1&_&Hi).
    pose proof (open_call E' T cnt t' _ cl s' Hop' Hs' Hok' Hb) as H2.
    destruct (tc_run E' cl (cnt, t')) as [[cnt2 t2] i2|p [cnt2 t2]] eqn:Hr'.
    - destruct H2 as (s2&_&_&Hi2). destruct (allocates cl) eqn:Hal.
      + destruct Hi as [-> ->], Hi2 as [-> ->]. by exists t2.
      + subst cnt1 cnt2. exists t2. f_equal. destruct cl; try done; cbn in Hr, Hr'; repeat case_match; congruence.
    - destruct H2 as [H2 _]. destruct (ts_call_same i s s' cl Ha Hcs) as [? Hx]; [by eexists|]. by rewrite H2 in Hx.
  Qed.

  Lemma step_same T w w' lg lg' o w1 : lreach E T w lg -> lreach E' T w' lg' -> walike w w' lg lg' -> log_same lg -> listed_same w w' ->
    step E T w o w1 -> clean_merge E w o -> op_same o ->
    (forall kg c c1 c2 g g', o = OSwitch kg c -> w_graphs w !! kg = Some (c1, g) -> w_graphs w' !! kg = Some (c2, g') -> (graph_iter g).*1 = (graph_iter g').*1) ->
    exists w1', step E' T w' o w1' /\ listed_same w1 w1'.
  Proof using Hk Ho Hbf Hck Hcv Hone Hdbg.
    intros Hl Hl' Hw Hls Hli Hs Hcl Hos Hkeys. pose proof (wa_ctx _ _ _ _ Hw) as Hctx.
    assert (inv E' T w') as Hi' by by eapply reachable_inv, lreach_reachable.
    assert (forall k c t, w_trans w !! k = Some (c, t) -> exists t', w_trans w' !! k = Some (c, t')) as Htr.
    { intros k c t Ht. pose proof (wa_trans _ _ _ _ Hw k) as Hx. rewrite Ht in Hx. apply o2_r in Hx as ([c2 t']&Hx&Hc). cbn in Hc. subst. by exists t'. }
    assert (forall kg c g, w_graphs w !! kg = Some (c, g) -> exists g', w_graphs w' !! kg = Some (c, g') /\ galike g g') as Hgr.
    { intros kg c g Hg. pose proof (wa_graph _ _ _ _ Hw kg) as Hx. rewrite Hg in Hx. apply o2_r in Hx as ([c2 g']&Hx&[Hc ?]). cbn in *. subst. by exists g'. }
    assert (forall k c t, w_trans w !! k = Some (c, t) -> exists u cnt, w_ctx w !! c = Some (u, cnt)) as Hcx.
    { intros k c t Ht. assert (inv E T w) as Hi by by eapply reachable_inv, lreach_reachable.
      destruct (iv_trans _ _ _ Hi k c t Ht) as (_&cnt&Hc). eauto. }
    assert (reachable E T w1) as Hr1 by (eapply reach_step; [by eapply lreach_reachable|exact Hs]).
    destruct Hs.
    - eexists. split; [by constructor|]. done.
    - eexists. split; [econstructor; by rewrite Hctx|]. eapply (listed_same_put w w'); [done| |done|done].
      intros y. unfold listed. done.
    - eexists. split; [econstructor; by rewrite Hctx|]. done.
    - destruct (Htr k c t H) as [t1 Ht1].
      destruct (call_same_run T w w' lg lg' k c t t1 u cnt (CInsert n) cnt' t' i) as (Hok&t2&Hr); try done.
      eexists. split; [eapply st_insert; try done; by rewrite Hctx|]. done.
    - destruct (Htr k c t H) as [t1 Ht1].
      destruct (call_same_run T w w' lg lg' k c t t1 u cnt (CAlloc d) cnt' t' i) as (Hok&t2&Hr); try done.
      eexists. split; [eapply st_alloc; try done; by rewrite Hctx|]. done.
    - destruct (Htr k c t H) as [t1 Ht1].
      destruct (call_same_run T w w' lg lg' k c t t1 u cnt CAllocUntyped cnt' t' i) as (Hok&t2&Hr); try done.
      eexists. split; [eapply st_alloc_untyped; try done; by rewrite Hctx|]. done.
    - destruct (Htr k c t H) as [t1 Ht1]. destruct (Hcx k c t H) as (u&cnt&Hc).
      destruct (call_same_run T w w' lg lg' k c t t1 u cnt (CFill i n) cnt t' 0%N) as (Hok&t2&Hr); try done; [cbn; by rewrite H1|].
      cbn in Hr. destruct (trans_fill_back i n t1) as [? []|] eqn:Hf; [|done].
      eexists. split; [by eapply st_fill|]. done.
    - destruct (Htr k c t H) as [t1 Ht1]. destruct (Hcx k c t H) as (u&cnt&Hc).
      destruct (call_same_run T w w' lg lg' k c t t1 u cnt (CFillUntyped i n) cnt t' 0%N) as ([Hok Hok2]&t2&Hr); try done; [cbn; by rewrite H2|].
      cbn in Hr. destruct (trans_fill_back_untyped i n t1) as [? []|] eqn:Hf; [|done].
      eexists. split; [by eapply st_fill_untyped|]. done.
    - destruct (Htr k c t H) as [t1 Ht1]. eexists. split; [by eapply st_remove|]. done.
    - destruct (Htr k c t H) as [t1 Ht1]. destruct (Hcx k c t H) as (u&cnt&Hc).
      destruct (call_same_run T w w' lg lg' k c t t1 u cnt (CMutate i f) cnt t' 0%N) as (Hok&t2&Hr); try done; [cbn; by rewrite H1|].
      cbn in Hr. destruct (trans_mutate i f t1) as [? []|] eqn:Hf; [|done].
      eexists. split; [eapply st_mutate; [done| |done]|done]. intros n n' Hn Hfn. apply node_ok_same' in Hn. destruct (H0 n n' Hn Hfn). split; [by apply node_ok_same|done].
    - destruct (Htr k c t H) as [t1 Ht1]. destruct (Hcx k c t H) as (u&cnt&Hc).
      destruct (call_same_run T w w' lg lg' k c t t1 u cnt (CUpdate i f) cnt t' 0%N) as (Hok&t2&Hr); try done; [cbn; by rewrite H1|].
      cbn in Hr. destruct (trans_update i f t1) as [? []|] eqn:Hf; [|done].
      eexists. split; [eapply st_update; [done| |done]|done]. intros n n' Hn Hfn. apply node_ok_same' in Hn. destruct (H0 n n' Hn Hfn). split; [by apply node_ok_same|done].
    - destruct (Htr k c t H) as [t1 Ht1]. eexists. split; [by eapply st_redirect|]. done.
    - destruct (Htr k c t H) as [t1 Ht1]. eexists. split; [by eapply st_redirect_all|]. done.
    - destruct (Htr k c t H) as [t1 Ht1], (Hgr kg c g H0) as (g1&Hg1&_).
      destruct (inv_trans_ok E' T w' kg k c g1 t1 Hi' Hg1 Ht1) as (_&_&_&He).
      destruct (trans_merge g1 t1) as [t2 []|p t2] eqn:Hm; [|unfold trans_merge in Hm; by rewrite He, N.eqb_refl in Hm].
      eexists. split; [by eapply st_merge|]. by eapply (listed_same_del w w').
    - eexists. split; [by constructor|]. done.
    - eexists. split; [by constructor|]. by eapply (listed_same_del w w').
    - destruct (Htr k c t H) as [t1 Ht1], (Hgr kg c g H0) as (g1&Hg1&Hgg).
      destruct (history_in E T w lg kg k c g t Hl H0 H) as (s&Hh&Hs1), (history_in E' T w' lg' kg k c g1 t1 Hl' Hg1 Ht1) as (s'&Hh'&Hs1').
      assert (ts_alike s s') as Ha by (eapply ts_run_alike; [apply (wa_log _ _ _ _ Hw)|apply ts_alike_empty|exact Hs1|exact Hs1']).
      destruct (ts_run_same (lg k) ts_empty s Hs1) as [Hm Hu]; [apply Hls|by intros ?? ?%elem_of_nil..|].
      destruct (commit_same T g g1 t t1 s s' g' Hh Hh' Hgg Ha) as (g2&Hc2&Hl2); [by eapply Hli|done|done|done|].
      eexists. split; [by eapply st_commit|]. by eapply (listed_same_put w w').
    - done.
    - done.
    - destruct (Hgr kg c0 g H) as (g1&Hg1&Hgg).
      destruct (switch_same T g g1 u cnt cnt' g') as (g2&Hs2&Hl2); try done.
      + exists w, kg, c0. split; [by eapply lreach_reachable|done].
      + exists w', kg, c0. split; [by eapply lreach_reachable|done].
      + by eapply Hkeys.
      + exists (set_cnt (set_g w kg (c, g')) c u cnt'), kg, c. split; [done|]. cbn. apply lookup_insert.
      + eexists. split; [eapply st_switch; [done|by rewrite Hctx| |done]|by eapply (listed_same_put w w')].
        rewrite <- (fmap_length fst (graph_iter g1)), <- (Hkeys kg c c0 c0 g g1), fmap_length; done.
    - destruct (deser_same s cnt g) as (g2&Hd2&Hl2); [|done|].
      + intros i n Hin. destruct (H i n Hin). split; [done|lia].
      + eexists. split; [eapply st_deser; [|done]|].
        * intros i n Hin. destruct (H i n Hin). split; [by apply node_ok_same|done].
        * rewrite Hctx. by eapply (listed_same_put w w').
  Qed.
End two.
