(** * Serialization: the round trip *)
From Verif Require Export GraphFinal Rebuild.

Section ser.
  Context {D : Type} (E : env).
  Implicit Types (g : graph D) (n : node D) (x y : idx) (a : arena D).

  (** every link between two nodes of the graph that has possible opposites at its
      target has one of them *)
  Definition answered g : Prop :=
    forall x y nx ny l, graph_get g x = Some nx -> graph_get g y = Some ny -> has_link nx l y ->
      (exists k, k ∈ e_opp E l /\ l_var k = nvar ny) ->
      exists k, k ∈ e_opp E l /\ has_link ny k x.
  Lemma symmetric_answered g : bidi_symmetric E g -> answered g.
  Proof.
    intros Hs x y nx ny l Hx Hy Hl (k&Hk&Hv). exists k. split; [done|].
    apply (Hs x y nx ny l k Hx Hy Hk); [|done..]. symmetry. apply Hl.
  Qed.

  Lemma merge_nodes_adds a g r : lc_rems r = [] ->
    (forall x y l, (x, y, l) ∈ lc_adds r -> exists n, (x, n) ∈ arena_items a /\ has_link n l y) ->
    exists g' r', merge_nodes E a (g, r) = Done (g', r') tt /\
      forall x y l, (x, y, l) ∈ lc_adds r' -> exists n, (x, n) ∈ arena_items a /\ has_link n l y.
  Proof.
    intros Hr Hadd.
    set (I := fun (gr : graph D * lcr) => lc_rems gr.2 = [] /\
      forall x y l, (x, y, l) ∈ lc_adds gr.2 -> exists n, (x, n) ∈ arena_items a /\ has_link n l y).
    assert (wp (merge_nodes E a) (g, r) (fun _ s => I s) (fun _ _ => False)) as Hwp.
    { unfold merge_nodes. apply wp_bind.
      eapply wp_mono; [apply (wp_mfor_simple _ _ I (fun _ _ => False)); [done|]|..].
      2:{ intros _ [g1 r1] Hr1. done. } 2:{ done. }
      intros [x n] [g1 r1] Hx Hr1. apply wp_bind. unfold add_back_links.
      assert (forall g2 y (e : idx * source), wp (back_entry_insert (D:=D) y e) (g2, r1) (fun _ '(_, r') => r' = r1) (fun _ _ => False)) as Hbi.
      { intros g2 y e. unfold back_entry_insert. apply wp_bind. unfold wp at 1, back_entry.
        unfold wp, back_insert. cbn. rewrite omap_get_entry. by rewrite decide_True. }
      apply wp_bind. unfold wp at 1, back_entry.
      eapply wp_mono; [apply (wp_mfor_simple _ _ (fun '(_, r') => r' = r1) (fun _ _ => False)); [done|]|..].
      - intros [y s] [g2 r2] _ ->. apply Hbi.
      - intros _ [g2 r2] ->.
        apply (wp_mfor_simple _ _ I); [done|].
        intros [y s] [g3 r3] Hs [Hr3 Ha3]. apply elem_iter_sources in Hs. unfold wp, rec_add. unfold lcr_add.
        destruct (N.eqb_spec y 0) as [Hy|Hy]; [done|]. cbn in *.
        rewrite Hr3. rewrite decide_False by (intros Hin; inversion Hin). split; [done|]. cbn.
        intros x' y' l'. rewrite oset_insert_elem. intros [Heq|Hin]; [|by apply Ha3]. injection Heq as -> -> ->.
        exists n. split; [done|]. by apply src_val_has_link.
      - done. }
    unfold wp in Hwp. destruct (merge_nodes E a (g, r)) as [[g' r'] []|]; [|done]. exists g', r'. split; [done|]. apply Hwp.
  Qed.

  (** the containers of a typed arena can be rebuilt from its items *)
  Lemma filter_items (L : list (list (idx * node D))) k d :
    (forall d' c i n, L !! d' = Some c -> (i, n) ∈ c -> nvar n = k + d') ->
    filter (fun kv : idx * node D => nvar kv.2 = d) (concat L) =
      if decide (k <= d) then default [] (L !! (d - k)) else [].
  Proof.
    revert k. induction L as [|c L IH]; intros k Ht; [by case_decide|]. cbn [concat]. rewrite filter_app, (IH (S k)).
    2:{ intros d' c' i n Hl Hin. rewrite (Ht (S d') c' i n Hl Hin). lia. }
    assert (forall i n, (i, n) ∈ c -> nvar n = k) as Hc by (intros i n Hin; rewrite (Ht 0 c i n eq_refl Hin); lia).
    destruct (decide (k = d)) as [->|Hne].
    - rewrite (decide_False (P := S d <= d)), (decide_True (P := d <= d)) by lia.
      rewrite Nat.sub_diag, app_nil_r. cbn. clear IH Ht. induction c as [|[i n] c IH]; [done|].
      rewrite filter_cons_True by (cbn; apply (Hc i); left). f_equal. apply IH. intros i' n' Hin. apply (Hc i'). by right.
    - assert (filter (fun kv : idx * node D => nvar kv.2 = d) c = []) as ->.
      { clear IH Ht. induction c as [|[i n] c IH]; [done|].
        rewrite filter_cons_False by (cbn; rewrite (Hc i n) by left; done). apply IH. intros i' n' Hin. apply (Hc i'). by right. }
      destruct (decide (S k <= d)) as [?|?], (decide (k <= d)) as [?|?]; try lia; [|done].
      destruct (d - k) as [|m] eqn:Hm; [lia|]. replace (d - S k) with m by lia. done.
  Qed.
  Lemma items_cont a d : arena_ok E a -> atyped a -> filter (fun kv : idx * node D => nvar kv.2 = d) (arena_items a) = cont a d.
  Proof.
    intros Hok Hty. unfold arena_items. rewrite (filter_items _ 0).
    - rewrite decide_True by lia. by rewrite Nat.sub_0_r.
    - intros d' c i n Hc Hin. apply cont_lookup in Hc. rewrite <- Hc in Hin.
      destruct (arena_get_cont E a i n d' Hok Hin) as [Hg Hd]. cbn. by apply (Hty i n d').
  Qed.
  Lemma cont_ext a b : arena_ok E a -> arena_ok E b -> (forall d, cont a d = cont b d) -> a_cont a = a_cont b.
  Proof.
    intros (_&Hla&_) (_&Hlb&_) Hc. apply list_eq. intros d. specialize (Hc d). unfold cont in Hc.
    destruct (a_cont a !! d) as [c|] eqn:H1, (a_cont b !! d) as [c'|] eqn:H2; cbn in Hc; try by subst.
    - apply lookup_lt_Some in H1. apply lookup_ge_None in H2. lia.
    - apply lookup_lt_Some in H2. apply lookup_ge_None in H1. lia.
  Qed.

  Lemma max_ge l x : x ∈ l -> forall b, (x <= fold_left N.max l b)%N /\ (b <= fold_left N.max l b)%N.
  Proof.
    assert (forall l b, (b <= fold_left N.max l b)%N) as Hb.
    { clear. induction l as [|y l IH]; intros b; cbn; [lia|]. specialize (IH (N.max b y)). lia. }
    intros Hx b. split; [|done]. revert b. induction Hx as [x l|x y l _ IH]; intros b; cbn; [|apply IH].
    specialize (Hb l (N.max b x)). lia.
  Qed.
  Lemma max_lt l m b : (forall x, x ∈ l -> (x < m)%N) -> (b < m)%N -> (fold_left N.max l b < m)%N.
  Proof.
    revert b. induction l as [|y l IH]; intros b H Hb; cbn; [done|]. apply IH; [intros x Hx; apply H; by right|].
    specialize (H y ltac:(left)). lia.
  Qed.

  (** the round trip on well-formed graphs *)
  Lemma round_trip g : WF E g -> answered g ->
    exists g', deserialize_graph E (serialize g) = Ok (fold_left N.max (graph_iter g).*1 0%N, g') /\
      WF E g' /\ g_ctx g' = g_ctx g /\ (forall i, graph_get g' i = graph_get g i) /\
      (gtyped g -> a_cont (g_nodes g') = a_cont (g_nodes g)).
  Proof.
    intros Hwf Hans.
    assert (forall i n, (i, n) ∈ graph_iter g <-> graph_get g i = Some n) as Hit.
    { intros i n. symmetry. apply (arena_get_items E), Hwf. }
    assert (NoDup (graph_iter g).*1) as Hnd by apply (arena_items_NoDup E), Hwf.
    unfold deserialize_graph, do_deserialize, serialize. cbn [gs_nodes gs_ctx].
    pose proof (arena_new_from_iter_spec E (graph_iter g)) as Ha.
    destruct (arena_new_from_iter E (graph_iter g)) as [a []|p a].
    2:{ destruct Ha as [_ Ha]; [|done]. intros i n Hin%Hit. by apply (wf_nodes _ _ Hwf i). }
    destruct Ha as [_ Hfi]. { intros i n Hin%Hit. by apply (wf_nodes _ _ Hwf i). }
    assert (forall x n, arena_get a x = Some n <-> graph_get g x = Some n) as Hget.
    { intros x n. rewrite (fi_get _ _ _ Hfi), <- Hit. split; [apply omap_get_elem|]. by apply omap_get_NoDup. }
    assert (forall x n, arena_get a x = Some n -> node_ok E n /\ x <> 0%N) as Hok.
    { intros x n Hx%Hget. split; [by apply (wf_nodes _ _ Hwf x)|]. intros ->. by rewrite (wf_zero _ _ Hwf) in Hx. }
    destruct (merge_nodes_adds a (graph_new E (g_ctx g)) lcr_new eq_refl) as (g1&r&Hm&Hadd).
    { intros x y l Hin. by apply elem_of_nil in Hin. }
    pose proof (merged_spec E (g_ctx g) a (fun _ _ => False) (fi_ok _ _ _ Hfi) Hok) as Hmg. unfold wp in Hmg. rewrite Hm in Hmg.
    assert (forall i, graph_get g1 i = graph_get g i) as Hg1.
    { intros i. rewrite (mg_get _ _ _ _ _ Hmg). apply option_eq. intros n. apply Hget. }
    rewrite (rebuild_noop E (g_ctx g) a g1 r Hm Hmg).
    - exists g1. split; [done|]. split; [apply Hmg|]. split; [apply Hmg|]. split; [done|].
      intros Hty. apply cont_ext; [apply Hmg|apply Hwf|]. intros d. rewrite (mg_nodes _ _ _ _ _ Hmg).
      rewrite (arena_merge_cont_disj E); [|apply arena_new_ok|apply (fi_ok _ _ _ Hfi)|].
      + rewrite cont_new. cbn. rewrite (fi_cont _ _ _ Hfi). apply (items_cont (g_nodes g)); [apply Hwf|done].
      + done.
    - intros x y l ny Hin [nx Hx] Hy Hbd. apply Hadd in Hin as (n&Hn&Hl).
      apply (arena_get_items E) in Hn; [|apply (fi_ok _ _ _ Hfi)]. apply Hget in Hn.
      rewrite Hg1 in Hx, Hy. assert (nx = n) as -> by congruence.
      destruct (Hans x y n ny l Hx Hy Hl) as (k&Hk&Hlk).
      + destruct (match_bd ny (e_opp E l)) as [|k ks] eqn:Hb; [done|]. exists k.
        assert (k ∈ match_bd ny (e_opp E l)) as Hk by (rewrite Hb; left). unfold match_bd in Hk.
        by apply elem_of_list_filter in Hk as [? ?].
      + exists k. split; [|exists ny; by rewrite Hg1]. apply elem_of_list_filter. split; [|done]. symmetry. apply Hlk.
  Qed.

  Lemma final_round_trip (T : Prop) g : graph_of E T g -> answered g ->
    exists cnt g', deserialize_graph E (serialize g) = Ok (cnt, g') /\ graph_of E T g' /\
      g_ctx g' = g_ctx g /\ (forall i, graph_get g' i = graph_get g i) /\
      (T -> graph_iter g' = graph_iter g /\ forall d, graph_iter_type g' d = graph_iter_type g d) /\
      (forall i, is_Some (graph_get g i) -> (i <= cnt)%N) /\ (cnt < usize_mod)%N.
  Proof.
    intros Hg Hans. destruct (graph_of_ok E _ _ Hg) as (Hwf&Hty).
    destruct (round_trip g Hwf Hans) as (g'&Hd&Hwf'&Hc&Hget&Hcont). eexists _, g'. split; [exact Hd|].
    assert (forall i n, (i, n) ∈ graph_iter g -> node_ok E n /\ (0 < i < usize_mod)%N) as Hb.
    { intros i n Hin. apply (arena_get_items E) in Hin; [|apply Hwf]. change (graph_get g i = Some n) in Hin.
      split; [by apply (wf_nodes _ _ Hwf i)|]. destruct Hg as (w&kg&c&Hr&Hk). pose proof (reachable_inv E T w Hr) as Hinv.
      destruct (iv_owns _ _ _ Hinv (inl kg) c i) as (u&cnt&Hcc&Hle).
      { exists g. split; [done|]. by eapply arena_get_dispatch. }
      pose proof (iv_cnt _ _ _ Hinv _ _ _ Hcc). lia. }
    split.
    { destruct Hg as (w&kg&c&Hr&Hk). eexists _, kg, _. split; [eapply reach_step; [exact Hr|eapply (st_deser E T w kg (serialize g)); [exact Hb|exact Hd]]|].
      cbn. by rewrite lookup_insert. }
    split; [done|]. split; [done|].
    split; [intros HT; specialize (Hcont (Hty HT)); split; [unfold graph_iter, arena_items; by rewrite Hcont|intros d; unfold graph_iter_type, cont; by rewrite Hcont]|].
    split.
    - intros i [n Hn]. apply max_ge. apply elem_of_list_fmap. exists (i, n). split; [done|]. by apply (arena_get_items E), Hn; apply Hwf.
    - apply max_lt; [|done]. intros i ([i' n]&->&Hin)%elem_of_list_fmap. by apply (Hb i' n).
  Qed.

  (** C33 *)
  Lemma bidi_adds_none L g r : (forall l, e_opp E l = []) -> mfor L (bidi_add1 E) (g, r) = Done (g, r) tt.
  Proof.
    intros Ho. induction L as [|[[x y] l] L IH]; [done|]. cbn [mfor]. unfold bindM at 1.
    assert (bidi_add1 E (x, y, l) (g, r) = Done (g, r) tt) as ->; [|done].
    unfold bidi_add1. destruct (arena_contains (g_nodes g) x) eqn:Hcx; [|done]. destruct (arena_contains (g_nodes g) y) eqn:Hcy; [|done].
    apply arena_contains_get in Hcx as [nx Hx], Hcy as [ny Hy]. cbn [negb orb]. unfold bindM, node_unwrap.
    change (arena_get (g_nodes g)) with (graph_get g) in *. rewrite Hx, Hy, Ho. done.
  Qed.
  Lemma deserialize_dup (s : gserial D) : (forall l, e_opp E l = []) -> (forall i n, (i, n) ∈ gs_nodes s -> node_ok E n) ->
    ((exists cnt g, deserialize_graph E s = Ok (cnt, g)) <-> NoDup (gs_nodes s).*1) /\
    (~ NoDup (gs_nodes s).*1 -> deserialize_graph E s = Err PDupIndex).
  Proof.
    intros Ho Hok. unfold deserialize_graph, do_deserialize.
    pose proof (arena_new_from_iter_spec E (gs_nodes s) Hok) as Ha.
    destruct (arena_new_from_iter E (gs_nodes s)) as [a []|p a].
    - destruct Ha as [Hnd Hfi]. split; [|done]. split; [done|]. intros _.
      destruct (merge_nodes_adds a (graph_new E (gs_ctx s)) lcr_new eq_refl) as (g1&r&Hm&Hadd).
      { intros x y l Hin. by apply elem_of_nil in Hin. }
      pose proof (merge_nodes_rems E a (graph_new E (gs_ctx s)) lcr_new eq_refl) as Hrm. unfold wp in Hrm. rewrite Hm in Hrm.
      unfold rebuild, bindM. rewrite Hm. unfold getM, apply_bidirectional_links, bindM. rewrite Hrm. cbn [mfor retM].
      rewrite bidi_adds_none by done. eauto.
    - destruct Ha as [-> Ha]. split; [split; [by intros (?&?&?)|done]|done].
  Qed.
  Lemma deserialize_exact (s : gserial D) cnt g : (forall l, e_opp E l = []) -> (forall i n, (i, n) ∈ gs_nodes s -> node_ok E n /\ i <> 0%N) ->
    deserialize_graph E s = Ok (cnt, g) -> g_ctx g = gs_ctx s /\ (forall i n, graph_get g i = Some n <-> (i, n) ∈ gs_nodes s).
  Proof.
    intros Ho Hok. unfold deserialize_graph, do_deserialize.
    pose proof (arena_new_from_iter_spec E (gs_nodes s)) as Ha.
    destruct (arena_new_from_iter E (gs_nodes s)) as [a []|p a]; [|done].
    destruct Ha as [Hnd Hfi]. { intros i n Hin. by apply (Hok i). }
    assert (forall x n, arena_get a x = Some n <-> (x, n) ∈ gs_nodes s) as Hget.
    { intros x n. rewrite (fi_get _ _ _ Hfi). by apply omap_get_iff. }
    destruct (merge_nodes_adds a (graph_new E (gs_ctx s)) lcr_new eq_refl) as (g1&r&Hm&Hadd).
    { intros x y l Hin. by apply elem_of_nil in Hin. }
    pose proof (merged_spec E (gs_ctx s) a (fun _ _ => False) (fi_ok _ _ _ Hfi)) as Hmg. unfold wp in Hmg. rewrite Hm in Hmg.
    specialize (Hmg (fun x n Hx => Hok x n (proj1 (Hget x n) Hx))).
    unfold rebuild, bindM. rewrite Hm. unfold getM, apply_bidirectional_links, bindM. rewrite (mg_rems _ _ _ _ _ Hmg). cbn [mfor retM].
    rewrite bidi_adds_none by done. intros [= _ <-]. split; [apply Hmg|]. intros i n. rewrite (mg_get _ _ _ _ _ Hmg). apply Hget.
  Qed.
End ser.
