(** * Building a graph from an arena: deserialization and switch_context *)
From Verif Require Export CommitTop ArenaOps SpecProofs.

Section rebuild.
  Context {D : Type} (E : env).
  Implicit Types (g : graph D) (n : node D) (x y : idx) (s : source) (a : arena D).

  (** the graph obtained before the maintenance of bidirectional links *)
  Record merged (ctx : N) a g1 (r : lcr) : Prop := {
    mg_wf : WF E g1;
    mg_ctx : g_ctx g1 = ctx;
    mg_nodes : g_nodes g1 = arena_merge (arena_new E) a;
    mg_disp : forall i, arena_dispatch (g_nodes g1) i = arena_dispatch a i;
    mg_get : forall i, graph_get g1 i = arena_get a i;
    mg_lc : LC E r (fun _ _ _ => False) (glink g1);
    mg_rems : lc_rems r = [] }.

  Lemma merge_nodes_rems a g r :
    lc_rems r = [] -> wp (merge_nodes E a) (g, r) (fun _ '(_, r') => lc_rems r' = []) (fun _ _ => True).
  Proof.
    intros Hr. unfold merge_nodes. apply wp_bind.
    eapply wp_mono; [apply (wp_mfor_simple _ _ (fun '(_, r') => lc_rems r' = []) (fun _ _ => True)); [done|]|..].
    2:{ intros _ [g1 r1] Hr1. done. } 2:{ done. }
    intros [x n] [g1 r1] _ Hr1. apply wp_bind. unfold add_back_links.
    assert (forall g2 y (e : idx * source), wp (back_entry_insert (D:=D) y e) (g2, r1) (fun _ '(_, r') => r' = r1) (fun _ _ => True)) as Hbi.
    { intros g2 y e. unfold back_entry_insert. apply wp_bind. unfold wp at 1, back_entry.
      unfold wp, back_insert. by destruct (omap_get _ _). }
    apply wp_bind. unfold wp at 1, back_entry.
    eapply wp_mono; [apply (wp_mfor_simple _ _ (fun '(_, r') => r' = r1) (fun _ _ => True)); [done|]|..].
    - intros [y s] [g2 r2] _ ->. apply Hbi.
    - intros _ [g2 r2] ->.
      apply (wp_mfor_simple _ _ (fun '(_, r') => lc_rems r' = [])); [done|].
      intros [y s] [g3 r3] _ Hr3. unfold wp, rec_add. unfold lcr_add. destruct (y =? 0)%N; [done|].
      rewrite Hr3. rewrite decide_False by (intros Hin; inversion Hin). done.
    - done.
  Qed.

  Lemma merged_spec ctx a (R : panic -> graph D * lcr -> Prop) :
    arena_ok E a -> (forall x n, arena_get a x = Some n -> node_ok E n /\ x <> 0%N) ->
    wp (merge_nodes E a) (graph_new E ctx, lcr_new) (fun _ '(g1, r) => merged ctx a g1 r) R.
  Proof.
    intros Hok Hn.
    pose proof (merge_nodes_rems a (graph_new E ctx) lcr_new eq_refl) as Hrems.
    pose proof (merge_nodes_wp E a (graph_new E ctx) lcr_new (glink (graph_new (D:=D) E ctx)) (fun _ _ => False)) as Hm.
    assert (wp (merge_nodes E a) (graph_new E ctx, lcr_new)
      (fun _ '(g', r') => merged ctx a g' r') (fun _ _ => False)) as Hfin.
    { eapply wp_mono; [apply wp_and; [apply Hm; try done; [apply wf_new|apply LC_new]|exact Hrems]|..]; cbn beta.
      - intros _ [g1 r1] [(Hwf&Hctx&Hnodes&Hget&HLC&_) Hr]. split; try done.
        + intros i. rewrite Hnodes, (arena_merge_dispatch E) by done. by destruct (arena_dispatch a i).
        + intros i. rewrite Hget. by destruct (arena_get a i).
        + eapply LC_ext0; [exact HLC|]. intros x y l. split; [|done]. intros (n&Hg&_). done.
      - tauto. }
    unfold wp in *. destruct (merge_nodes E a (graph_new E ctx, lcr_new)) as [[? ?] ?|? ?]; [done|tauto].
  Qed.

  Record rebuilt (ctx : N) a g1 (r : lcr) g' : Prop := {
    rb_merged : merged ctx a g1 r;
    rb_wf : WF E g';
    rb_frame : bframe (bidi_touched E (lc_rems r) (lc_adds r)) g1 g';
    rb_links : forall x y k, glink g' x y k <-> bidi_links E (lc_rems r) (lc_adds r) g1 x y k;
    rb_done : forall x y l ny, (x, y, l) ∈ lc_adds r -> is_Some (graph_get g1 x) -> graph_get g1 y = Some ny ->
      match_bd ny (e_opp E l) <> [] -> exists k, k ∈ match_bd ny (e_opp E l) /\ glink g' y x k }.

  Lemma rebuild_spec ctx a :
    arena_ok E a -> (forall x n, arena_get a x = Some n -> node_ok E n /\ x <> 0%N) ->
    match rebuild E ctx a with
    | Done (g', r) _ => exists g1, rebuilt ctx a g1 r g'
    | Panicked p (g', _) => exists g1 r, merged ctx a g1 r /\ bidi_panics E (lc_rems r) (lc_adds r) g1 p
    end.
  Proof.
    intros Hok Hn. unfold rebuild.
    assert (wp (run! merge_nodes E a; do! (_, r) <- getM; apply_bidirectional_links E r) (graph_new E ctx, lcr_new)
      (fun _ '(g', r) => exists g1, rebuilt ctx a g1 r g')
      (fun p '(g', _) => exists g1 r, merged ctx a g1 r /\ bidi_panics E (lc_rems r) (lc_adds r) g1 p)) as Hwp.
    { apply wp_bind. eapply wp_mono; [apply (merged_spec ctx a (fun _ _ => False)); done|..]; cbn beta; [|done].
      intros _ [g1 r1] Hmg. apply wp_bind, wp_get.
      eapply wp_mono; [apply apply_bidirectional_links_wp, Hmg|..]; cbn beta.
      - intros _ [g2 r2] (->&Hwf2&Hfr&HK&Hdone). exists g1. by split.
      - intros p [g2 r2] [Hp _]. by exists g1, r1. }
    unfold wp in Hwp. destruct ((run! _; _) _) as [[? ?] ?|? [? ?]]; done.
  Qed.

  (** maintenance does nothing when every link already has an opposite *)
  Definition bidi_sat (L : list (idx * idx * link)) g : Prop :=
    forall x y l ny, (x, y, l) ∈ L -> is_Some (graph_get g x) -> graph_get g y = Some ny ->
      match_bd ny (e_opp E l) <> [] -> exists k, k ∈ match_bd ny (e_opp E l) /\ glink g y x k.
  Lemma bidi_adds_noop L g r : WF E g -> bidi_sat L g -> mfor L (bidi_add1 E) (g, r) = Done (g, r) tt.
  Proof.
    intros Hwf. induction L as [|[[x y] l] L IH]; intros Hs; [done|]. cbn [mfor].
    assert (bidi_add1 E (x, y, l) (g, r) = Done (g, r) tt) as Hstep.
    { unfold bidi_add1. destruct (negb (arena_contains (g_nodes g) x) || negb (arena_contains (g_nodes g) y)) eqn:Hc; [done|].
      apply orb_false_iff in Hc as [Hcx Hcy].
      apply negb_false_iff, arena_contains_get in Hcx as [nx Hgx], Hcy as [ny Hgy].
      change (graph_get g x = Some nx) in Hgx. change (graph_get g y = Some ny) in Hgy.
      unfold bindM, node_unwrap. rewrite Hgx, Hgy.
      destruct (match_bd ny (e_opp E l)) as [|k0 ks] eqn:Hbd; [done|].
      assert (existsb (fun lk' => contains_link ny lk' x) (k0 :: ks) = true) as ->; [|done].
      destruct (Hs x y l ny) as (k&Hk&Hlk); [left|eauto|done|by rewrite Hbd|].
      apply existsb_exists. exists k. split; [apply elem_of_list_In; by rewrite <- Hbd|].
      destruct Hlk as (n'&Hn'&Hlk). assert (n' = ny) as -> by congruence.
      apply (contains_link_iff E); [by apply (wf_nodes _ _ Hwf y)|apply Hlk|done]. }
    unfold bindM. rewrite Hstep. apply IH. intros x' y' l' ny' Hin. apply Hs. by right.
  Qed.

  Lemma rebuild_noop ctx a g1 r :
    merge_nodes E a (graph_new E ctx, lcr_new) = Done (g1, r) tt ->
    merged ctx a g1 r -> bidi_sat (lc_adds r) g1 -> rebuild E ctx a = Done (g1, r) tt.
  Proof.
    intros Hm Hmg Hs. unfold rebuild, bindM. rewrite Hm. unfold getM, apply_bidirectional_links, bindM.
    rewrite (mg_rems _ _ _ _ Hmg). cbn [mfor retM]. apply bidi_adds_noop; [apply Hmg|done].
  Qed.

  Lemma merged_typed ctx a g1 r : merged ctx a g1 r -> atyped a -> gtyped g1.
  Proof.
    intros Hm Ha i n d. change (arena_get (g_nodes g1) i) with (graph_get g1 i).
    rewrite (mg_get _ _ _ _ Hm), (mg_disp _ _ _ _ Hm). apply Ha.
  Qed.
  Lemma bframe_typed F g g' : bframe F g g' -> gtyped g -> gtyped g'.
  Proof.
    intros Hf Hg i n d. change (arena_get (g_nodes g') i) with (graph_get g' i).
    rewrite (bfr_disp _ _ _ Hf). intros Hi Hd. destruct (graph_get g i) as [n0|] eqn:Hi0.
    - destruct (bfr_some _ _ _ Hf i n0 Hi0) as (n'&Hn'&Hv&_). assert (n' = n) as -> by congruence.
      rewrite Hv. by apply (Hg i n0 d).
    - rewrite (bfr_none _ _ _ Hf) in Hi by done. done.
  Qed.

  (** ** Deserialization *)
  Lemma do_deserialize_spec ctx (l : list (idx * node D)) :
    (forall i n, (i, n) ∈ l -> node_ok E n /\ i <> 0%N) ->
    match do_deserialize E ctx l with
    | Ok g' => NoDup l.*1 /\ exists a g1 r, from_iter E l a /\ rebuilt ctx a g1 r g'
    | Err p => (p = PDupIndex /\ ~ NoDup l.*1) \/
        (NoDup l.*1 /\ exists a g1 r, from_iter E l a /\ merged ctx a g1 r /\ bidi_panics E (lc_rems r) (lc_adds r) g1 p)
    end.
  Proof.
    intros Hok. unfold do_deserialize.
    pose proof (arena_new_from_iter_spec E l) as Ha.
    destruct (arena_new_from_iter E l) as [a []|p a].
    - destruct Ha as [Hnd Hfi]; [naive_solver|].
      pose proof (rebuild_spec ctx a (fi_ok _ _ _ Hfi)) as Hr.
      destruct (rebuild E ctx a) as [[g' r] []|p [g' r]].
      + split; [done|]. destruct Hr as [g1 Hr]; [|by exists a, g1, r].
        intros x n. rewrite (fi_get _ _ _ Hfi). intros Hg%omap_get_elem. eauto.
      + right. split; [done|]. destruct Hr as (g1&r1&Hr); [|by exists a, g1, r1].
        intros x n. rewrite (fi_get _ _ _ Hfi). intros Hg%omap_get_elem. eauto.
    - left. apply Ha. naive_solver.
  Qed.
End rebuild.
