(** * The complete commit: phases, bidirectional maintenance, link types *)
From Verif Require Export Bidi.

Section top.
  Context {D : Type} (E : env).
  Implicit Types (g : graph D) (n : node D) (x y : idx) (m : gmap N (node D)) (t : trans D).

  (** everything known after the phases of a commit, before and after maintenance *)
  Record committed (T : Prop) g t g1 (r : lcr) m1 g' : Prop := {
    cm_spec : sp_commit (trans_txn t) (gmap_of g) m1;
    cm_st : ST E (glink g) (g_ctx g) (disp_bound g t) T m1 g1 r;
    cm_wf : WF E g';
    cm_frame : bframe (bidi_touched E (lc_rems r) (lc_adds r)) g1 g';
    cm_links : forall a b k, glink g' a b k <-> bidi_links E (lc_rems r) (lc_adds r) g1 a b k;
    cm_done : forall x y l ny, (x, y, l) ∈ lc_adds r -> is_Some (graph_get g1 x) -> graph_get g1 y = Some ny ->
      match_bd ny (e_opp E l) <> [] -> exists k, k ∈ match_bd ny (e_opp E l) /\ glink g' y x k }.

  Definition guard_fails g t : Prop :=
    e_dbg E = true /\ (t_ctx t <> g_ctx g \/ t_alloc t <> []).

  Inductive do_commit_panics (T : Prop) g t (p : panic) g' : Prop :=
  | dcp_guard : guard_fails g t -> g' = g -> (p = PCtxMismatch \/ p = PUnfilled) -> do_commit_panics T g t p g'
  | dcp_body : ~ guard_fails g t -> ~ sp_valid (trans_txn t) (gmap_of g) ->
      (exists r', left_ok E (glink g) (g_ctx g) (disp_bound g t) T (commit_kept t (gmap_of g)) g' r') \/ commit_fault t p (gmap_of g) ->
      do_commit_panics T g t p g'
  | dcp_bidi g1 r m1 : ~ guard_fails g t -> sp_commit (trans_txn t) (gmap_of g) m1 -> ST E (glink g) (g_ctx g) (disp_bound g t) T m1 g1 r ->
      bidi_panics E (lc_rems r) (lc_adds r) g1 p -> WF E g' -> bframe (bidi_touched E (lc_rems r) (lc_adds r)) g1 g' -> do_commit_panics T g t p g'.

  Lemma guard_cases g t (R : Prop) :
    (guard_fails g t -> R) -> (~ guard_fails g t -> R) -> R.
  Proof.
    intros H1 H2. unfold guard_fails in *. destruct (e_dbg E).
    - destruct (decide (t_ctx t = g_ctx g)), (decide (t_alloc t = [])); try (apply H1; tauto). apply H2; tauto.
    - apply H2. naive_solver.
  Qed.

  Lemma do_commit_unfold g t :
    ~ guard_fails g t ->
    do_commit E t g =
      match (run! commit_body E t; do! (_, r) <- getM; run! apply_bidirectional_links E r; retM r) (g, lcr_new) with
      | Done (g', _) r => Done g' r
      | Panicked p (g', _) => Panicked p g'
      end.
  Proof.
    intros Hg. unfold do_commit. unfold guard_fails in Hg. destruct (e_dbg E); cbn [andb]; [|done].
    destruct (N.eqb_spec (t_ctx t) (g_ctx g)) as [|Hne]; cbn [negb]; [|tauto].
    case_bool_decide; cbn [negb]; [done|tauto].
  Qed.
  Lemma do_commit_guard g t :
    guard_fails g t -> exists p, do_commit E t g = Panicked p g /\ (p = PCtxMismatch \/ p = PUnfilled).
  Proof.
    intros [Hd Hg]. unfold do_commit. rewrite Hd. cbn [andb].
    destruct (N.eqb_spec (t_ctx t) (g_ctx g)) as [|Hne]; cbn [negb]; [|eauto].
    case_bool_decide; cbn [negb]; [tauto|eauto].
  Qed.

  Lemma do_commit_spec (T : Prop) g t :
    WF E g -> (T -> gtyped g) -> trans_ok E T g t ->
    match do_commit E t g with
    | Done g' r => ~ guard_fails g t /\ exists g1 m1, committed T g t g1 r m1 g'
    | Panicked p g' => do_commit_panics T g t p g'
    end.
  Proof.
    intros Hwf Hty Hok. apply (guard_cases g t); intros Hg.
    { destruct (do_commit_guard g t Hg) as (p&->&Hp). by apply dcp_guard. }
    rewrite (do_commit_unfold g t Hg).
    set (prog := (run! commit_body E t; _)).
    assert (wp prog (g, lcr_new)
      (fun r '(g', _) => exists g1 m1, committed T g t g1 r m1 g')
      (fun p '(g', _) => do_commit_panics T g t p g')) as Hwp.
    { apply wp_bind. eapply wp_mono; [apply (commit_body_wp E T g t (gmap_of g)); try done; by apply (gmap_of_abs E)|..]; cbn beta.
      2:{ intros p [g' r'] [Hn Hlf]. apply dcp_body; [done|done|]. destruct Hlf as [Hlf|Hft]; [left; by exists r'|by right]. }
      intros _ [g1 r1] (m1&Hsp&Hst). apply wp_bind, wp_get, wp_bind.
      eapply wp_mono; [apply apply_bidirectional_links_wp; apply Hst|..]; cbn beta.
      - intros _ [g2 r2] (->&Hwf2&Hfr&HK&Hdone). apply wp_ret. exists g1, m1. by split.
      - intros p [g2 r2] (Hb&Hwf2&Hfr). by eapply dcp_bidi. }
    unfold wp in Hwp. destruct (prog (g, lcr_new)) as [[g' r'] r|p [g' r']]; [|done]. done.
  Qed.

  Lemma check_link_type_spec r g :
    match check_link_type (D:=D) E r g with
    | Done g' _ => g' = g /\ forall x y l ny, (x, y, l) ∈ lc_adds r -> graph_get g y = Some ny -> e_chk E (nvar ny) l = true
    | Panicked p g' => g' = g /\ p = PLinkType /\
        exists x y l ny, (x, y, l) ∈ lc_adds r /\ graph_get g y = Some ny /\ e_chk E (nvar ny) l = false
    end.
  Proof.
    unfold check_link_type.
    assert (wp (mfor (lc_adds r) (fun '(_, y, l) g =>
      match graph_get g y with
      | Some ny => if e_chk E (nvar ny) l then Done g tt else Panicked PLinkType g
      | None => Done g tt
      end)) g (fun _ g' => g' = g /\ forall x y l ny, (x, y, l) ∈ lc_adds r -> graph_get g y = Some ny -> e_chk E (nvar ny) l = true)
      (fun p g' => g' = g /\ p = PLinkType /\
        exists x y l ny, (x, y, l) ∈ lc_adds r /\ graph_get g y = Some ny /\ e_chk E (nvar ny) l = false)) as Hwp.
    { apply (wp_mfor _ _ (fun P g' => g' = g /\ forall x y l ny, (x, y, l) ∈ P -> graph_get g y = Some ny -> e_chk E (nvar ny) l = true)).
      - split; [done|]. intros x y l ny Hin. by apply elem_of_nil in Hin.
      - intros P [[x y] l] post g' Heq [-> HP].
        assert ((x, y, l) ∈ lc_adds r) as Hin by (rewrite Heq, elem_of_app, elem_of_cons; auto).
        unfold wp. destruct (graph_get g y) as [ny|] eqn:Hy; [destruct (e_chk E (nvar ny) l) eqn:Hc|].
        + split; [done|]. intros x' y' l' ny' Hin' Hy'. apply elem_of_app in Hin' as [Hin'|Hin']; [by eapply HP|].
          apply elem_of_list_singleton in Hin' as [= -> -> ->]. congruence.
        + split; [done|]. split; [done|]. by exists x, y, l, ny.
        + split; [done|]. intros x' y' l' ny' Hin' Hy'. apply elem_of_app in Hin' as [Hin'|Hin']; [by eapply HP|].
          apply elem_of_list_singleton in Hin' as [= -> -> ->]. congruence. }
    exact Hwp.
  Qed.

  Lemma commit_spec (T : Prop) g t :
    WF E g -> (T -> gtyped g) -> trans_ok E T g t ->
    match commit E t g with
    | Done g' _ => ~ guard_fails g t /\ exists g1 r m1, committed T g t g1 r m1 g' /\
        do_commit E t g = Done g' r /\
        forall x y l ny, (x, y, l) ∈ lc_adds r -> graph_get g' y = Some ny -> e_chk E (nvar ny) l = true
    | Panicked p g' => do_commit_panics T g t p g' \/
        (p = PLinkType /\ exists g1 r m1, committed T g t g1 r m1 g' /\
           exists x y l ny, (x, y, l) ∈ lc_adds r /\ graph_get g' y = Some ny /\ e_chk E (nvar ny) l = false)
    end.
  Proof.
    intros Hwf Hty Hok. unfold commit, bindM.
    pose proof (do_commit_spec T g t Hwf Hty Hok) as Hdc.
    destruct (do_commit E t g) as [g' r|p g'] eqn:Hd; [|by left].
    destruct Hdc as [Hg (g1&m1&Hc)]. pose proof (check_link_type_spec r g') as Hchk.
    destruct (check_link_type E r g') as [g2 []|p g2].
    - destruct Hchk as [-> Hchk]. split; [done|]. exists g1, r, m1. done.
    - destruct Hchk as (->&->&Hchk). right. split; [done|]. exists g1, r, m1. done.
  Qed.

  (** ** Facts about the sequential specification *)
  Definition mlink m (a b : idx) (k : link) : Prop := exists n, m !! a = Some n /\ has_link n k b.

  Lemma ST_mlink K0 c DD T m g r a b k : ST E K0 c DD T m g r -> mlink m a b k <-> glink g a b k.
  Proof.
    intros Hst. unfold mlink, glink. by rewrite (st_abs _ _ _ _ _ _ _ _ Hst).
  Qed.

  (** nobody can get an opposite if nothing is declared bidirectional *)
  Lemma bframe_False g g' :
    bframe (fun _ _ => False) g g' -> forall i, graph_get g' i = graph_get g i.
  Proof.
    intros Hf i. destruct (graph_get g i) as [n|] eqn:Hi.
    - destruct (bfr_some _ _ _ Hf i n Hi) as (n'&->&Hv&Hd&Hl). f_equal.
      destruct n as [v ls d], n' as [v' ls' d']; cbn in *. subst. f_equal.
      apply list_eq. intros f. apply Hl. tauto.
    - by apply Hf.
  Qed.
End top.
