(** * Facts about the graphs of a history: reverse-link index, iteration *)
From Verif Require Export BidiFinal Decide.

Section graphfinal.
  Context {D : Type} (E : env).
  Implicit Types (g : graph D) (n : node D).
  Notation bmap := (list (idx * list (idx * source))).

  (** pair [e] is recorded under [y] in the map [b] *)
  Definition bhas (b : bmap) (y : idx) (e : idx * source) : Prop :=
    exists v, omap_get y b = Some v /\ e ∈ v.

  Lemma bhas_put (b : bmap) y e y' e' :
    bhas (omap_insert y (oset_insert e (default [] (omap_get y b))) b) y' e' <->
    bhas b y' e' \/ (y', e') = (y, e).
  Proof.
    unfold bhas. rewrite omap_get_insert. case_decide as Hy.
    - subst y'. split.
      + intros (v&[= <-]&Hv). apply oset_insert_elem in Hv as [->|Hv]; [by right|left].
        destruct (omap_get y b) as [v0|]; [|by apply elem_of_nil in Hv]. by exists v0.
      + intros H. eexists. split; [done|]. apply oset_insert_elem.
        destruct H as [(v&Hv&He)|H]; [right; by rewrite Hv|left; congruence].
    - split; [by left|]. intros [H|H]; [done|congruence].
  Qed.
  Lemma bhas_entry (b : bmap) x y e : bhas (omap_entry x [] b) y e <-> bhas b y e.
  Proof.
    unfold bhas. rewrite omap_get_entry. case_decide as Hy; [|done]. subst y. split.
    - intros (v&Hv&He). destruct (omap_get x b) as [v0|] eqn:Hb.
      + exists v0. split; [done|]. by simplify_eq/=.
      + simplify_eq/=. by apply elem_of_nil in He.
    - intros (v&Hv&He). exists v. by rewrite Hv.
  Qed.
  Lemma nodup_put (b : bmap) y e :
    NoDup b.*1 -> NoDup (omap_insert y (oset_insert e (default [] (omap_get y b))) b).*1.
  Proof. by apply omap_insert_NoDup. Qed.

  Lemma recompute_inner x (l : list (idx * source)) (b : bmap) :
    NoDup b.*1 ->
    let b' := fold_left (fun b '(y, s) => omap_insert y (oset_insert (x, s) (default [] (omap_get y b))) b) l b in
    NoDup b'.*1 /\
    (forall y e, bhas b' y e <-> bhas b y e \/ exists s, e = (x, s) /\ (y, s) ∈ l) /\
    (forall y, y ∈ b'.*1 -> y ∈ b.*1 \/ exists s, (y, s) ∈ l).
  Proof.
    revert b. induction l as [|[y s] l IH]; intros b Hnd; cbn.
    - split; [done|]. split; [|auto]. intros y e. split; [by left|].
      intros [?|(s&_&?%elem_of_nil)]; done.
    - destruct (IH _ (nodup_put b y (x, s) Hnd)) as (H1&H2&H3). cbn in *. split; [done|]. split.
      + intros y' e. rewrite H2, bhas_put. split.
        * intros [[?|Heq]|(s'&->&Hin)]; [by left| |].
          -- right. exists s. simplify_eq. split; [done|left].
          -- right. exists s'. split; [done|by right].
        * intros [?|(s'&->&Hin)]; [by left; left|]. apply elem_of_cons in Hin as [Heq|Hin].
          -- left. right. by simplify_eq.
          -- right. by exists s'.
      + intros y' Hy'. destruct (H3 y' Hy') as [Hin|(s'&Hin)].
        * apply omap_insert_keys in Hin as [->|Hin]; [right; exists s; left|by left].
        * right. exists s'. by right.
  Qed.

  Lemma recompute_outer (l : list (idx * node D)) (b : bmap) :
    NoDup b.*1 ->
    let b' := fold_left (fun b '(x, n) =>
      fold_left (fun b '(y, s) =>
        omap_insert y (oset_insert (x, s) (default [] (omap_get y b))) b)
        (iter_sources E n) (omap_entry x [] b)) l b in
    NoDup b'.*1 /\
    (forall y x s, bhas b' y (x, s) <-> bhas b y (x, s) \/ exists n, (x, n) ∈ l /\ src_val n s y) /\
    (forall y, y ∈ b'.*1 -> y ∈ b.*1 \/ y ∈ l.*1 \/ exists x n s, (x, n) ∈ l /\ src_val n s y).
  Proof.
    revert b. induction l as [|[x n] l IH]; intros b Hnd; cbn.
    - split; [done|]. split; [|auto]. intros y x s. split; [by left|]. intros [?|(n&?%elem_of_nil&_)]; done.
    - destruct (recompute_inner x (iter_sources E n) (omap_entry x [] b)) as (I1&I2&I3); [by apply omap_entry_NoDup|].
      cbn in I1, I2, I3. destruct (IH _ I1) as (H1&H2&H3). cbn in H1, H2, H3. split; [done|]. split.
      + intros y x' s. rewrite H2, I2, bhas_entry. split.
        * intros [[?|(s'&Heq&Hin)]|(n'&Hin&Hs)]; [by left| |].
          -- right. exists n. simplify_eq. apply elem_iter_sources in Hin. split; [left|done].
          -- right. exists n'. split; [by right|done].
        * intros [?|(n'&Hin&Hs)]; [by left; left|]. apply elem_of_cons in Hin as [Heq|Hin].
          -- left. right. exists s. simplify_eq. split; [done|]. by apply elem_iter_sources.
          -- right. by exists n'.
      + intros y Hy. destruct (H3 y Hy) as [Hin|[Hin|(x'&n'&s&Hin&Hs)]].
        * destruct (I3 y Hin) as [Hin'|(s&Hin')].
          -- apply omap_entry_keys in Hin' as [->|?]; [right; left; left|by left].
          -- right. right. exists x, n, s. split; [left|]. by apply elem_iter_sources in Hin'.
        * right. left. by right.
        * right. right. exists x', n', s. split; [by right|done].
  Qed.

  Lemma recompute_spec g : WF E g ->
    NoDup (recompute_back E g).*1 /\
    (forall y x s, bhas (recompute_back E g) y (x, s) <-> exists n, graph_get g x = Some n /\ src_val n s y) /\
    (forall y, y ∈ (recompute_back E g).*1 ->
       is_Some (graph_get g y) \/ exists x n s, graph_get g x = Some n /\ src_val n s y).
  Proof.
    intros Hwf. destruct (recompute_outer (graph_iter g) []) as (H1&H2&H3); [constructor|].
    assert (forall x n, (x, n) ∈ graph_iter g <-> graph_get g x = Some n) as Hit.
    { intros x n. symmetry. apply (arena_get_items E), Hwf. }
    split; [done|]. split.
    - intros y x s. unfold recompute_back. rewrite H2. split.
      + intros [(v&[=]&_)|(n&Hin&Hs)]. exists n. by rewrite <- Hit.
      + intros (n&Hin&Hs). right. exists n. by rewrite Hit.
    - intros y Hy. destruct (H3 y Hy) as [?%elem_of_nil|[Hin|(x&n&s&Hin&Hs)]]; [done| |].
      + left. apply elem_of_list_fmap in Hin as ([y' n]&->&Hin). apply Hit in Hin. by exists n.
      + right. exists x, n, s. by rewrite <- Hit.
  Qed.

  Lemma check_backlinks_ok g : WF E g -> no_empty_in_sets g -> check_backlinks E g = true.
  Proof.
    intros Hwf Hne. unfold check_backlinks. rewrite andb_true_iff, !forallb_forall.
    assert (forall x n, In (x, n) (graph_iter g) <-> graph_get g x = Some n) as Hit.
    { intros x n. rewrite <- elem_of_list_In. symmetry. apply (arena_get_items E), Hwf. }
    split.
    - intros [x n] Hx. apply Hit in Hx. apply forallb_forall. intros [y s] Hy.
      apply elem_of_list_In, elem_iter_sources in Hy.
      destruct (wf_b2 _ _ Hwf x n s y Hx Hy) as (b&->&Hb). apply orb_true_iff. right. by apply bool_decide_eq_true.
    - destruct (recompute_spec g Hwf) as (Hnd&Hin&Hk). intros [y v] Hv. apply elem_of_list_In in Hv.
      apply omap_get_NoDup in Hv; [|done].
      assert (hasback g y) as [b Hb].
      { destruct (Hk y) as [[n Hn]|(x&n&s&Hx&Hs)]; [by eapply omap_get_Some_key| |].
        - by apply (wf_b1 _ _ Hwf y n).
        - destruct (wf_b2 _ _ Hwf x n s y Hx Hs) as (b&Hb&_). by exists b. }
      rewrite Hb.
      assert (y <> 0%N) as Hy.
      { intros ->. destruct (Hk 0%N) as [[n Hn]|(x&n&s&Hx&Hs)]; [by eapply omap_get_Some_key| |].
        - rewrite (wf_zero _ _ Hwf) in Hn. done.
        - destruct Hs as (_&Hs). destruct (nlinks n !! s_fld s) as [[i|sk l|l]|] eqn:Hf; [..|done];
            destruct (s_pos s); try done; try (destruct Hs; done).
          by apply (Hne x n _ _ _ Hx Hf). }
      unfold set_eqb. apply andb_true_iff. rewrite !forallb_forall. split; intros [x s] He;
        apply elem_of_list_In in He; apply bool_decide_eq_true.
      + destruct (wf_b3 _ _ Hwf y x s Hy) as (n&Hx&Hs); [by exists b|].
        assert (bhas (recompute_back E g) y (x, s)) as (v'&Hv'&He') by (apply Hin; eauto). congruence.
      + assert (bhas (recompute_back E g) y (x, s)) as Hbh by by exists v.
        apply Hin in Hbh as (n&Hx&Hs). destruct (wf_b2 _ _ Hwf x n s y Hx Hs) as (b'&Hb'&He'). congruence.
  Qed.

  Context (T : Prop).

  Lemma graph_index_exact g : graph_of E T g -> forall y x s, y <> 0%N ->
    (exists b, omap_get y (g_back g) = Some b /\ (x, s) ∈ b) <->
    (exists n, graph_get g x = Some n /\ (y, s) ∈ iter_sources E n).
  Proof.
    intros Hg. destruct (graph_of_ok E _ _ Hg) as (Hwf&_). intros y x s Hy. split.
    - intros Hb. destruct (wf_b3 _ _ Hwf y x s Hy Hb) as (n&Hx&Hs). exists n. by rewrite elem_iter_sources.
    - intros (n&Hx&Hs). rewrite elem_iter_sources in Hs. exact (wf_b2 _ _ Hwf x n s y Hx Hs).
  Qed.
  Lemma graph_check_backlinks g : graph_of E T g -> no_empty_in_sets g -> check_backlinks E g = true.
  Proof. intros Hg. destruct (graph_of_ok E _ _ Hg) as (Hwf&_). by apply check_backlinks_ok. Qed.

  Lemma graph_iter_agree g : graph_of E T g ->
    (forall i n, (i, n) ∈ graph_iter g <-> graph_get g i = Some n) /\ NoDup (graph_iter g).*1 /\
    graph_len g = length (graph_iter g) /\ (graph_is_empty g = true <-> forall i, graph_get g i = None).
  Proof.
    intros Hg. destruct (graph_of_ok E _ _ Hg) as (Hwf&_).
    assert (forall i n, (i, n) ∈ graph_iter g <-> graph_get g i = Some n) as Hit.
    { intros i n. symmetry. apply (arena_get_items E), Hwf. }
    split; [done|]. split; [apply (arena_items_NoDup E), Hwf|]. split; [apply arena_len_items|].
    unfold graph_is_empty. rewrite Nat.eqb_eq. unfold graph_len. rewrite arena_len_items.
    change (length (graph_iter g) = 0 <-> forall i, graph_get g i = None). rewrite length_zero_iff_nil. split.
    - intros Hnil i. apply eq_None_not_Some. intros [n Hn]. apply Hit in Hn. rewrite Hnil in Hn. by apply elem_of_nil in Hn.
    - intros Hall. destruct (graph_iter g) as [|[i n] l] eqn:Hl; [done|]. specialize (Hall i).
      rewrite (proj1 (Hit i n)) in Hall; [done|left].
  Qed.
End graphfinal.

Lemma graph_iter_type_exact {D} E (g : graph D) : graph_of E True g -> forall d,
  (forall i n, (i, n) ∈ graph_iter_type g d <-> graph_get g i = Some n /\ nvar n = d) /\
  NoDup (graph_iter_type g d).*1 /\ iter_nodes g d = Ok (graph_iter_type g d).
Proof.
  intros Hg. destruct (graph_of_ok E _ _ Hg) as (Hwf&Hty). intros d. specialize (Hty I).
  assert (forall i n, (i, n) ∈ graph_iter_type g d <-> graph_get g i = Some n /\ nvar n = d) as Hit.
  { intros i n. unfold graph_iter_type, graph_get. split.
    - intros Hin. destruct (arena_get_cont E _ _ _ _ (wf_arena _ _ Hwf) Hin) as [Hget Hd]. split; [done|]. by apply (Hty i).
    - intros [Hget <-]. apply arena_get_inv in Hget as Hinv. destruct Hinv as (d&Hd&_&Hc).
      rewrite (Hty i n d Hget Hd). by apply omap_get_elem. }
  split; [done|]. split.
  - unfold graph_iter_type, cont. destruct (wf_arena _ _ Hwf) as (_&_&Hc).
    destruct (a_cont (g_nodes g) !! d) as [c|] eqn:Hd; cbn; [|constructor]. by destruct (Hc d c Hd).
  - unfold iter_nodes. rewrite decide_True; [done|]. apply Forall_forall. intros [i n] Hin. by apply Hit in Hin as [_ ?].
Qed.

Definition no_empty_in_setsb {D} (g : graph D) : bool :=
  forallb (fun kv : idx * node D =>
    forallb (fun lv => match lv with LSet _ l => bool_decide (0%N ∉ l) | _ => true end) (nlinks kv.2)) (graph_iter g).
Lemma no_empty_in_setsb_sound {D} E (g : graph D) : WF E g -> no_empty_in_setsb g = true -> no_empty_in_sets g.
Proof.
  intros Hwf Hb x n f sk xs Hx Hf. unfold no_empty_in_setsb in Hb. rewrite forallb_forall in Hb.
  specialize (Hb (x, n) (proj1 (items_get E g Hwf x n) Hx)). cbn in Hb. rewrite forallb_forall in Hb.
  specialize (Hb (LSet sk xs)). cbn in Hb. apply bool_decide_eq_true in Hb; [done|].
  apply elem_of_list_In. by eapply elem_of_list_lookup_2.
Qed.
