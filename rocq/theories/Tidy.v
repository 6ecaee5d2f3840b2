(** * Programs that leave no dangling links: what holds after every call *)
From Verif Require Export SerFinal SwitchFinal BidiFinal TransFinal.

Section tidy.
  Context {D : Type} (E : env).
  Implicit Types (w : world (D:=D)) (g : graph D) (t : trans D).

  (** all links lead to nodes, bidirectional links are symmetric, link types hold *)
  Record orderly g : Prop := {
    or_closed : closed g;
    or_sym : bidi_symmetric E g;
    or_typed : links_typed E g }.

  (** What a tidy program does beyond the rules for histories.  After a commit no link
      dangles (in a debug build: [check_integrity] passes, C55).  Deserialized data are
      orderly.  [switch_context] is called with a counter for which no set field holds
      both a node and the new index of another one (for example a new context, if the
      graph was numbered by one that is further on).  Caught commit panics end it. *)
  Definition tidy_call w (o : op (D:=D)) w' : Prop :=
    match o with
    | OCommit kg _ | OCommitChecked kg _ _ => forall c g, w_graphs w' !! kg = Some (c, g) -> closed g
    | OCommitPanic _ _ _ => False
    | ODeser kg _ => forall c g, w_graphs w' !! kg = Some (c, g) -> orderly g
    | OSwitch kg c => forall c0 g u cnt, w_graphs w !! kg = Some (c0, g) -> w_ctx w !! c = Some (u, cnt) -> sets_apart g cnt
    | _ => True
    end.
  Inductive tidy : world -> Prop :=
  | tidy_new : tidy world_new
  | tidy_step w o w' : tidy w -> step E True w o w' -> clean_merge E w o -> tidy_call w o w' -> tidy w'.

  Lemma tidy_logged w : tidy w -> exists lg, lreach E True w lg.
  Proof. induction 1 as [|w o w' _ [lg IH] Hs Hf _]; [eexists; constructor|]. exists (log_step w o lg). by econstructor. Qed.
  Lemma tidy_reachable w : tidy w -> reachable E True w.
  Proof. intros [lg Hl]%tidy_logged. by eapply lreach_reachable. Qed.

  Lemma closed_no_early g t s : history E True g t s -> closed g -> no_early g s.
  Proof.
    intros Hh Hcl x n y Hx Hy. destruct (ts_new s !! y) as [ny|] eqn:Hn; [|done].
    destruct (Hcl x n y Hx Hy) as [? Hg]. rewrite (final_fresh E True g t s y Hh) in Hg by (left; eauto). done.
  Qed.

  (** a renamed orderly graph is orderly *)
  Lemma renamed_orderly g g' f : orderly g ->
    (forall x, is_Some (graph_get g x) -> f x <> 0%N) -> f 0%N = 0%N -> (forall x, f x = 0%N -> x = 0%N) ->
    (forall x x', is_Some (graph_get g x) -> is_Some (graph_get g x') -> f x = f x' -> x = x') ->
    (forall x n, graph_get g x = Some n -> exists n', graph_get g' (f x) = Some n' /\ node_renamed (fun _ _ => f) n n') ->
    (forall j, is_Some (graph_get g' j) -> exists x, is_Some (graph_get g x) /\ j = f x) ->
    orderly g'.
  Proof.
    intros [Hcl Hsy Hty] Hnz Hf0 Hfz Hinj Hto Hfrom.
    assert (forall j n', graph_get g' j = Some n' -> exists x n, graph_get g x = Some n /\ j = f x /\ nvar n' = nvar n /\
      forall l z, has_link n' l z <-> exists y, has_link n l y /\ z = f y) as Hb.
    { intros j n' Hj. destruct (Hfrom j) as (x&[n Hx]&->); [by eauto|]. destruct (Hto x n Hx) as (n2&Hn2&Hr).
      assert (n2 = n') as -> by congruence. exists x, n. split; [done|]. split; [done|]. split; [apply Hr|].
      intros l z. by apply node_renamed_link. }
    assert (forall x n y l, graph_get g x = Some n -> has_link n l y -> is_Some (graph_get g y)) as Hcl'.
    { intros x n y l Hx Hl. apply (Hcl x n y Hx). by exists l. }
    split.
    - intros j n' z Hj [l Hl]. destruct (Hb j n' Hj) as (x&n&Hx&Hjx&_&Hlk). subst j. destruct (proj1 (Hlk _ _) Hl) as (y&Hl2&->). clear Hl. rename Hl2 into Hl.
      destruct (Hcl' x n y l Hx Hl) as [ny Hy]. destruct (Hto y ny Hy) as (ny'&Hy'&_). eauto.
    - intros a b na nb l k Ha Hb' Hk Hla Hkb.
      destruct (Hb a na Ha) as (x&n&Hx&Hax&Hv&Hlk). subst a. destruct (Hb b nb Hb') as (y&m&Hy&Hby&Hv'&Hlk'). subst b.
      rewrite Hlk, Hlk'. pose proof (Hsy x y n m l k Hx Hy Hk) as Hs. rewrite <- Hv, <- Hv' in Hs. specialize (Hs Hla Hkb).
      split; intros (z&Hz&Heq).
      + assert (z = y) as ->. { symmetry. apply Hinj; [eauto|apply (Hcl' x n z l Hx Hz)|done]. } exists x. split; [by apply Hs|done].
      + assert (z = x) as ->. { symmetry. apply Hinj; [eauto|apply (Hcl' y m z k Hy Hz)|done]. } exists y. split; [by apply Hs|done].
    - intros a b na nb l Ha Hl Hnv Hb'. destruct (Hb a na Ha) as (x&n&Hx&Hax&Hv&Hlk). subst a. destruct (proj1 (Hlk _ _) Hl) as (y&Hl2&->). clear Hl. rename Hl2 into Hl.
      destruct (Hb _ nb Hb') as (y'&m&Hy&Heq&Hv'&_). assert (y = y') as <-. { apply Hinj; [apply (Hcl' x n y l Hx Hl)|eauto|done]. }
      rewrite Hv'. by eapply (Hty x y n m l).
  Qed.

  Lemma new_index_zero g c : graph_of E True g -> new_index g c 0%N = 0%N /\ forall x, new_index g c x = 0%N -> x = 0%N.
  Proof.
    intros Hg. split.
    - unfold new_index. destruct (list_find _ _) as [[k [i n]]|] eqn:Hf; [|done]. exfalso.
      apply list_find_Some in Hf as (Hk&Hi&_). cbn in Hi. subst i. apply elem_of_list_lookup_2 in Hk.
      destruct (graph_of_ok E True g Hg) as [Hwf _]. apply (arena_get_items E (g_nodes g)) in Hk; [|apply Hwf].
      pose proof (wf_zero _ _ Hwf) as H0. unfold graph_get in H0. congruence.
    - intros x. unfold new_index. destruct (list_find _ _) as [[k [i n]]|] eqn:Hf; [lia|done].
  Qed.

  Theorem tidy_orderly w : single_choice E -> bidi_typed E -> tidy w ->
    forall kg c g, w_graphs w !! kg = Some (c, g) -> orderly g.
  Proof.
    intros Hsc Hbt. induction 1 as [|w o w' Ht IH Hs Hf Hc]; [done|].
    destruct (tidy_logged w Ht) as [lg Hl]. pose proof (lreach_reachable E True w lg Hl) as Hr.
    assert (forall kg k c t g g', w_trans w !! k = Some (c, t) -> w_graphs w !! kg = Some (c, g) -> commit E t g = Done g' tt -> closed g' -> orderly g') as Hcom.
    { intros kg k c t g g' Hk Hg Hcm Hcl. destruct (IH kg c g Hg) as [Hcl0 Hsy Hty].
      assert (pair_log E True g t (lg k)) as Hp by (by exists w, lg, kg, k, c).
      destruct (pair_log_rep E True g t (lg k) Hp) as (s&Hs'&_).
      assert (history E True g t s) as Hh by (by exists (lg k)).
      assert (no_early g s) as Hne by by eapply closed_no_early.
      split; [done| |].
      - by eapply (final_symmetric E True g t s Hh g' I Hcm).
      - eapply (final_links_typed E True g t s Hh g' I Hcm); try done. intros l k' Hk'. by apply (sc_nonvec E Hsc k'), (sc_sym E Hsc). }
    assert (forall kg0 kg c c' g g', <[kg0:=(c, g)]> (w_graphs w) !! kg = Some (c', g') -> orderly g -> orderly g') as Hput.
    { intros kg0 kg c c' g g' Hg' Ho. destruct (decide (kg0 = kg)) as [->|Hne]; [|rewrite lookup_insert_ne in Hg' by done; by eapply IH].
      rewrite lookup_insert in Hg'. by injection Hg' as <- <-. }
    assert (forall kg0 kg c' g', delete kg0 (w_graphs w) !! kg = Some (c', g') -> orderly g') as Hdel.
    { intros kg0 kg c' g' Hg'. apply lookup_delete_Some in Hg' as [_ Hg']. by eapply IH. }
    destruct Hs; cbn in Hc |- *; intros kg' c' g'' Hg'; try (exfalso; exact Hc); try (by eapply IH); try (by eapply Hdel).
    - eapply Hput; [done|]. split.
      + intros x n y Hx. done.
      + intros x y n m l l' Hx. done.
      + intros x y n m l Hx. done.
    - eapply Hput; [done|]. eapply Hcom; try done. exact (Hc _ _ (lookup_insert _ _ _)).
    - eapply Hput; [done|]. eapply Hcom; try done; [by eapply commit_checked_commit|]. exact (Hc _ _ (lookup_insert _ _ _)).
    - eapply Hput; [done|]. pose proof (IH kg c0 g H) as [Hcl Hsy Hty].
      assert (graph_of E True g) as Hgo by by exists w, kg, c0.
      pose proof (final_switch E True g u cnt Hgo (symmetric_answered E g Hsy) H1 (Hc c0 g u cnt H H0)) as Hsw. rewrite H2 in Hsw.
      destruct Hsw as (_&_&Hto&Hfrom). { intros y n l x Hy Hlk Hx. destruct (Hcl y n x Hy) as [? ?]; [by exists l|congruence]. }
      destruct (new_index_zero g cnt Hgo) as [Hz1 Hz2].
      apply (renamed_orderly g g' (new_index g cnt)); try done.
      + intros x Hx. pose proof (new_index_range E True g cnt x Hgo Hx). lia.
      + intros x x'. by apply (new_index_inj E True).
    - eapply Hput; [done|]. exact (Hc _ _ (lookup_insert _ _ _)).
  Qed.
End tidy.
