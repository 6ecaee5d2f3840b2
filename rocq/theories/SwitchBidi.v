(** * switch_context with bidirectional links: the exact result *)
From stdpp Require Export gmap.
From Verif Require Export SwitchExact Deser.

Section switchbidi.
  Context {D : Type} (E : env).
  Implicit Types (g : graph D) (n : node D) (L : list (idx * node D)) (l k : link).

  Section mg.
    Context (ctx : N) (a : arena D) (g1 : graph D) (r : lcr) (L : list (idx * node D)).
    Context (Hmg : merged E ctx a g1 r) (HL : forall x n, arena_get a x = Some n <-> (x, n) ∈ L).
    Lemma am_entry x n : graph_get g1 x = Some n <-> (x, n) ∈ L.
    Proof using Hmg HL. rewrite (mg_get _ _ _ _ _ Hmg). apply HL. Qed.
    Lemma am_link x y l : glink g1 x y l <-> entry_link L x y l.
    Proof using Hmg HL. unfold glink, entry_link. by setoid_rewrite am_entry. Qed.
    Lemma am_adds x y l : nonvec E l -> (x, y, l) ∈ lc_adds r <-> entry_link L x y l.
    Proof using Hmg HL.
      intros Hl. rewrite <- am_link. pose proof (mg_lc _ _ _ _ _ Hmg) as Hlc. split.
      - intros Hin. apply (lc_a _ _ _ _ Hlc) in Hin; [by apply Hin|by eapply (lc_nz_a _ _ _ _ Hlc)|done].
      - intros H. apply (lc_a _ _ _ _ Hlc); [by eapply glink_nz|done|]. split; [done|]. by intros [].
    Qed.
    Lemma am_completed x y k : (forall l k, k ∈ e_opp E l -> nonvec E l) ->
      bidi_links E (lc_rems r) (lc_adds r) g1 x y k <-> completed E L x y k.
    Proof using Hmg HL.
      intros Hnv. unfold bidi_links, completed, sole_opp. rewrite (mg_rems _ _ _ _ _ Hmg), am_link. split.
      - intros [[H _]|(l&Hl&_&na&Ha&Hm)]; [by left|]. right. rewrite opposites_match in Hm. exists l, na.
        split; [apply am_adds; [by eapply nonvec_opp|done]|]. by rewrite <- am_entry.
      - intros [H|(l&na&Hl&Ha&Hm)]; [left|right].
        + split; [done|]. intros (l&Hin&_). by apply elem_of_nil in Hin.
        + exists l. split; [apply am_adds; [by eapply nonvec_opp|done]|].
          split; [destruct Hl as (n&Hn&_); exists n; by rewrite am_entry|].
          exists na. rewrite am_entry, opposites_match. done.
    Qed.
  End mg.

  (** the nodes of [g] with their new indices and relabelled links *)
  Definition switched_entries g c L : Prop :=
    NoDup L.*1 /\
    (forall x n, graph_get g x = Some n -> exists n', (new_index g c x, n') ∈ L /\ node_switched g (new_index g c) n n') /\
    (forall j n', (j, n') ∈ L -> exists x n, graph_get g x = Some n /\ j = new_index g c x /\ node_switched g (new_index g c) n n').

  Lemma final_switch_bidi T g ctx c : graph_of E T g -> bidi_fields E ->
    (c + N.of_nat (length (graph_iter g)) < usize_mod)%N ->
    exists L, switched_entries g c L /\
    match switch_context E g ctx c with
    | Done c' g' => c' = (c + N.of_nat (length (graph_iter g)))%N /\ g_ctx g' = ctx /\
        (forall i, is_Some (graph_get g' i) -> i ∈ L.*1) /\
        (forall i n, (i, n) ∈ L -> exists n', graph_get g' i = Some n' /\ agree_nonbidi E n n') /\
        (forall a b k, in_graph g' a b k <-> completed E L a b k) /\
        (forall x y l ny, entry_link L x y l -> (y, ny) ∈ L -> e_chk E (nvar ny) l = true)
    | Panicked p c' => c' = (c + N.of_nat (length (graph_iter g)))%N /\
        exists x y l ny, entry_link L x y l /\ (y, ny) ∈ L /\
        ((p = PLinkType /\ e_chk E (nvar ny) l = false) \/
         (p = PMultiChoice /\ 2 <= length (opposites_on E l (nvar ny)) /\
            forall k, k ∈ opposites_on E l (nvar ny) -> ~ entry_link L y x k) \/
         (p = PAddOccupied /\ exists k z, opposites_on E l (nvar ny) = [k] /\ linkkind E k = Some KDirect /\
            z <> x /\ completed E L y z k))
    end.
  Proof.
    intros Hg Hbf Hroom. assert (forall l k, k ∈ e_opp E l -> nonvec E l) as Hnv by (intros l k Hk; by eapply Hbf).
    destruct (switch_prepared E T g ctx c Hg Hroom) as (a&[Hok Hok2 Hsome Honly]&->).
    assert (forall x n, arena_get a x = Some n <-> (x, n) ∈ arena_items a) as Hit by (intros; by apply (arena_get_items E)).
    exists (arena_items a). split.
    { split; [by apply (arena_items_NoDup E)|]. split.
      - intros x n Hx. destruct (Hsome x n Hx) as (n'&Hn'&Hr). exists n'. by rewrite <- Hit.
      - intros j n' Hj%Hit. by apply Honly. }
    set (L := arena_items a) in *. pose proof (rebuild_spec E ctx a Hok Hok2) as Hrb.
    destruct (merge_nodes_all E a (graph_new E ctx) lcr_new eq_refl) as (g1'&r'&Hm'&Hall).
    destruct (merge_nodes_adds E a (graph_new E ctx) lcr_new eq_refl) as (g2'&r2'&Hm2&Hadd).
    { intros x y l0 Hin'. by apply elem_of_nil in Hin'. }
    assert (g2' = g1' /\ r2' = r') as [-> ->] by (split; congruence). clear Hm2.
    pose proof (merged_spec E ctx a (fun _ _ => False) Hok Hok2) as Hmg'. unfold wp in Hmg'. rewrite Hm' in Hmg'.
    destruct (rebuild E ctx a) as [[g' r] []|p [g' r0]] eqn:Hr.
    - destruct Hrb as (g1&Hrb). pose proof Hrb as [Hmg Hwf Hfr Hln _].
      assert (r = r') as ->.
      { unfold rebuild, bindM in Hr. rewrite Hm' in Hr. unfold getM in Hr.
        pose proof (apply_bidirectional_links_wp E r' g1' r' (mg_wf _ _ _ _ _ Hmg')) as Hw. unfold wp in Hw. rewrite Hr in Hw. by destruct Hw as [-> _]. }
      assert (forall i, option_Forall2 (agree_nonbidi E) (graph_get g1 i) (graph_get g' i)) as Hag.
      { eapply bframe_agree; [done|]. intros j k (x&l&_&Hk). by exists l. }
      assert (forall y n', graph_get g' y = Some n' -> exists n, (y, n) ∈ L /\ nvar n' = nvar n) as Hback.
      { intros y n' Hy. specialize (Hag y). rewrite Hy in Hag. inversion Hag as [n ? Hn Heq|]; subst. exists n.
        split; [|apply Hn]. by rewrite <- (am_entry _ _ _ _ _ Hmg Hit). }
      assert (forall y n, (y, n) ∈ L -> exists n', graph_get g' y = Some n' /\ agree_nonbidi E n n') as Hfwd.
      { intros y n Hy. rewrite <- (am_entry _ _ _ _ _ Hmg Hit) in Hy. specialize (Hag y). rewrite Hy in Hag.
        inversion Hag as [? n' Hn Heq|]; subst. eauto. }
      pose proof (check_link_type_spec E r' g') as Hck.
      destruct (check_link_type E r' g') as [g2 []|p g2].
      + destruct Hck as [-> Hck]. split; [done|]. split; [rewrite (bfr_ctx _ _ _ Hfr); apply Hmg|].
        split; [|split; [done|split]].
        * intros i [n' Hi]. destruct (Hback i n' Hi) as (n&Hn&_). apply elem_of_list_fmap. by exists (i, n).
        * intros x y k. rewrite <- (am_completed _ _ _ _ _ Hmg Hit) by done. apply Hln.
        * intros x y l ny (n&Hn&Hl) Hy. destruct (Hfwd y ny Hy) as (ny'&Hy'&Hv&_). rewrite <- Hv.
          apply (Hck x y l ny'); [exact (Hall x n y l Hn Hl)|exact Hy'].
      + destruct Hck as (_&->&x&y&l&ny'&Hin&Hy&Hchk). split; [done|]. destruct (Hback y ny' Hy) as (ny&Hny&Hv).
        exists x, y, l, ny. split; [exact (Hadd x y l Hin)|]. split; [done|]. left. rewrite <- Hv. by split.
    - destruct Hrb as (g1&r&Hmg&Hp). split; [done|].
      destruct Hp as [(x&y&l&k&Hin&_)|(x&y&l&ny&Hin&Hy&Hx&Hcase)].
      { rewrite (mg_rems _ _ _ _ _ Hmg) in Hin. by apply elem_of_nil in Hin. }
      rewrite opposites_match in Hcase.
      assert (nonvec E l) as Hl.
      { assert (exists k, k ∈ opposites_on E l (nvar ny)) as (k&Hk).
        - destruct Hcase as [(_&Hlen&_)|(k&Hk&_)].
          + destruct (opposites_on E l (nvar ny)) as [|k ks]; [cbn in Hlen; lia|]. exists k. left.
          + exists k. rewrite Hk. left.
        - apply elem_of_list_filter in Hk as [_ Hk]. by eapply Hnv. }
      exists x, y, l, ny. split; [by apply (am_adds _ _ _ _ _ Hmg Hit)|]. split; [by apply (am_entry _ _ _ _ _ Hmg Hit)|]. right.
      destruct Hcase as [(->&Hlen&Hno)|(k&Hk&Hcase)].
      + left. split; [done|]. split; [done|]. intros k Hk Hl'. apply (Hno k Hk). split; [by apply (am_link _ _ _ _ _ Hmg Hit)|].
        intros (l'&Hin'&_). rewrite (mg_rems _ _ _ _ _ Hmg) in Hin'. by apply elem_of_nil in Hin'.
      + right. assert (k ∈ opposites_on E l (nvar ny)) as Hko by (rewrite Hk; left). apply elem_of_list_filter in Hko as [_ Hko].
        destruct Hcase as [Hbad|(->&Hd&z&Hz&Hbl)].
        { destruct (Hbf _ _ Hko) as [_ Hkind]. unfold badkind in Hbad. naive_solver congruence. }
        split; [done|]. exists k, z. split; [done|]. split; [done|]. split; [done|]. by apply (am_completed _ _ _ _ _ Hmg Hit).
  Qed.
End switchbidi.
