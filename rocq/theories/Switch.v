(** * switch_context: facts that hold of every run *)
From Verif Require Export Rebuild.

Section switch.
  Context {D : Type} (E : env).
  Implicit Types (g : graph D) (n : node D) (x y : idx) (s : source) (a : arena D).

  Lemma set_field_ok n f lv lv' :
    node_ok E n -> nlinks n !! f = Some lv -> kind_of lv' = kind_of lv ->
    match lv' with LSet k l => set_rep k l | _ => True end -> node_ok E (set_field n f lv').
  Proof.
    intros (ks&Hk&HF) Hl Hkd Hnd. exists ks. split; [done|]. cbn.
    destruct (Forall2_lookup_r _ _ _ _ _ HF Hl) as (k&Hkf&[Hkk _]).
    rewrite <- (list_insert_id ks f k) by done. apply Forall2_insert; [done|].
    split; [congruence|done].
  Qed.
  Lemma modify_link_ok n s o w n' fl :
    node_ok E n -> modify_link n s o w = Ok (n', fl) -> node_ok E n' /\ nvar n' = nvar n.
  Proof.
    intros Hok. unfold modify_link. case_decide; [|done].
    destruct (nlinks n !! s_fld s) as [[i|k l|l]|] eqn:Hl; [..|done]; destruct (s_pos s); try done.
    - intros [= <- _]. split; [|done]. by eapply set_field_ok.
    - assert (set_rep k l) as Hnd by by eapply (node_ok_rep E).
      destruct (w =? 0)%N; intros [= <- _]; (split; [|done]); (eapply set_field_ok; [done|done|done|]).
      + by apply set_remove_rep.
      + by apply set_insert_rep, set_remove_rep.
    - destruct (l !! n0) as [i|]; [|done]. intros [= <- _]. split; [|done]. by eapply set_field_ok.
  Qed.

  (** the [k]-th index handed out after the counter value [c] *)
  Definition newix (c : idx) (k : nat) : idx := (c + 1 + N.of_nat k)%N.

  Record inserted (l : list (idx * node D)) (c : idx) a a' : Prop := {
    in_ok : arena_ok E a';
    in_new : forall k i n, l !! k = Some (i, n) ->
      arena_get a' (newix c k) = Some n /\ arena_dispatch a' (newix c k) = Some (nvar n);
    in_old : forall j, (forall k, k < length l -> j <> newix c k) ->
      arena_get a' j = arena_get a j /\ arena_dispatch a' j = arena_dispatch a j;
    in_cont : forall d, cont a' d = cont a d ++
      filter (fun kv => nvar kv.2 = d) (imap (fun k kv => (newix c k, kv.2)) l) }.

  Definition switch_map (l : list (idx * node D)) (c : idx) (m : list (idx * idx)) : list (idx * idx) :=
    fold_left (fun m ij => omap_insert ij.1 ij.2 m) (imap (fun k kv => (kv.1, newix c k)) l) m.

  Lemma newix_S c k : newix (c + 1) k = newix c (S k).
  Proof. unfold newix. lia. Qed.

  Lemma switch_insert_spec l m c a :
    arena_ok E a -> (forall i n, (i, n) ∈ l -> node_ok E n) ->
    (c + N.of_nat (length l) < usize_mod)%N ->
    (forall j, is_Some (arena_dispatch a j) -> (j <= c)%N) ->
    exists a', switch_insert E l m (c, a) = Done ((c + N.of_nat (length l))%N, a') (switch_map l c m) /\
      inserted l c a a'.
  Proof.
    revert m c a. induction l as [|[i n] l IH]; intros m c a Hok Hn Hroom Hb; cbn [switch_insert].
    - exists a. split.
      + unfold retM, switch_map. cbn. by rewrite N.add_0_r.
      + split; [done|done|done|]. intros d. cbn. by rewrite app_nil_r.
    - assert (arena_dispatch a (c + 1)%N = None) as Hfresh.
      { apply eq_None_not_Some. intros Hs. apply Hb in Hs. lia. }
      destruct (arena_insert_spec E c a n Hok) as (a1&Ha1&Hput).
      { apply (Hn i). left. } { cbn [length] in Hroom. lia. } { done. }
      destruct (IH (omap_insert i (c + 1)%N m) (c + 1)%N a1) as (a2&Ha2&Hin).
      { apply Hput. } { intros i' n' Hin. apply (Hn i'). by right. } { cbn [length] in Hroom. lia. }
      { intros j. rewrite (ap_disp _ _ _ _ _ Hput). case_decide; [intros _; lia|]. intros Hs. apply Hb in Hs. lia. }
      exists a2. split.
      + unfold bindM. rewrite Ha1, Ha2. f_equal; [f_equal; cbn [length]; lia|].
        unfold switch_map. cbn. f_equal.
        * rewrite imap_fmap || idtac. apply imap_ext. intros k [i' n'] _. cbn. by rewrite newix_S.
        * f_equal. unfold newix. lia.
      + split; [apply Hin|..].
        * intros [|k] i' n' Hk; cbn in Hk.
          { injection Hk as -> ->.
            destruct (in_old _ _ _ _ Hin (newix c 0)) as [-> ->].
            { intros k Hk. rewrite newix_S. unfold newix. lia. }
            replace (newix c 0) with (c + 1)%N by (unfold newix; lia).
            rewrite (ap_get _ _ _ _ _ Hput), (ap_disp _ _ _ _ _ Hput). by rewrite !decide_True. }
          rewrite <- newix_S. by apply (in_new _ _ _ _ Hin k i').
        * intros j Hj. destruct (in_old _ _ _ _ Hin j) as [-> ->].
          { intros k Hk. rewrite newix_S. apply Hj. cbn. lia. }
          assert (j <> (c + 1)%N) as Hne.
          { specialize (Hj 0). unfold newix in Hj. cbn in Hj. intros ->. apply Hj; lia. }
          rewrite (ap_get _ _ _ _ _ Hput), (ap_disp _ _ _ _ _ Hput). by rewrite !decide_False.
        * intros d. rewrite (in_cont _ _ _ _ Hin), (ap_cont _ _ _ _ _ Hput), imap_cons, filter_cons.
          replace (imap ((λ k (kv : idx * node D), (newix c k, kv.2)) ∘ S) l) with (imap (λ k (kv : idx * node D), (newix (c+1) k, kv.2)) l).
          2:{ apply imap_ext. intros k kv _. cbn. by rewrite newix_S. }
          replace (newix c 0) with (c + 1)%N by (unfold newix; lia). cbn [snd].
          destruct (decide (d = nvar n)) as [->|Hne]; [rewrite decide_True by done|rewrite decide_False by done].
          { by rewrite <- app_assoc. } done.
  Qed.

  (** relabelling keeps the shape of the arena *)
  Record shape a a' : Prop := {
    sh_ok : arena_ok E a';
    sh_disp : forall j, arena_dispatch a' j = arena_dispatch a j;
    sh_none : forall j, arena_get a j = None -> arena_get a' j = None;
    sh_some : forall j n, arena_get a j = Some n -> exists n', arena_get a' j = Some n' /\ nvar n' = nvar n /\ node_ok E n' }.
  Lemma shape_refl a : arena_ok E a -> (forall j n, arena_get a j = Some n -> node_ok E n) -> shape a a.
  Proof. intros Hok Hn. split; try done. intros j n Hj. exists n. eauto. Qed.

  Lemma switch_relabel_shape bl m a :
    arena_ok E a -> (forall j n, arena_get a j = Some n -> node_ok E n) ->
    wp (switch_relabel (D:=D) bl m) a (fun _ a' => shape a a') (fun _ _ => True).
  Proof.
    intros Hok Hn. apply (wp_mfor_simple _ _ (shape a)); [by apply shape_refl|].
    intros [i j] a1 _ Hs1. apply wp_bind, wp_unwrap; [|done]. intros es _.
    apply (wp_mfor_simple _ _ (shape a)); [done|]. intros [y s] a2 _ Hs2.
    apply wp_bind, wp_unwrap; [|done]. intros y' _. apply wp_bind, wp_get, wp_bind, wp_unwrap; [|done].
    intros n2 Hn2. apply wp_bind, wp_lift; [|done]. intros [n' fl] Hm. apply wp_put.
    assert (exists n0, arena_get a y' = Some n0 /\ node_ok E n2 /\ nvar n2 = nvar n0) as (n0&Hn0&Hok2&Hv2).
    { destruct (arena_get a y') as [n0|] eqn:Hy.
      - destruct (sh_some _ _ Hs2 y' n0 Hy) as (n2'&Hg&Hv&Hk). assert (n2' = n2) as -> by congruence. eauto.
      - rewrite (sh_none _ _ Hs2) in Hn2 by done. done. }
    destruct (modify_link_ok _ _ _ _ _ _ Hok2 Hm) as [Hok' Hv'].
    assert (forall k, arena_get (arena_set a2 y' n') k = if decide (k = y') then Some n' else arena_get a2 k) as Hget.
    { intros k. eapply arena_set_get. done. }
    split.
    - apply arena_set_ok, Hs2.
    - intros k. rewrite arena_set_dispatch. apply Hs2.
    - intros k Hk. rewrite Hget. case_decide; [subst; congruence|]. by apply Hs2.
    - intros k n Hk. rewrite Hget. case_decide; [subst|by apply Hs2].
      exists n'. split; [done|]. assert (n = n0) as -> by congruence. split; [congruence|done].
  Qed.

  Lemma arena_items_ok g : WF E g -> forall i n, (i, n) ∈ arena_items (g_nodes g) -> node_ok E n.
  Proof. intros Hwf i n Hin. apply (wf_nodes _ _ Hwf i). apply (arena_get_items E); [apply Hwf|done]. Qed.

  Lemma switch_context_wf g ctx c :
    WF E g -> (c + N.of_nat (length (arena_items (g_nodes g))) < usize_mod)%N ->
    match switch_context E g ctx c with
    | Done c' g' => c' = (c + N.of_nat (length (arena_items (g_nodes g))))%N /\ WF E g' /\ gtyped g' /\ g_ctx g' = ctx /\
        (forall j, is_Some (arena_dispatch (g_nodes g') j) -> (c < j <= c')%N) /\
        forall j, is_Some (arena_dispatch (g_nodes g') j) -> is_Some (graph_get g' j)
    | Panicked _ c' => c' = (c + N.of_nat (length (arena_items (g_nodes g))))%N
    end.
  Proof.
    intros Hwf Hroom. unfold switch_context. set (l := arena_items (g_nodes g)) in *.
    destruct (switch_insert_spec l [] c (arena_new E)) as (a1&->&Hin); [apply arena_new_ok|by apply arena_items_ok|done|by intros j [? ?]|].
    assert (forall j, is_Some (arena_dispatch a1 j) -> exists k, k < length l /\ j = newix c k) as Hdisp1.
    { intros j Hj. destruct (decide (Exists (fun k => j = newix c k) (seq 0 (length l)))) as [He|Hne].
      - apply Exists_exists in He as (k&Hk&->). apply elem_of_seq in Hk. exists k. split; [lia|done].
      - destruct (in_old _ _ _ _ Hin j) as [_ Heq].
        + intros k Hk ->. apply Hne, Exists_exists. exists k. split; [|done]. apply elem_of_seq. lia.
        + rewrite Heq in Hj. by destruct Hj. }
    assert (forall j n, arena_get a1 j = Some n -> node_ok E n /\ arena_dispatch a1 j = Some (nvar n)) as Hn1.
    { intros j n Hj. destruct (Hdisp1 j) as (k&Hk&->); [by eapply arena_get_dispatch|].
      destruct (lookup_lt_is_Some_2 l k Hk) as [[i n0] Hl].
      destruct (in_new _ _ _ _ Hin k i n0 Hl) as [Hg Hd]. assert (n0 = n) as -> by congruence.
      split; [|done]. eapply arena_items_ok; [done|]. by eapply elem_of_list_lookup_2. }
    pose proof (switch_relabel_shape (g_back g) (switch_map l c []) a1 (in_ok _ _ _ _ Hin)) as Hsh.
    unfold wp in Hsh. destruct (switch_relabel (g_back g) (switch_map l c []) a1) as [a2 []|p a2]; [|done].
    specialize (Hsh (fun j n Hj => proj1 (Hn1 j n Hj))).
    assert (forall j n, arena_get a2 j = Some n -> node_ok E n /\ exists n1, arena_get a1 j = Some n1 /\ nvar n = nvar n1) as Hn2.
    { intros j n Hj. destruct (arena_get a1 j) as [n1|] eqn:Hj1.
      - destruct (sh_some _ _ Hsh j n1 Hj1) as (n2&Hg2&Hv&Hk). assert (n2 = n) as -> by congruence. eauto.
      - rewrite (sh_none _ _ Hsh) in Hj by done. done. }
    assert (atyped a2) as Hty.
    { intros j n d Hj. rewrite (sh_disp _ _ Hsh). destruct (Hn2 j n Hj) as (_&n1&Hn1'&->).
      rewrite (proj2 (Hn1 _ _ Hn1')). by intros [= <-]. }
    pose proof (rebuild_spec E ctx a2 (sh_ok _ _ Hsh)) as Hrb.
    destruct (rebuild E ctx a2) as [[g' r] []|p [g' r]]; [|done].
    destruct Hrb as [g1 Hrb].
    { intros j n Hj. split; [by apply (Hn2 j)|]. destruct (Hn2 j n Hj) as (_&n1&Hj1&_).
      destruct (Hdisp1 j) as (k&_&->); [by eapply arena_get_dispatch|]. unfold newix. lia. }
    pose proof (check_link_type_spec E r g') as Hck.
    destruct (check_link_type E r g') as [g2 []|p g2]; [|done]. destruct Hck as [-> _].
    split; [done|]. split; [apply Hrb|]. split.
    { eapply bframe_typed; [apply Hrb|]. eapply merged_typed; [apply Hrb|done]. }
    split; [rewrite (bfr_ctx _ _ _ (rb_frame _ _ _ _ _ _ Hrb)); apply Hrb|].
    split; intros j; rewrite (bfr_disp _ _ _ (rb_frame _ _ _ _ _ _ Hrb)), (mg_disp _ _ _ _ _ (rb_merged _ _ _ _ _ _ Hrb)), (sh_disp _ _ Hsh);
      intros Hj; destruct (Hdisp1 j Hj) as (k&Hk&->); [unfold newix; lia|].
    destruct (lookup_lt_is_Some_2 l k Hk) as [[i n0] Hl]. destruct (in_new _ _ _ _ Hin k i n0 Hl) as [Hg _].
    destruct (sh_some _ _ Hsh _ _ Hg) as (n2&Hg2&_). rewrite <- (mg_get _ _ _ _ _ (rb_merged _ _ _ _ _ _ Hrb)) in Hg2.
    destruct (bfr_some _ _ _ (rb_frame _ _ _ _ _ _ Hrb) _ _ Hg2) as (n3&->&_). eauto.
  Qed.
End switch.
