(** * Consequences of the sequential specification of a commit *)
From Verif Require Export CommitTop.

Section spec.
  Context {D : Type} (E : env).
  Implicit Types (n : node D) (m : gmap N (node D)) (t : txn D).

  (** ** Variants *)
  (** every node of [m'] was in [m] with the same variant *)
  Definition nvar_from m m' : Prop :=
    forall i n', m' !! i = Some n' -> exists n, m !! i = Some n /\ nvar n = nvar n'.
  Lemma nvar_from_refl m : nvar_from m m.
  Proof. intros i n Hi. by exists n. Qed.
  Lemma nvar_from_trans m1 m2 m3 : nvar_from m1 m2 -> nvar_from m2 m3 -> nvar_from m1 m3.
  Proof.
    intros H1 H2 i n Hi. destruct (H2 i n Hi) as (n2&Hi2&Hv2).
    destruct (H1 i n2 Hi2) as (n1&Hi1&Hv1). exists n1. split; [done|congruence].
  Qed.
  Lemma sp_redirect_from reps m m' : sp_redirect reps m m' -> nvar_from m m'.
  Proof.
    intros (res&_&->) i n'. rewrite lookup_fmap. destruct (m !! i) as [n|]; cbn; [|done].
    intros [= <-]. exists n. by rewrite node_redirects_nvar.
  Qed.
  Lemma sp_remove_from x m : nvar_from m (sp_remove x m).
  Proof.
    intros i n'. unfold sp_remove. rewrite lookup_fmap.
    destruct (decide (i = x)) as [->|Hi]; [by rewrite lookup_delete|rewrite lookup_delete_ne by done].
    destruct (m !! i) as [n|]; cbn; [|done]. intros [= <-]. by exists n.
  Qed.
  Lemma sp_removes_from xs m m' : sp_removes xs m = Some m' -> nvar_from m m'.
  Proof.
    revert m. induction xs as [|x xs IH]; intros m; cbn.
    - intros [= <-]. apply nvar_from_refl.
    - destruct (m !! x); [|done]. intros H. eapply nvar_from_trans; [apply (sp_remove_from x)|by apply IH].
  Qed.
  Definition ok_map m : Prop := forall i n, m !! i = Some n -> node_ok E n.

  Lemma sp_mutates_from fs m m' :
    (forall i f, (i, f) ∈ fs -> mut_ok E True f) -> ok_map m ->
    sp_mutates fs m = Some m' -> nvar_from m m' /\ ok_map m'.
  Proof.
    revert m. induction fs as [|[i f] fs IH]; intros m Hfs Hok; cbn.
    - intros [= <-]. split; [apply nvar_from_refl|done].
    - destruct (m !! i) as [n|] eqn:Hi; [|done]. destruct (f n) as [n' []|] eqn:Hf; [|done]. intros Hs.
      destruct (Hfs i f ltac:(left) n n' (Hok _ _ Hi) Hf) as [Hok' Hv]. apply IH in Hs as [Hs1 Hs2].
      + split; [|done]. eapply nvar_from_trans; [|done]. intros j nj Hj.
        destruct (decide (j = i)) as [->|Hji].
        * rewrite lookup_insert in Hj. injection Hj as <-. exists n. split; [done|]. symmetry. by apply Hv.
        * rewrite lookup_insert_ne in Hj by done. by exists nj.
      + intros j f' Hin. apply (Hfs j). by right.
      + intros j nj Hj. destruct (decide (j = i)) as [->|Hji].
        * rewrite lookup_insert in Hj. by injection Hj as <-.
        * rewrite lookup_insert_ne in Hj by done. by apply (Hok j).
  Qed.
  Lemma sp_updates_from fs m m' :
    (forall i f, (i, f) ∈ fs -> upd_ok E True f) -> ok_map m ->
    sp_updates fs m = Some m' -> nvar_from m m' /\ ok_map m'.
  Proof.
    revert m. induction fs as [|[i f] fs IH]; intros m Hfs Hok; cbn.
    - intros [= <-]. split; [apply nvar_from_refl|done].
    - destruct (m !! i) as [n|] eqn:Hi; [|done]. destruct (f n) as [n'|] eqn:Hf; [|done]. intros Hs.
      destruct (Hfs i f ltac:(left) n n' (Hok _ _ Hi) Hf) as [Hok' Hv]. apply IH in Hs as [Hs1 Hs2].
      + split; [|done]. eapply nvar_from_trans; [|done]. intros j nj Hj.
        destruct (decide (j = i)) as [->|Hji].
        * rewrite lookup_insert in Hj. injection Hj as <-. exists n. split; [done|]. symmetry. by apply Hv.
        * rewrite lookup_insert_ne in Hj by done. by exists nj.
      + intros j f' Hin. apply (Hfs j). by right.
      + intros j nj Hj. destruct (decide (j = i)) as [->|Hji].
        * rewrite lookup_insert in Hj. by injection Hj as <-.
        * rewrite lookup_insert_ne in Hj by done. by apply (Hok j).
  Qed.

  Lemma node_redirects_ok res n : node_ok E n -> node_ok E (node_redirects res n).
  Proof.
    unfold node_redirects. revert n. induction res as [|[o z] res IH]; intros n Hok; [done|].
    cbn. by apply IH, node_redirect_ok.
  Qed.
  Lemma sp_redirect_ok reps m m' : ok_map m -> sp_redirect reps m m' -> ok_map m'.
  Proof.
    intros Hok (res&_&->) i n. rewrite lookup_fmap. destruct (m !! i) as [n0|] eqn:Hi; cbn; [|done].
    intros [= <-]. by apply node_redirects_ok, (Hok i).
  Qed.
  Lemma union_ok m1 m2 : ok_map m1 -> ok_map m2 -> ok_map (m1 ∪ m2).
  Proof. intros H1 H2 i n Hi. apply lookup_union_Some_raw in Hi as [Hi|[_ Hi]]; eauto. Qed.

  Lemma sp_commit_nvar t m m' :
    (forall i f, (i, f) ∈ x_mut t -> mut_ok E True f) ->
    (forall i f, (i, f) ∈ x_upd t -> upd_ok E True f) ->
    ok_map m -> ok_map (x_new t) ->
    sp_commit t m m' ->
    forall i n', m' !! i = Some n' ->
      exists n, nvar n = nvar n' /\ (x_new t !! i = Some n \/ (x_new t !! i = None /\ m !! i = Some n)).
  Proof.
    intros Hmut Hupd Hok Hokn (m1&m2&m3&m4&H1&H2&H3&H4&H5) i n' Hi.
    apply sp_removes_from in H5. apply (H5 i) in Hi as (n4&Hi4&Hv4).
    apply sp_redirect_from in H4. apply (H4 i) in Hi4 as (n3&Hi3&Hv3).
    pose proof (sp_redirect_ok _ _ _ Hok H1) as Hok1.
    apply sp_mutates_from in H2 as [H2 Hok2]; [|done|by apply union_ok].
    apply sp_updates_from in H3 as [H3 _]; [|done|done].
    apply (H3 i) in Hi3 as (n2&Hi2&Hv2). apply (H2 i) in Hi2 as (n1&Hi1&Hv1).
    apply lookup_union_Some_raw in Hi1 as [Hi1|[Hn Hi1]].
    - exists n1. split; [congruence|by left].
    - apply sp_redirect_from in H1. apply (H1 i) in Hi1 as (n0&Hi0&Hv0).
      exists n0. split; [congruence|by right].
  Qed.

  (** ** Where nodes come from, whatever the closures do *)
  Definition dom_from m m' : Prop := forall i, is_Some (m' !! i) -> is_Some (m !! i).
  Lemma sp_mutates_dom fs m m' : sp_mutates fs m = Some m' -> forall i, is_Some (m' !! i) <-> is_Some (m !! i).
  Proof.
    revert m. induction fs as [|[i f] fs IH]; intros m; cbn; [by intros [= <-]|].
    destruct (m !! i) as [n|] eqn:Hi; [|done]. destruct (f n) as [n' []|]; [|done].
    intros Hs j. rewrite (IH _ Hs j). destruct (decide (j = i)) as [->|Hji].
    - rewrite lookup_insert, Hi. naive_solver.
    - by rewrite lookup_insert_ne.
  Qed.
  Lemma sp_updates_dom fs m m' : sp_updates fs m = Some m' -> forall i, is_Some (m' !! i) <-> is_Some (m !! i).
  Proof.
    revert m. induction fs as [|[i f] fs IH]; intros m; cbn; [by intros [= <-]|].
    destruct (m !! i) as [n|] eqn:Hi; [|done]. destruct (f n) as [n'|]; [|done].
    intros Hs j. rewrite (IH _ Hs j). destruct (decide (j = i)) as [->|Hji].
    - rewrite lookup_insert, Hi. naive_solver.
    - by rewrite lookup_insert_ne.
  Qed.
  Lemma sp_redirect_dom reps m m' : sp_redirect reps m m' -> forall i, is_Some (m' !! i) <-> is_Some (m !! i).
  Proof. intros (res&_&->) i. by rewrite lookup_fmap, fmap_is_Some. Qed.
  Lemma sp_removes_dom xs m m' : sp_removes xs m = Some m' ->
    forall i, is_Some (m' !! i) <-> is_Some (m !! i) /\ i ∉ xs.
  Proof.
    revert m. induction xs as [|x xs IH]; intros m; cbn.
    - intros [= <-] i. rewrite elem_of_nil. tauto.
    - destruct (m !! x) eqn:Hx; [|done]. intros Hs i. rewrite (IH _ Hs i). unfold sp_remove.
      rewrite lookup_fmap, fmap_is_Some, not_elem_of_cons.
      destruct (decide (i = x)) as [->|Hi]; [rewrite lookup_delete|rewrite lookup_delete_ne by done].
      + split; [intros [[? [=]] _]|tauto].
      + tauto.
  Qed.
  (** the nodes after a commit are the old and the new ones without the removed ones *)
  Lemma sp_commit_dom t m m' : sp_commit t m m' ->
    forall i, is_Some (m' !! i) <-> (is_Some (x_new t !! i) \/ is_Some (m !! i)) /\ i ∉ x_del t.
  Proof.
    intros (m1&m2&m3&m4&H1&H2&H3&H4&H5) i.
    rewrite (sp_removes_dom _ _ _ H5), (sp_redirect_dom _ _ _ H4), (sp_updates_dom _ _ _ H3), (sp_mutates_dom _ _ _ H2).
    rewrite <- (sp_redirect_dom _ _ _ H1 i). rewrite lookup_union.
    destruct (x_new t !! i), (m1 !! i); cbn; naive_solver.
  Qed.

  (** ** Links *)
  Lemma has_link_redirects0 xs n l y :
    (forall x, x ∈ xs -> x <> 0%N) -> node_ok E n ->
    has_link (node_redirects ((fun x => (x, 0%N)) <$> xs) n) l y <-> has_link n l y /\ y ∉ xs.
  Proof.
    unfold node_redirects. revert n. induction xs as [|x xs IH]; intros n Hz Hok; cbn.
    - rewrite elem_of_nil. tauto.
    - rewrite IH; [|intros; apply Hz; by right|by apply node_redirect_ok].
      rewrite (has_link_redirect E), not_elem_of_cons by (try done; apply Hz; left).
      split; [|tauto]. intros [[[? ?]|(->&?&Hh)] ?]; [done|]. destruct Hh; done.
  Qed.

  (** ** Sequential redirection is simultaneous redirection *)
  Definition rmap (res : list (idx * idx)) (y : idx) : idx := default y (omap_get y res).
  Arguments rmap : simpl never.
  Definition lvs_redirect (res : list (idx * idx)) (lv : linkval) : linkval :=
    fold_left (fun lv '(old, new) => lv_redirect old new lv) res lv.
  Lemma node_redirects_links res n :
    node_redirects res n = Node (nvar n) (lvs_redirect res <$> nlinks n) (ndata n).
  Proof.
    unfold node_redirects, lvs_redirect. revert n. induction res as [|[o z] res IH]; intros [v ls d]; cbn.
    - by rewrite list_fmap_id.
    - rewrite IH. cbn. by rewrite <- list_fmap_compose.
  Qed.
  Lemma rmap_cons o z res y :
    z ∉ res.*1 -> rmap ((o, z) :: res) y = rmap res (if decide (y = o) then z else y).
  Proof.
    intros Hz. unfold rmap. cbn. destruct (decide (y = o)) as [->|Hy].
    - cbn. apply omap_get_None in Hz. by rewrite Hz.
    - done.
  Qed.
  Definition res_ok (res : list (idx * idx)) : Prop :=
    (forall o z, (o, z) ∈ res -> z ∉ res.*1 /\ o <> 0%N).
  Lemma res_ok_cons o z res : res_ok ((o, z) :: res) -> res_ok res /\ z ∉ res.*1 /\ z <> o /\ o <> 0%N.
  Proof.
    intros H. split.
    - intros o' z' Hin. destruct (H o' z' ltac:(by right)) as [H1 H2]. cbn in H1.
      apply not_elem_of_cons in H1 as [_ H1]. done.
    - destruct (H o z ltac:(left)) as [H1 H2]. cbn in H1. apply not_elem_of_cons in H1 as [? ?]. done.
  Qed.
  Lemma lvs_redirect_map res lv :
    res_ok res -> match lv with LSet _ l => NoDup l | _ => True end ->
    match lv, lvs_redirect res lv with
    | LDirect i, LDirect i' => i' = rmap res i
    | LSet k l, LSet k' l' => k' = k /\ NoDup l' /\
        forall y', y' ∈ l' <-> exists y, y ∈ l /\ y' = rmap res y /\ (y' <> 0%N \/ y = 0%N)
    | LVec l, LVec l' => l' = rmap res <$> l
    | _, _ => False
    end.
  Proof.
    unfold lvs_redirect. revert lv. induction res as [|[o z] res IH]; intros lv Hres Hnd; cbn.
    - destruct lv as [i|k l|l]; cbn.
      + done.
      + split; [done|]. split; [done|]. intros y'. unfold rmap. cbn. split; [|naive_solver].
        intros Hy. exists y'. split; [done|]. split; [done|]. destruct (decide (y' = 0%N)); auto.
      + by rewrite list_fmap_id.
    - apply res_ok_cons in Hres as (Hres&Hz&Hzo&Ho0).
      assert (match lv_redirect o z lv with LSet _ l => NoDup l | _ => True end) as Hnd'.
      { destruct lv; cbn; [done| |done]. repeat case_decide; auto using set_insert_NoDup, set_remove_NoDup. }
      specialize (IH (lv_redirect o z lv) Hres Hnd').
      destruct lv as [i|k l|l]; cbn [lv_redirect] in IH |- *.
      + destruct (fold_left _ res _); [|done..]. by rewrite rmap_cons.
      + assert (forall y, y ∈ (match lv_redirect o z (LSet k l) with LSet _ l' => l' | _ => [] end) <->
          (y ∈ l /\ y <> o) \/ (y = z /\ z <> 0%N /\ o ∈ l)) as Hel.
        { intros y. cbn. repeat case_decide; rewrite ?set_insert_elem, ?set_remove_elem by done; naive_solver. }
        assert (exists l2, lv_redirect o z (LSet k l) = LSet k l2) as [l2 Hl2].
        { cbn. repeat case_decide; eauto. }
        cbn [lv_redirect] in Hel, Hl2. rewrite Hl2 in *.
        destruct (fold_left _ res _) as [|k' l'|]; [done| |done]. destruct IH as (->&Hnd2&IH).
        split; [done|]. split; [done|]. intros y'. rewrite IH.
        assert (rmap res 0%N = 0%N) as Hr0.
        { unfold rmap. destruct (omap_get 0%N res) as [w|] eqn:Hw; [|done].
          apply omap_get_elem in Hw. by destruct (Hres _ _ Hw). }
        assert (rmap res z = z) as Hrz.
        { unfold rmap. apply omap_get_None in Hz. by rewrite Hz. }
        setoid_rewrite Hel. split.
        * intros (y&[[Hy Hyo]|(->&Hz0&Hol)]&->&H0).
          -- exists y. rewrite rmap_cons by done. rewrite decide_False by done. auto.
          -- exists o. rewrite rmap_cons by done. rewrite decide_True by done. naive_solver.
        * intros (y&Hy&->&H0). rewrite rmap_cons in * by done. case_decide as Hyo.
          -- subst y. exists z. rewrite Hrz in *. naive_solver.
          -- exists y. auto.
      + destruct (fold_left _ res _); [done|done|]. rewrite IH, <- list_fmap_compose. apply list_fmap_ext.
        intros _ y _. cbn. by rewrite rmap_cons.
  Qed.

  Lemma resolved_keys reps res : redir_resolved reps res -> res.*1 = reps.*1.
  Proof.
    intros (P&_&H). induction H as [|[o w] [o' z] reps' res' [Ho _] _ IH]; cbn in *; [done|by subst; f_equal].
  Qed.
  Lemma resolved_elem_gen (reps0 reps res : list (idx * idx)) o z :
    Forall2 (fun on oz => oz.1 = on.1 /\ redir_final reps0 on.2 oz.2) reps res ->
    (o, z) ∈ res -> exists w, (o, w) ∈ reps /\ redir_final reps0 w z.
  Proof.
    induction 1 as [|[o1 w1] [o2 z2] reps' res' [Ho Hf] _ IH]; cbn in *; [by intros ?%elem_of_nil|].
    rewrite elem_of_cons. intros [[= -> ->]|Hin].
    - exists w1. subst. split; [left|done].
    - destruct (IH Hin) as (w&?&?). exists w. split; [by right|done].
  Qed.
  Lemma resolved_elem reps res o z :
    redir_resolved reps res -> (o, z) ∈ res -> redir_final reps o z.
  Proof.
    intros Hr Hin. destruct (resolved_elem_gen reps reps res o z (resolved_finals _ _ Hr) Hin) as (w&Hw&[Hrw Hz]).
    split; [|done]. by eapply rtc_l.
  Qed.
  Lemma resolved_ok reps res :
    (forall o, o ∈ reps.*1 -> o <> 0%N) -> redir_resolved reps res -> res_ok res.
  Proof.
    intros Hz Hr o z Hin. rewrite (resolved_keys _ _ Hr). split.
    - by apply (resolved_elem _ _ _ _ Hr) in Hin as [_ ?].
    - apply Hz. rewrite <- (resolved_keys _ _ Hr). apply elem_of_list_fmap. by exists (o, z).
  Qed.
  Lemma rmap_final reps res y : redir_resolved reps res -> redir_final reps y (rmap res y).
  Proof.
    intros Hr. unfold rmap. destruct (omap_get y res) as [z|] eqn:Hy; cbn.
    - apply omap_get_elem in Hy. by eapply resolved_elem.
    - apply omap_get_None in Hy. rewrite (resolved_keys _ _ Hr) in Hy. split; [apply rtc_refl|done].
  Qed.

  Lemma omap_get_split (L : list (idx * idx)) y z : omap_get y L = Some z ->
    exists pre post, L = pre ++ (y, z) :: post /\ y ∉ pre.*1.
  Proof.
    induction L as [|[a b] L IH]; cbn; [done|]. intros H. destruct (decide (y = a)) as [->|Hne].
    - rewrite ?decide_True in H by done. injection H as ->. exists [], L. split; [done|]. by intros ?%elem_of_nil.
    - rewrite ?decide_False in H by done. destruct (IH H) as (pre&post&->&Hp). exists ((a, b) :: pre), post.
      split; [done|]. cbn. by intros [?|?]%elem_of_cons.
  Qed.
  Lemma rmap_dest reps res y : redir_resolved reps res -> redir_dest reps y (rmap res y).
  Proof.
    intros Hr. pose proof (resolved_keys _ _ Hr) as Hk. unfold rmap. destruct (omap_get y res) as [z|] eqn:Hy; cbn.
    - right. apply omap_get_split in Hy as (pre&post&Hres&Hpre). destruct Hr as (P&HP&HF). rewrite Hres in HF.
      apply Forall2_app_inv_r in HF as (pre0&post0&HF1&HF2&Hreps).
      inversion HF2 as [|[y' new] ? post1 ? [Hyy Hl] HF3]; subst. cbn in *. subst y'.
      exists pre0, new, post1, P. split; [done|]. split; [|done]. intros Hin. apply Hpre.
      replace (pre.*1) with (pre0.*1); [done|]. clear -HF1. induction HF1 as [|[? ?] [? ?] ? ? [? _] _ IH]; cbn in *; [done|]. by subst; f_equal.
    - left. apply omap_get_None in Hy. by rewrite Hk in Hy.
  Qed.

  (** the sequential effect, described without order *)
  Lemma lvs_redirect_spec reps res lv :
    (forall o, o ∈ reps.*1 -> o <> 0%N) -> redir_resolved reps res ->
    match lv with LSet _ l => NoDup l | _ => True end ->
    lv_redirected reps lv (lvs_redirect res lv).
  Proof.
    intros Hz Hr Hlv. pose proof (lvs_redirect_map res lv (resolved_ok _ _ Hz Hr) Hlv) as H.
    destruct lv as [i|k l|l], (lvs_redirect res _) as [i'|k' l'|l']; try done; cbn.
    - subst. by apply rmap_dest.
    - destruct H as (->&Hnd'&H). split; [done|]. split; [done|]. intros y'. rewrite H. split.
      + intros (y&?&->&?). exists y. split; [done|]. split; [by apply rmap_dest|done].
      + intros (y&Hy&Hf&?). exists y. split; [done|]. split; [|done].
        eapply redir_dest_det; [done|]. by apply rmap_dest.
    - subst. apply Forall2_fmap_r. apply Forall2_same_length_lookup. split; [done|].
      intros j a b Ha Hb. assert (a = b) as -> by congruence. by apply rmap_dest.
  Qed.

  Lemma node_ok_setnd n f lv : node_ok E n -> nlinks n !! f = Some lv -> match lv with LSet _ l => NoDup l | _ => True end.
  Proof. intros Hok Hl. destruct lv; [done| |done]. by eapply node_ok_set. Qed.

  Lemma node_redirects_spec reps res n :
    (forall o, o ∈ reps.*1 -> o <> 0%N) -> redir_resolved reps res -> node_ok E n ->
    nvar (node_redirects res n) = nvar n /\ ndata (node_redirects res n) = ndata n /\
    Forall2 (lv_redirected reps) (nlinks n) (nlinks (node_redirects res n)).
  Proof.
    intros Hz Hr Hok. rewrite node_redirects_links. cbn. split; [done|]. split; [done|].
    apply Forall2_fmap_r. apply Forall2_same_length_lookup. split; [done|].
    intros f a b Ha Hb. assert (a = b) as -> by congruence.
    apply lvs_redirect_spec; try done. by eapply node_ok_setnd.
  Qed.

  (** nobody links to a redirected index, also with repeated sources *)
  Lemma node_redirects_none res n l y :
    res_ok res -> node_ok E n -> has_link (node_redirects res n) l y -> y ∉ res.*1.
  Proof.
    unfold node_redirects. revert n. induction res as [|[o z] res IH]; intros n Hres Hok; cbn.
    - intros _. apply not_elem_of_nil.
    - pose proof (res_ok_cons _ _ _ Hres) as (Hres'&Hz&Hzo&Ho0). intros Hl.
      assert (y <> o) as Hyo.
      { clear IH. assert (~ has_link (node_redirect o z n) l o) as Hno.
        { rewrite (has_link_redirect E) by done. intros [[_ ?]|[? _]]; congruence. }
        assert (forall o' z', (o', z') ∈ res -> z' <> o /\ o' <> 0%N /\ o' <> z') as Hall.
        { intros o' z' Hin. destruct (Hres o' z' ltac:(by right)) as [H1 H2]. cbn in H1.
          apply not_elem_of_cons in H1 as [H1 H3]. split; [done|]. split; [done|]. intros ->.
          apply H3, elem_of_list_fmap. by exists (z', z'). }
        assert (node_ok E (node_redirect o z n)) as Hok1 by by apply node_redirect_ok.
        revert Hl Hno Hok1 Hall. clear -E. generalize (node_redirect o z n). clear z n.
        induction res as [|[o' z'] res IH]; intros n Hl Hno Hok Hall; cbn in Hl.
        - by intros ->.
        - apply (IH (node_redirect o' z' n)); [done| |by apply node_redirect_ok|].
          + destruct (Hall o' z' ltac:(left)) as (H1&H2&H3).
            rewrite (has_link_redirect E) by done. intros [[? _]|[? _]]; [done|congruence].
          + intros o2 z2 Hin. apply Hall. by right. }
      apply not_elem_of_cons. split; [done|]. eapply IH; [done| |done]. by apply node_redirect_ok.
  Qed.

  (** ** Removals in closed form *)
  Lemma lvs_clear_spec xs lv :
    (forall x, x ∈ xs -> x <> 0%N) -> match lv with LSet _ l => NoDup l | _ => True end ->
    lv_cleared xs lv (lvs_redirect ((fun x => (x, 0%N)) <$> xs) lv).
  Proof.
    intros Hz Hnd. set (res := (fun x => (x, 0%N)) <$> xs).
    assert (res.*1 = xs) as Hk.
    { unfold res. rewrite <- list_fmap_compose. apply list_fmap_id. }
    assert (res_ok res) as Hres.
    { intros o z Hin. rewrite Hk. unfold res in Hin. apply elem_of_list_fmap in Hin as (x&[= -> ->]&Hx).
      split; [|by apply Hz]. intros H0. by apply Hz in H0. }
    assert (forall y, rmap res y = if decide (y ∈ xs) then 0%N else y) as Hr.
    { intros y. unfold rmap. destruct (omap_get y res) as [z|] eqn:Hy; cbn.
      - apply omap_get_elem in Hy. unfold res in Hy. apply elem_of_list_fmap in Hy as (x&[= -> ->]&Hx).
        by rewrite decide_True.
      - apply omap_get_None in Hy. rewrite Hk in Hy. by rewrite decide_False. }
    pose proof (lvs_redirect_map res lv Hres Hnd) as H.
    destruct lv as [i|k l|l], (lvs_redirect res _) as [i'|k' l'|l']; try done; cbn.
    - by rewrite <- Hr.
    - destruct H as (->&Hnd'&H). split; [done|]. split; [done|]. intros y'. rewrite H.
      setoid_rewrite Hr. split.
      + intros (y&Hy&->&H0). case_decide as Hx; [|done]. exfalso. destruct H0 as [?| ->]; [done|]. by apply Hz in Hx.
      + intros [Hy Hx]. exists y'. rewrite decide_False by done. split; [done|]. split; [done|].
        destruct (decide (y' = 0%N)); auto.
    - rewrite H. apply list_fmap_ext. intros _ y _. by rewrite <- Hr.
  Qed.

  Lemma sp_removes_closed xs m m' :
    sp_removes xs m = Some m' ->
    forall i, m' !! i = if decide (i ∈ xs) then None
                        else node_redirects ((fun x => (x, 0%N)) <$> xs) <$> m !! i.
  Proof.
    revert m. induction xs as [|x xs IH]; intros m; cbn.
    - intros [= <-] i. rewrite decide_False by apply not_elem_of_nil.
      destruct (m !! i); done.
    - destruct (m !! x) eqn:Hx; [|done]. intros Hs i. rewrite (IH _ Hs i). unfold sp_remove.
      rewrite lookup_fmap. destruct (decide (i = x)) as [->|Hi].
      + rewrite lookup_delete. rewrite (decide_True (P:=(x ∈ x :: xs))) by left. by case_decide.
      + rewrite lookup_delete_ne by done. destruct (decide (i ∈ xs)) as [Hin|Hin].
        * rewrite decide_True by by right. done.
        * rewrite decide_False by (apply not_elem_of_cons; done). destruct (m !! i); done.
  Qed.
  Lemma sp_removes_in xs m m' : sp_removes xs m = Some m' -> forall x, x ∈ xs -> is_Some (m !! x).
  Proof.
    revert m. induction xs as [|x0 xs IH]; intros m; cbn.
    - intros _ x Hx. by apply elem_of_nil in Hx.
    - destruct (m !! x0) eqn:Hx0; [|done]. intros Hs x Hx. apply elem_of_cons in Hx as [->|Hx]; [eauto|].
      apply (IH _ Hs) in Hx. unfold sp_remove in Hx. rewrite lookup_fmap, fmap_is_Some in Hx.
      destruct (decide (x = x0)) as [->|Hne]; [eauto|]. by rewrite lookup_delete_ne in Hx.
  Qed.
  Lemma sp_removes_NoDup xs m m' : sp_removes xs m = Some m' -> NoDup xs.
  Proof.
    revert m. induction xs as [|x0 xs IH]; intros m; cbn; [constructor|].
    destruct (m !! x0) eqn:Hx0; [|done]. intros Hs. constructor; [|by eapply IH].
    intros Hin. apply (sp_removes_in _ _ _ Hs) in Hin. unfold sp_remove in Hin.
    rewrite lookup_fmap, lookup_delete in Hin. by destruct Hin.
  Qed.
  Lemma sp_removes_iff xs m : is_Some (sp_removes xs m) <-> NoDup xs /\ forall x, x ∈ xs -> is_Some (m !! x).
  Proof.
    split.
    - intros [m' Hs]. split; [by eapply sp_removes_NoDup|by eapply sp_removes_in].
    - revert m. induction xs as [|x xs IH]; intros m [Hnd Hin]; cbn; [eauto|].
      destruct (Hin x ltac:(left)) as [n ->]. apply NoDup_cons in Hnd as [Hx Hnd].
      apply IH. split; [done|]. intros y Hy. unfold sp_remove. rewrite lookup_fmap, fmap_is_Some.
      rewrite lookup_delete_ne by (intros ->; done). apply Hin. by right.
  Qed.
  Lemma node_clear_spec xs n :
    (forall x, x ∈ xs -> x <> 0%N) -> node_ok E n ->
    let n' := node_redirects ((fun x => (x, 0%N)) <$> xs) n in
    nvar n' = nvar n /\ ndata n' = ndata n /\ Forall2 (lv_cleared xs) (nlinks n) (nlinks n').
  Proof.
    intros Hz Hok n'. unfold n'. rewrite node_redirects_links. cbn. split; [done|]. split; [done|].
    apply Forall2_fmap_r. apply Forall2_same_length_lookup. split; [done|].
    intros f a b Ha Hb. assert (a = b) as -> by congruence.
    apply lvs_clear_spec; [done|]. by eapply node_ok_setnd.
  Qed.

  (** ** Untouched nodes *)
  Lemma node_redirects_id res n :
    node_ok E n -> (forall o, o ∈ res.*1 -> o <> 0%N /\ ~ links_to n o) -> node_redirects res n = n.
  Proof.
    unfold node_redirects. induction res as [|[o z] res IH]; intros Hok Hn; cbn; [done|].
    rewrite (node_redirect_none E); [apply IH; [done|]|done|..].
    - intros o' Ho'. apply Hn. by right.
    - apply (Hn o). left.
    - intros s Hs. destruct (Hn o ltac:(left)) as [Ho Hl]. apply Hl. by eapply src_val_links_to.
  Qed.
  Lemma sp_mutates_other fs m m' i : sp_mutates fs m = Some m' -> i ∉ fs.*1 -> m' !! i = m !! i.
  Proof.
    revert m. induction fs as [|[j f] fs IH]; intros m; cbn; [by intros [= <-]|].
    destruct (m !! j); [|done]. destruct (f _) as [n' []|]; [|done]. intros Hs Hi.
    apply not_elem_of_cons in Hi as [Hij Hi]. rewrite (IH _ Hs Hi). by rewrite lookup_insert_ne.
  Qed.
  Lemma sp_updates_other fs m m' i : sp_updates fs m = Some m' -> i ∉ fs.*1 -> m' !! i = m !! i.
  Proof.
    revert m. induction fs as [|[j f] fs IH]; intros m; cbn; [by intros [= <-]|].
    destruct (m !! j); [|done]. destruct (f _) as [n'|]; [|done]. intros Hs Hi.
    apply not_elem_of_cons in Hi as [Hij Hi]. rewrite (IH _ Hs Hi). by rewrite lookup_insert_ne.
  Qed.
  (** the transaction does not name [i] *)
  Definition not_named t (i : idx) : Prop := i ∉ (x_mut t).*1 /\ i ∉ (x_upd t).*1 /\ i ∉ x_del t.

  Lemma sp_commit_late_untouched t m m2 m3 m4 m' i n :
    (forall o, o ∈ (x_redir_all t).*1 -> o <> 0%N) -> (forall x, x ∈ x_del t -> x <> 0%N) ->
    sp_mutates (x_mut t) m = Some m2 -> sp_updates (x_upd t) m2 = Some m3 ->
    sp_redirect (x_redir_all t) m3 m4 -> sp_removes (x_del t) m4 = Some m' ->
    m !! i = Some n -> node_ok E n -> not_named t i ->
    (forall y, links_to n y -> y ∉ (x_redir_all t).*1 /\ y ∉ x_del t) ->
    m' !! i = Some n.
  Proof.
    intros Hz1 Hz2 H2 H3 (res&Hres&->) H5 Hi Hok (Hm&Hu&Hd) Hl.
    rewrite (sp_removes_closed _ _ _ H5), decide_False by done. rewrite lookup_fmap.
    rewrite (sp_updates_other _ _ _ _ H3 Hu), (sp_mutates_other _ _ _ _ H2 Hm), Hi. cbn. f_equal.
    rewrite (node_redirects_id res n Hok).
    - apply node_redirects_id; [done|]. intros o Ho. rewrite <- list_fmap_compose in Ho.
      apply elem_of_list_fmap in Ho as (x&->&Hx). split; [by apply Hz2|]. intros HH. by apply Hl in HH as [_ ?].
    - intros o Ho. rewrite (resolved_keys _ _ Hres) in Ho. split; [by apply Hz1|]. intros HH. by apply Hl in HH as [? _].
  Qed.
  Lemma sp_commit_new_untouched t m m' i n :
    (forall o, o ∈ (x_redir_all t).*1 -> o <> 0%N) -> (forall x, x ∈ x_del t -> x <> 0%N) ->
    sp_commit t m m' -> x_new t !! i = Some n -> node_ok E n -> not_named t i ->
    (forall y, links_to n y -> y ∉ (x_redir_all t).*1 /\ y ∉ x_del t) ->
    m' !! i = Some n.
  Proof.
    intros Hz1 Hz2 (m1&m2&m3&m4&H1&H2&H3&H4&H5) Hi Hok Hnn Hl.
    eapply sp_commit_late_untouched; try done. by apply lookup_union_Some_l.
  Qed.
  Lemma sp_commit_old_untouched t m m' i n :
    (forall o, o ∈ (x_redir t).*1 -> o <> 0%N) ->
    (forall o, o ∈ (x_redir_all t).*1 -> o <> 0%N) -> (forall x, x ∈ x_del t -> x <> 0%N) ->
    sp_commit t m m' -> x_new t !! i = None -> m !! i = Some n -> node_ok E n -> not_named t i ->
    (forall y, links_to n y -> y ∉ (x_redir t).*1 /\ y ∉ (x_redir_all t).*1 /\ y ∉ x_del t) ->
    m' !! i = Some n.
  Proof.
    intros Hz0 Hz1 Hz2 (m1&m2&m3&m4&(res&Hres&->)&H2&H3&H4&H5) Hnew Hi Hok Hnn Hl.
    eapply sp_commit_late_untouched; try done.
    - rewrite lookup_union_r, lookup_fmap, Hi by done. cbn. f_equal. apply node_redirects_id; [done|].
      intros o Ho. rewrite (resolved_keys _ _ Hres) in Ho. split; [by apply Hz0|]. intros HH. by apply Hl in HH as [? _].
    - intros y Hy. apply Hl in Hy. tauto.
  Qed.

  (** ** Determinism *)
  Lemma sp_redirect_det reps m m1 m2 :
    sp_redirect reps m m1 -> sp_redirect reps m m2 -> m1 = m2.
  Proof. intros (r1&H1&->) (r2&H2&->). by rewrite (redir_resolved_det _ _ _ H1 H2). Qed.
  Lemma sp_commit_det t m m1 m2 :
    sp_commit t m m1 -> sp_commit t m m2 -> m1 = m2.
  Proof.
    intros (a1&a2&a3&a4&A1&A2&A3&A4&A5) (b1&b2&b3&b4&B1&B2&B3&B4&B5).
    pose proof (sp_redirect_det _ _ _ _ A1 B1); subst b1. assert (a2 = b2) as -> by congruence.
    assert (a3 = b3) as -> by congruence. pose proof (sp_redirect_det _ _ _ _ A4 B4); subst b4. congruence.
  Qed.

  (** ** Link integrity *)
  Definition node_tk (U : idx -> Prop) n : Prop :=
    (forall y, links_to n y -> U y) /\ forall f k l, nlinks n !! f = Some (LSet k l) -> 0%N ∉ l.
  Definition map_tk (U : idx -> Prop) m : Prop := forall i n, m !! i = Some n -> node_tk U n.

  Lemma node_tk_redirect U o z n :
    node_ok E n -> o <> 0%N -> o <> z -> (z = 0%N \/ U z) -> node_tk U n -> node_tk U (node_redirect o z n).
  Proof.
    intros Hok Ho Hoz Hz [Hl H0]. split.
    - intros y [l Hy]. apply (has_link_redirect E) in Hy; [|done..]. destruct Hy as [[Hy _]|(->&?&_)].
      + apply Hl. by exists l.
      + by destruct Hz.
    - intros f k l. cbn. rewrite list_lookup_fmap. destruct (nlinks n !! f) as [[i|k' l'|l']|] eqn:Hf; cbn; try done.
      assert (NoDup l') by by eapply node_ok_set.
      pose proof (H0 f k' l' Hf) as H00.
      repeat case_decide; intros [= <- <-]; rewrite ?set_insert_elem, ?set_remove_elem by done; naive_solver.
  Qed.
  Lemma node_tk_redirects U res n :
    node_ok E n -> res_ok res -> (forall o z, (o, z) ∈ res -> z = 0%N \/ U z) ->
    node_tk U n -> node_tk U (node_redirects res n).
  Proof.
    unfold node_redirects. revert n. induction res as [|[o z] res IH]; intros n Hok Hres Hz Hn; cbn; [done|].
    apply res_ok_cons in Hres as (Hres&?&?&?). apply IH; [by apply node_redirect_ok|done| |].
    - intros o' z' Hin. apply (Hz o'). by right.
    - apply node_tk_redirect; try done. apply (Hz o). left.
  Qed.
  (** a final destination other than the start is a target of the list *)
  Lemma redir_final_target reps x z : redir_final reps x z -> z = x \/ z ∈ reps.*2.
  Proof.
    intros [Hr _]. unfold redir_reach in Hr. apply rtc_inv_r in Hr as [->|(y&_&Hyw)]; [by left|].
    right. apply elem_of_list_fmap. by exists (y, z).
  Qed.
  Lemma sp_redirect_tk (U : idx -> Prop) reps m m' :
    (forall o, o ∈ reps.*1 -> o <> 0%N) -> (forall z, z ∈ reps.*2 -> z = 0%N \/ U z) ->
    ok_map m -> map_tk U m -> sp_redirect reps m m' -> map_tk U m'.
  Proof.
    intros Hz Ht Hok Htk (res&Hres&->) i n'. rewrite lookup_fmap.
    destruct (m !! i) as [n|] eqn:Hi; cbn; [|done]. intros [= <-].
    apply node_tk_redirects; [by apply (Hok i)|by eapply resolved_ok| |by apply (Htk i)].
    intros o z Hin. apply Ht. destruct (resolved_elem_gen reps reps res o z (resolved_finals _ _ Hres) Hin) as (w&Hw&Hf).
    apply redir_final_target in Hf as [->|?]; [|done]. apply elem_of_list_fmap. by exists (o, w).
  Qed.
  Lemma sp_mutates_tk (U : idx -> Prop) fs m m' :
    (forall i f, (i, f) ∈ fs -> mut_ok E False f) ->
    (forall i f n n', (i, f) ∈ fs -> f n = Done n' tt -> node_tk U n -> node_tk U n') ->
    ok_map m -> map_tk U m -> sp_mutates fs m = Some m' -> map_tk U m' /\ ok_map m'.
  Proof.
    revert m. induction fs as [|[i f] fs IH]; intros m Hfs Hft Hok Htk; cbn.
    - by intros [= <-].
    - destruct (m !! i) as [n|] eqn:Hi; [|done]. destruct (f n) as [n' []|] eqn:Hf; [|done]. intros Hs.
      destruct (Hfs i f ltac:(left) n n' (Hok _ _ Hi) Hf) as [Hok' _].
      eapply IH; [..|exact Hs].
      + intros j f' Hin. apply (Hfs j). by right.
      + intros j f' n1 n2 Hin. apply (Hft j). by right.
      + intros j nj Hj. destruct (decide (j = i)) as [->|Hji].
        * rewrite lookup_insert in Hj. by injection Hj as <-.
        * rewrite lookup_insert_ne in Hj by done. by apply (Hok j).
      + intros j nj Hj. destruct (decide (j = i)) as [->|Hji].
        * rewrite lookup_insert in Hj. injection Hj as <-. apply (Hft i f n); [left|done|by apply (Htk i)].
        * rewrite lookup_insert_ne in Hj by done. by apply (Htk j).
  Qed.
  Lemma sp_updates_tk (U : idx -> Prop) fs m m' :
    (forall i f, (i, f) ∈ fs -> upd_ok E False f) ->
    (forall i f n n', (i, f) ∈ fs -> f n = Ok n' -> node_tk U n -> node_tk U n') ->
    ok_map m -> map_tk U m -> sp_updates fs m = Some m' -> map_tk U m' /\ ok_map m'.
  Proof.
    revert m. induction fs as [|[i f] fs IH]; intros m Hfs Hft Hok Htk; cbn.
    - by intros [= <-].
    - destruct (m !! i) as [n|] eqn:Hi; [|done]. destruct (f n) as [n'|] eqn:Hf; [|done]. intros Hs.
      destruct (Hfs i f ltac:(left) n n' (Hok _ _ Hi) Hf) as [Hok' _].
      eapply IH; [..|exact Hs].
      + intros j f' Hin. apply (Hfs j). by right.
      + intros j f' n1 n2 Hin. apply (Hft j). by right.
      + intros j nj Hj. destruct (decide (j = i)) as [->|Hji].
        * rewrite lookup_insert in Hj. by injection Hj as <-.
        * rewrite lookup_insert_ne in Hj by done. by apply (Hok j).
      + intros j nj Hj. destruct (decide (j = i)) as [->|Hji].
        * rewrite lookup_insert in Hj. injection Hj as <-. apply (Hft i f n); [left|done|by apply (Htk i)].
        * rewrite lookup_insert_ne in Hj by done. by apply (Htk j).
  Qed.

  Lemma sp_commit_closed t m m' :
    let U := fun y => is_Some (x_new t !! y) \/ is_Some (m !! y) in
    (forall o, o ∈ (x_redir t).*1 -> o <> 0%N) ->
    (forall o, o ∈ (x_redir_all t).*1 -> o <> 0%N) -> (forall x, x ∈ x_del t -> x <> 0%N) ->
    (forall z, z ∈ (x_redir t).*2 -> z = 0%N \/ U z) -> (forall z, z ∈ (x_redir_all t).*2 -> z = 0%N \/ U z) ->
    (forall i f, (i, f) ∈ x_mut t -> mut_ok E False f) ->
    (forall i f, (i, f) ∈ x_upd t -> upd_ok E False f) ->
    (forall i f n n', (i, f) ∈ x_mut t -> f n = Done n' tt -> node_tk U n -> node_tk U n') ->
    (forall i f n n', (i, f) ∈ x_upd t -> f n = Ok n' -> node_tk U n -> node_tk U n') ->
    ok_map m -> ok_map (x_new t) -> map_tk U m -> map_tk U (x_new t) ->
    sp_commit t m m' -> map_tk (fun y => is_Some (m' !! y)) m'.
  Proof.
    intros U Hz0 Hz1 Hz2 Ht0 Ht1 Hm1 Hu1 Hm2 Hu2 Hok Hokn Htk Htkn Hc.
    pose proof (sp_commit_dom _ _ _ Hc) as Hdom.
    destruct Hc as (m1&m2&m3&m4&H1&H2&H3&H4&H5).
    pose proof (sp_redirect_tk U _ _ _ Hz0 Ht0 Hok Htk H1) as Htk1.
    pose proof (sp_redirect_ok _ _ _ Hok H1) as Hok1.
    apply (sp_mutates_tk U) in H2 as [Htk2 Hok2]; [|done|done|by apply union_ok|].
    2:{ intros i n Hi. apply lookup_union_Some_raw in Hi as [Hi|[_ Hi]]; eauto. }
    apply (sp_updates_tk U) in H3 as [Htk3 Hok3]; [|done..].
    pose proof (sp_redirect_tk U _ _ _ Hz1 Ht1 Hok3 Htk3 H4) as Htk4.
    pose proof (sp_redirect_ok _ _ _ Hok3 H4) as Hok4.
    intros i n'. rewrite (sp_removes_closed _ _ _ H5). case_decide as Hin; [done|].
    destruct (m4 !! i) as [n|] eqn:Hi; cbn; [|done]. intros [= <-].
    pose proof (Hok4 i n Hi) as Hokn4. destruct (Htk4 i n Hi) as [Hl H0]. split.
    - intros y [l Hy]. apply has_link_redirects0 in Hy as [Hy Hnx]; [|done|done].
      apply Hdom. split; [|done]. apply Hl. by exists l.
    - intros f k l Hf. destruct (node_clear_spec (x_del t) n Hz2 Hokn4) as (_&_&HF).
      destruct (Forall2_lookup_r _ _ _ _ _ HF Hf) as (lv&Hlv&Hcl). destruct lv as [|k' l'|]; try done.
      destruct Hcl as (_&_&Hcl). rewrite Hcl. intros [H0' _]. by apply (H0 f k' l' Hlv).
  Qed.
End spec.
