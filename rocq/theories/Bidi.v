(** * Maintenance of bidirectional links *)
From Verif Require Export CommitProofs.

Definition linkkind (E : env) (l : link) : option lkind :=
  e_kinds E !! l_var l ≫= (fun ks => ks !! l_fld l).
Definition lsrc (l : link) : source := Src (l_var l) (l_fld l) None.

Section node.
  Context {D : Type} (E : env).
  Implicit Types (n : node D).

  Lemma node_ok_linkkind n f lv :
    node_ok E n -> nlinks n !! f = Some lv -> linkkind E (Link (nvar n) f) = Some (kind_of lv).
  Proof.
    intros Hok Hl. destruct (node_ok_lookup _ _ _ _ Hok Hl) as (ks&Hk&Hf&_).
    unfold linkkind. cbn. by rewrite Hk.
  Qed.
  Lemma node_ok_None n f : node_ok E n -> nlinks n !! f = None -> linkkind E (Link (nvar n) f) = None.
  Proof.
    intros (ks&Hk&HF) Hl. unfold linkkind. cbn. rewrite Hk. cbn.
    apply lookup_ge_None in Hl. apply lookup_ge_None. apply Forall2_length in HF. lia.
  Qed.
  Lemma node_ok_set_field n f lv lv' :
    node_ok E n -> nlinks n !! f = Some lv -> linkval_ok (kind_of lv) lv' -> node_ok E (set_field n f lv').
  Proof.
    intros (ks&Hk&HF) Hl Hv. exists ks. split; [done|]. cbn.
    rewrite <- (list_insert_id ks f (kind_of lv)).
    - by apply Forall2_insert.
    - destruct (Forall2_lookup_r _ _ _ _ _ HF Hl) as (k&Hk'&[<- _]). done.
  Qed.

  Lemma src_val_set_field n f lv lv' s z :
    nlinks n !! f = Some lv ->
    src_val (set_field n f lv') s z <->
      if decide (s_fld s = f) then
        nvar n = s_var s /\ match lv', s_pos s with
        | LDirect i, None => i = z /\ z <> 0%N
        | LSet _ l, None => z ∈ l
        | LVec l, Some p => l !! p = Some z /\ z <> 0%N
        | _, _ => False
        end
      else src_val n s z.
  Proof.
    intros Hl. unfold src_val. cbn. case_decide as Hf.
    - subst f. rewrite list_lookup_insert; [done|]. by eapply lookup_lt_Some.
    - by rewrite list_lookup_insert_ne.
  Qed.
  Lemma src_eq_fld s l : s_var s = l_var l -> s_fld s = l_fld l -> s_pos s = None -> s = lsrc l.
  Proof. destruct s; cbn. by intros -> -> ->. Qed.

  (** the frame of a link-field update *)
  Definition only_field n n' (f : nat) : Prop :=
    nvar n' = nvar n /\ ndata n' = ndata n /\ forall f', f' <> f -> nlinks n' !! f' = nlinks n !! f'.
  Lemma only_field_refl n f : only_field n n f.
  Proof. by split. Qed.
  Lemma only_field_set n f lv : only_field n (set_field n f lv) f.
  Proof. split; [done|]. split; [done|]. intros f' Hf. cbn. by rewrite list_lookup_insert_ne. Qed.

  Lemma remove_link_spec n lk x :
    node_ok E n -> nvar n = l_var lk -> x <> 0%N ->
    match remove_link n lk x with
    | Ok (n', b) => node_ok E n' /\ only_field n n' (l_fld lk) /\
        (forall s z, src_val n' s z <-> src_val n s z /\ ~ (s = lsrc lk /\ z = x)) /\
        (b = true <-> src_val n (lsrc lk) x) /\ (b = false -> n' = n) /\
        (exists k, linkkind E lk = Some k /\ k <> KVec)
    | Err p => (p = PVecRemove /\ linkkind E lk = Some KVec) \/ (p = PIllTyped /\ linkkind E lk = None)
    end.
  Proof.
    intros Hok Hv Hx. unfold remove_link. rewrite decide_True by done.
    destruct lk as [v f]; cbn in *. subst v.
    destruct (nlinks n !! f) as [[i|k l|l]|] eqn:Hl.
    - pose proof (node_ok_linkkind _ _ _ Hok Hl) as Hk.
      assert (src_val n (lsrc (Link (nvar n) f)) x <-> i = x) as Hsv.
      { unfold src_val. cbn. rewrite Hl. naive_solver. }
      destruct (N.eqb_spec i 0) as [->|Hi]; [|destruct (N.eqb_spec i x) as [->|Hix]].
      + split; [done|]. split; [apply only_field_refl|]. split; [|naive_solver].
        intros s z. split; [|naive_solver]. intros Hs. split; [done|]. intros [-> ->].
        apply Hsv in Hs. congruence.
      + split; [by eapply node_ok_set_field; [| |split]|]. split; [apply only_field_set|]. split; [|naive_solver].
        intros s z. rewrite (src_val_set_field n f _ _ s z Hl). case_decide as Hf.
        * destruct (s_pos s) as [p|] eqn:Hp.
          -- split; [naive_solver|]. intros [[_ HH] _]. by rewrite Hf, Hl, Hp in HH.
          -- split; [naive_solver|]. intros [[Hv HH] Hn]. rewrite Hf, Hl, Hp in HH. destruct HH as [-> _].
             destruct Hn. split; [|done]. by apply src_eq_fld.
        * split; [|naive_solver]. intros Hs. split; [done|]. by intros [-> _].
      + split; [done|]. split; [apply only_field_refl|]. split; [|naive_solver].
        intros s z. split; [|naive_solver]. intros Hs. split; [done|]. intros [-> ->].
        apply Hsv in Hs. congruence.
    - pose proof (node_ok_linkkind _ _ _ Hok Hl) as Hk.
      pose proof (node_ok_set _ _ _ _ _ Hok Hl) as Hnd.
      assert (src_val n (lsrc (Link (nvar n) f)) x <-> x ∈ l) as Hsv.
      { unfold src_val. cbn. rewrite Hl. naive_solver. }
      split; [eapply node_ok_set_field; [done|done|split; [done|by eapply set_remove_rep, node_ok_rep]]|].
      split; [apply only_field_set|]. split; [|split; [|split]].
      + intros s z. rewrite (src_val_set_field n f _ _ s z Hl). case_decide as Hf.
        * destruct (s_pos s) as [p|] eqn:Hp.
          -- split; [naive_solver|]. intros [[_ HH] _]. by rewrite Hf, Hl, Hp in HH.
          -- rewrite set_remove_elem by done. unfold src_val. rewrite Hf, Hl, Hp. split.
             ++ intros (Hv&Hz&Hin). split; [done|]. naive_solver.
             ++ intros [[Hv Hin] Hn]. split; [done|]. split; [|done]. intros ->. destruct Hn.
                split; [|done]. by apply src_eq_fld.
        * split; [|naive_solver]. intros Hs. split; [done|]. by intros [-> _].
      + rewrite bool_decide_eq_true. by rewrite Hsv.
      + rewrite bool_decide_eq_false. intros Hn. rewrite set_remove_notin by done.
        unfold set_field. rewrite list_insert_id by done. by destruct n.
      + eauto.
    - left. split; [done|]. by apply (node_ok_linkkind _ _ _ Hok Hl).
    - right. split; [done|]. by apply node_ok_None.
  Qed.

  Lemma add_link_spec n lk x :
    node_ok E n -> nvar n = l_var lk -> x <> 0%N ->
    match add_link n lk x with
    | Ok (n', b) => node_ok E n' /\ only_field n n' (l_fld lk) /\
        (forall s z, src_val n' s z <-> src_val n s z \/ (s = lsrc lk /\ z = x)) /\
        (b = false <-> src_val n (lsrc lk) x) /\ (b = false -> n' = n) /\
        (exists k, linkkind E lk = Some k /\ k <> KVec)
    | Err p => (p = PVecAdd /\ linkkind E lk = Some KVec) \/ (p = PIllTyped /\ linkkind E lk = None) \/
        (p = PAddOccupied /\ linkkind E lk = Some KDirect /\ exists z, z <> x /\ src_val n (lsrc lk) z)
    end.
  Proof.
    intros Hok Hv Hx. unfold add_link. rewrite decide_True by done.
    destruct lk as [v f]; cbn in *. subst v.
    destruct (nlinks n !! f) as [[i|k l|l]|] eqn:Hl.
    - pose proof (node_ok_linkkind _ _ _ Hok Hl) as Hk.
      assert (forall z, src_val n (lsrc (Link (nvar n) f)) z <-> i = z /\ z <> 0%N) as Hsv.
      { intros z. unfold src_val. cbn. rewrite Hl. naive_solver. }
      destruct (N.eqb_spec i 0) as [->|Hi]; [|destruct (N.eqb_spec i x) as [->|Hix]].
      + destruct (N.eqb_spec 0 x) as [<-|_]; [done|]. cbn.
        split; [by eapply node_ok_set_field; [| |split]|]. split; [apply only_field_set|]. split; [|split; [|split]].
        * intros s z. rewrite (src_val_set_field n f _ _ s z Hl). case_decide as Hf.
          -- destruct (s_pos s) as [p|] eqn:Hp.
             ++ split; [naive_solver|]. intros [[_ HH]|[-> _]]; [|done]. by rewrite Hf, Hl, Hp in HH.
             ++ split.
                ** intros (Hv&<-&_). right. split; [|done]. by apply src_eq_fld.
                ** intros [[Hv HH]|[-> ->]]; [|done]. rewrite Hf, Hl, Hp in HH. naive_solver.
          -- split; [auto|]. intros [?|[-> _]]; done.
        * rewrite Hsv. naive_solver.
        * done.
        * eauto.
      + split; [done|]. split; [apply only_field_refl|]. split; [|split; [|split]].
        * intros s z. split; [auto|]. intros [?|[-> ->]]; [done|]. by apply Hsv.
        * rewrite Hsv. naive_solver.
        * done.
        * eauto.
      + right. right. split; [done|]. split; [done|]. exists i. split; [done|]. by apply Hsv.
    - pose proof (node_ok_linkkind _ _ _ Hok Hl) as Hk.
      pose proof (node_ok_set _ _ _ _ _ Hok Hl) as Hnd.
      assert (src_val n (lsrc (Link (nvar n) f)) x <-> x ∈ l) as Hsv.
      { unfold src_val. cbn. rewrite Hl. naive_solver. }
      split; [eapply node_ok_set_field; [done|done|split; [done|by eapply set_insert_rep, node_ok_rep]]|].
      split; [apply only_field_set|]. split; [|split; [|split]].
      + intros s z. rewrite (src_val_set_field n f _ _ s z Hl). case_decide as Hf.
        * destruct (s_pos s) as [p|] eqn:Hp.
          -- split; [naive_solver|]. intros [[_ HH]|[-> _]]; [|done]. by rewrite Hf, Hl, Hp in HH.
          -- rewrite set_insert_elem. unfold src_val. rewrite Hf, Hl, Hp. split.
             ++ intros (Hv&[->|Hz]); [|auto]. right. split; [|done]. by apply src_eq_fld.
             ++ intros [?|[-> ->]]; naive_solver.
        * split; [auto|]. intros [?|[-> _]]; done.
      + rewrite negb_false_iff, bool_decide_eq_true. by rewrite Hsv.
      + rewrite negb_false_iff, bool_decide_eq_true. intros Hn.
        unfold set_insert. rewrite decide_True by done. unfold set_field.
        rewrite list_insert_id by done. by destruct n.
      + eauto.
    - left. split; [done|]. by apply (node_ok_linkkind _ _ _ Hok Hl).
    - right. left. split; [done|]. by apply node_ok_None.
  Qed.

  Lemma contains_link_iff n lk x :
    node_ok E n -> x <> 0%N -> contains_link n lk x = true <-> has_link n lk x.
  Proof.
    intros Hok Hx. unfold contains_link, has_link. case_decide as Hv; [|naive_solver].
    destruct (nlinks n !! l_fld lk) as [lv|]; [|naive_solver].
    transitivity (x ∈ lv_elems lv); [|naive_solver].
    destruct lv as [i|k l|l]; cbn.
    - rewrite andb_true_iff, negb_true_iff, N.eqb_neq, N.eqb_eq, elem_of_list_singleton. naive_solver.
    - by rewrite bool_decide_eq_true.
    - by rewrite bool_decide_eq_true.
  Qed.
  Lemma has_link_lsrc n lk x :
    node_ok E n -> nonvec E lk -> x <> 0%N -> has_link n lk x <-> src_val n (lsrc lk) x.
  Proof.
    intros Hok Hnv Hx. split.
    - intros H. apply has_link_src_val in H as (s&<-&Hs).
      apply (src_nonvec E n s x Hok Hs) in Hnv. destruct s; cbn in *. by subst.
    - intros Hs. apply src_val_has_link in Hs; [|done]. by destruct lk.
  Qed.
End node.

Section graph.
  Context {D : Type} (E : env).
  Implicit Types (g : graph D) (n : node D) (x y : idx) (s : source).

  (** Frame of the maintenance: same nodes, same variants and data, and only the
      link fields in [F] may differ. *)
  Record bframe (F : idx -> link -> Prop) g g' : Prop := {
    bfr_ctx : g_ctx g' = g_ctx g;
    bfr_disp : forall j, arena_dispatch (g_nodes g') j = arena_dispatch (g_nodes g) j;
    bfr_none : forall i, graph_get g i = None -> graph_get g' i = None;
    bfr_some : forall i n, graph_get g i = Some n -> exists n', graph_get g' i = Some n' /\
      nvar n' = nvar n /\ ndata n' = ndata n /\
      forall f, ~ F i (Link (nvar n) f) -> nlinks n' !! f = nlinks n !! f;
    (** a set keeps the empty index, or keeps being without it *)
    bfr_zero : forall i n n', graph_get g i = Some n -> graph_get g' i = Some n' ->
      forall s, src_val n' s 0%N <-> src_val n s 0%N }.

  Lemma bframe_refl F g : bframe F g g.
  Proof. split; try done. - intros i n Hi. by exists n. - intros i n n' Hn Hn'. by assert (n' = n) as -> by congruence. Qed.
  Lemma bframe_trans F g1 g2 g3 : bframe F g1 g2 -> bframe F g2 g3 -> bframe F g1 g3.
  Proof.
    intros H1 H2. split.
    - rewrite (bfr_ctx _ _ _ H2). apply H1.
    - intros j. rewrite (bfr_disp _ _ _ H2). apply H1.
    - intros i Hi. by apply H2, H1.
    - intros i n Hi. destruct (bfr_some _ _ _ H1 i n Hi) as (n2&Hn2&Hv2&Hd2&Hf2).
      destruct (bfr_some _ _ _ H2 i n2 Hn2) as (n3&Hn3&Hv3&Hd3&Hf3).
      exists n3. split; [done|]. split; [congruence|]. split; [congruence|].
      intros f Hf. rewrite Hf3 by by rewrite Hv2. by apply Hf2.
    - intros i n n3 Hn Hn3 s. destruct (bfr_some _ _ _ H1 i n Hn) as (n2&Hn2&_).
      rewrite (bfr_zero _ _ _ H2 i n2 n3 Hn2 Hn3). by apply (bfr_zero _ _ _ H1 i).
  Qed.
  Lemma bframe_mono (F F' : idx -> link -> Prop) g g' :
    (forall i l, F i l -> F' i l) -> bframe F g g' -> bframe F' g g'.
  Proof.
    intros HF [? ? ? Hs ?]. split; try done. intros i n Hi. destruct (Hs i n Hi) as (n'&?&?&?&Hf).
    exists n'. split; [done|]. split; [done|]. split; [done|]. intros f Hn. apply Hf. auto.
  Qed.
  Lemma bframe_present F g g' i : bframe F g g' -> is_Some (graph_get g' i) <-> is_Some (graph_get g i).
  Proof.
    intros H. split.
    - intros [n Hn]. destruct (graph_get g i) eqn:Hi; [eauto|].
      apply (bfr_none _ _ _ H) in Hi. congruence.
    - intros [n Hn]. destruct (bfr_some _ _ _ H i n Hn) as (n'&?&_). eauto.
  Qed.
  Lemma bframe_nvar F g g' i n n' :
    bframe F g g' -> graph_get g i = Some n -> graph_get g' i = Some n' -> nvar n' = nvar n.
  Proof. intros H Hi Hi'. destruct (bfr_some _ _ _ H i n Hi) as (n2&?&?&_). congruence. Qed.

  (** replacing one node, together with a matching change of the reverse index *)
  Lemma set_node_bframe g y n n' f :
    graph_get g y = Some n -> only_field n n' f -> (forall s, src_val n' s 0%N <-> src_val n s 0%N) ->
    bframe (fun i l => i = y /\ l = Link (nvar n) f) g (with_nodes g (arena_set (g_nodes g) y n')).
  Proof.
    intros Hg (Hv&Hd&Hf) Hz.
    assert (forall i, graph_get (with_nodes g (arena_set (g_nodes g) y n')) i =
      if decide (i = y) then Some n' else graph_get g i) as Hget.
    { intros i. unfold graph_get. cbn. by eapply arena_set_get. }
    split; [done|..].
    - intros j. cbn. apply arena_set_dispatch.
    - intros i Hi. rewrite Hget. case_decide; [congruence|done].
    - intros i ni Hi. rewrite Hget. case_decide as Hiy.
      + subst i. assert (ni = n) as -> by congruence. exists n'. split; [done|]. split; [done|]. split; [done|].
        intros f' Hn. apply Hf. intros ->. by apply Hn.
      + by exists ni.
    - intros i ni ni' Hi. rewrite Hget. case_decide as Hiy.
      + subst i. assert (ni = n) as -> by congruence. by intros [= <-].
      + intros Hi'. by assert (ni' = ni) as -> by congruence.
  Qed.

  Lemma WF_node_update g g' y n n' :
    WF E g -> graph_get g y = Some n -> node_ok E n' ->
    (forall i, graph_get g' i = if decide (i = y) then Some n' else graph_get g i) ->
    arena_ok E (g_nodes g') -> back_nd g' ->
    (forall z, hasback g z -> hasback g' z) ->
    (forall z i s, i <> y -> inback g' z (i, s) <-> inback g z (i, s)) ->
    (forall z s, src_val n' s z -> inback g' z (y, s)) ->
    (forall z s, z <> 0%N -> inback g' z (y, s) -> src_val n' s z) ->
    WF E g'.
  Proof.
    intros Hwf Hg Hok Hget Haok Hnd Hhas Hother Hin Hout. split; try done.
    - intros i ni. rewrite Hget. case_decide; [by intros [= <-]|apply Hwf].
    - rewrite Hget. case_decide as Hy; [|apply Hwf]. subst y. by rewrite (wf_zero _ _ Hwf) in Hg.
    - intros i ni Hi. rewrite Hget in Hi. apply Hhas. case_decide as Hiy.
      + subst. by apply (wf_b1 _ _ Hwf y n).
      + by apply (wf_b1 _ _ Hwf i ni).
    - intros i ni s z Hi Hs. rewrite Hget in Hi. case_decide as Hiy.
      + subst i. injection Hi as <-. by apply Hin.
      + apply Hother; [done|]. by eapply (wf_b2 _ _ Hwf).
    - intros z i s Hz Hi. rewrite Hget. case_decide as Hiy.
      + subst i. exists n'. split; [done|]. by apply Hout.
      + apply Hother in Hi; [|done]. by apply (wf_b3 _ _ Hwf z).
  Qed.

  Lemma glink_present g x y l : glink g x y l -> is_Some (graph_get g x).
  Proof. intros (n&->&_). eauto. Qed.
  Lemma glink_var g x y l n : glink g x y l -> graph_get g x = Some n -> nvar n = l_var l.
  Proof. intros (n'&?&Hl) ?. assert (n' = n) as -> by congruence. apply Hl. Qed.
  Lemma glink_nz g x y l : glink g x y l -> y <> 0%N.
  Proof. intros (n'&?&Hl). apply Hl. Qed.

  (** links of the updated node *)
  Lemma has_link_of_src n' (P : source -> idx -> Prop) :
    (forall s z, src_val n' s z <-> P s z) ->
    forall l z, has_link n' l z <-> z <> 0%N /\ exists s, src_link s = l /\ P s z.
  Proof. intros HP l z. rewrite has_link_iff. by setoid_rewrite HP. Qed.

  Definition badkind (l : link) : Prop := linkkind E l = Some KVec \/ linkkind E l = None.

  (** remove [x] from link [lk] of node [y], typed_graph.rs:656-661 *)
  Lemma bidi_rm_wp g r y x lk ny :
    WF E g -> graph_get g y = Some ny -> is_Some (graph_get g x) -> l_var lk = nvar ny ->
    wp (do! ny' <- node_unwrap y;
        do! (ny'', b) <- liftM (remove_link ny' lk x);
        run! (fun '(g', r') => Done (with_nodes g' (arena_set (g_nodes g') y ny''), r') tt);
        if b : bool then do! s <- liftM (to_source E lk); remove_back_link y x s
        else retM tt) (g, r)
      (fun _ '(g', r') => r' = r /\ WF E g' /\ bframe (fun i l => i = y /\ l = lk) g g' /\
         forall a b k, glink g' a b k <-> glink g a b k /\ ~ (a = y /\ b = x /\ k = lk))
      (fun p st => badkind lk /\ st = (g, r)).
  Proof.
    intros Hwf Hgy [nx Hgx] Hv.
    assert (x <> 0%N) as Hx0 by (intros ->; by rewrite (wf_zero _ _ Hwf) in Hgx).
    pose proof (wf_nodes _ _ Hwf _ _ Hgy) as Hok.
    apply wp_bind. unfold wp at 1, node_unwrap. rewrite Hgy. apply wp_bind.
    pose proof (remove_link_spec E ny lk x Hok (eq_sym Hv) Hx0) as Hspec.
    destruct (remove_link ny lk x) as [[n' b]|p]; cbn [liftM].
    2:{ apply wp_panic. split; [|done]. unfold badkind. naive_solver. }
    destruct Hspec as (Hok'&Honly&Hsrc&Hb&Hbf&k0&Hk0&Hk0v).
    apply wp_ret. apply wp_bind. unfold wp at 1.
    set (g1 := with_nodes g (arena_set (g_nodes g) y n')).
    assert (forall i, graph_get g1 i = if decide (i = y) then Some n' else graph_get g i) as Hget1.
    { intros i. unfold graph_get. cbn. by eapply arena_set_get. }
    assert (bframe (fun i l => i = y /\ l = lk) g g1) as Hfr.
    { eapply bframe_mono; [|eapply set_node_bframe; [done..|]].
      2:{ intros s. rewrite Hsrc. naive_solver. }
      cbn. intros i l [-> ->]. split; [done|].
      rewrite <- Hv. by destruct lk. }
    assert (nonvec E lk) as Hnv by (unfold nonvec; fold (linkkind E lk); congruence).
    assert (forall a b k, glink g1 a b k <-> glink g a b k /\ ~ (a = y /\ b = x /\ k = lk)) as HK.
    { intros a b' k. unfold glink. rewrite Hget1. case_decide as Ha.
      - subst a. rewrite Hgy. transitivity (has_link n' k b'); [clear; naive_solver|].
        transitivity (has_link ny k b' /\ ~ (b' = x /\ k = lk)); [|clear; naive_solver].
        rewrite (has_link_of_src _ _ Hsrc), has_link_iff. split.
        + intros (Hz&s&Hl&Hs&Hn). split; [by eauto|]. intros [-> ->]. apply Hn. split; [|done].
          apply src_eq_fld; [by rewrite <- Hl..|]. apply (src_nonvec E ny s x Hok Hs). by rewrite Hl.
        + intros [(Hz&s&Hl&Hs) Hn]. split; [done|]. exists s. split; [done|]. split; [done|].
          intros [-> ->]. apply Hn. split; [done|]. rewrite <- Hl. by destruct lk.
      - clear -Ha. naive_solver. }
    assert (arena_ok E (g_nodes g1)) as Haok1 by by apply arena_set_ok, Hwf.
    destruct b.
    - apply wp_bind. assert (to_source E lk = Ok (lsrc lk)) as ->.
      { unfold to_source. fold (linkkind E lk). rewrite Hk0. by destruct k0. }
      cbn [liftM]. apply wp_ret. eapply wp_mono; [apply back_remove_wp; apply Hwf|..]; cbn beta.
      2:{ intros p ? Hn. exfalso. apply Hn. change (hasback g x). by apply (wf_b1 _ _ Hwf x nx). }
      intros _ [g2 r2] (->&_&HBR). split; [done|].
      assert (forall i, graph_get g2 i = graph_get g1 i) as Hsame.
      { intros i. unfold graph_get. by rewrite (br_nodes _ _ _ _ HBR). }
      split; [|split].
      + eapply (WF_node_update g g2 y ny n'); try done.
        * intros i. by rewrite Hsame.
        * by rewrite (br_nodes _ _ _ _ HBR).
        * apply HBR.
        * intros z Hz. by apply (br_has _ _ _ _ HBR).
        * intros z i s Hi. rewrite (br_in _ _ _ _ HBR). change (inback g1) with (inback g).
          split; [naive_solver|]. intros ?. split; [done|]. by intros [_ [= ? _]].
        * intros z s Hs. apply (br_in _ _ _ _ HBR). apply Hsrc in Hs as [Hs Hn].
          split; [by eapply (wf_b2 _ _ Hwf)|]. intros [-> [= ->]]. by apply Hn.
        * intros z s Hz Hi. apply (br_in _ _ _ _ HBR) in Hi as [Hi Hn].
          apply (wf_b3 _ _ Hwf) in Hi as (n0&Hn0&Hs); [|done]. assert (n0 = ny) as -> by congruence.
          apply Hsrc. split; [done|]. intros [-> ->]. by apply Hn.
      + split.
        * rewrite (br_ctx _ _ _ _ HBR). apply Hfr.
        * intros j. rewrite (br_nodes _ _ _ _ HBR). apply Hfr.
        * intros i Hi. rewrite Hsame. by apply Hfr.
        * intros i n Hi. rewrite Hsame. by apply Hfr.
        * intros i n n2 Hn. rewrite Hsame. by apply Hfr.
      + intros a b k. rewrite <- HK. unfold glink. by rewrite Hsame.
    - apply wp_ret. split; [done|]. split; [|done].
      specialize (Hbf eq_refl). subst n'.
      eapply (WF_node_update g g1 y ny ny); try done; try apply Hwf.
      + intros z s Hs. by eapply (wf_b2 _ _ Hwf).
      + intros z s Hz Hi. apply (wf_b3 _ _ Hwf) in Hi as (n0&Hn0&Hs); [|done]. congruence.
  Qed.

  Lemma elem_match_bd n ls k : k ∈ match_bd n ls <-> k ∈ ls /\ l_var k = nvar n.
  Proof. unfold match_bd. rewrite elem_of_list_filter. naive_solver. Qed.

  Lemma match_bd_nvar n n' ls : nvar n = nvar n' -> match_bd n ls = match_bd n' ls.
  Proof. unfold match_bd. by intros ->. Qed.

  (** one removed link *)
  Lemma bidi_remove1_wp g r x y l :
    WF E g ->
    wp (bidi_remove1 E (x, y, l)) (g, r)
      (fun _ '(g', r') => r' = r /\ WF E g' /\
         bframe (fun i k => i = y /\ k ∈ e_opp E l) g g' /\
         forall a b k, glink g' a b k <->
           glink g a b k /\ ~ (a = y /\ b = x /\ k ∈ e_opp E l /\ is_Some (graph_get g x)))
      (fun p '(g', r') => (exists k, k ∈ e_opp E l /\ badkind k) /\ WF E g' /\
         bframe (fun i k => i = y /\ k ∈ e_opp E l) g g').
  Proof.
    intros Hwf. unfold bidi_remove1. unfold wp at 1.
    destruct (negb (arena_contains (g_nodes g) x) || negb (arena_contains (g_nodes g) y)) eqn:Hc.
    { split; [done|]. split; [done|]. split; [apply bframe_refl|]. intros a b k.
      split; [|naive_solver]. intros HK. split; [done|]. intros (->&->&_&Hx).
      apply orb_true_iff in Hc. rewrite !negb_true_iff, !arena_contains_false in Hc.
      destruct Hc as [Hn|Hn].
      - unfold graph_get in Hx. rewrite Hn in Hx. by destruct Hx.
      - apply glink_present in HK. unfold graph_get in HK. rewrite Hn in HK. by destruct HK. }
    apply orb_false_iff in Hc as [Hcx Hcy]. apply negb_false_iff, arena_contains_get in Hcx as [nx Hgx], Hcy as [ny Hgy].
    change (graph_get g x = Some nx) in Hgx. change (graph_get g y = Some ny) in Hgy.
    match goal with |- match ?m (g, r) with _ => _ end =>
      change (wp m (g, r) (fun _ '(g', r') => r' = r /\ WF E g' /\
         bframe (fun i k => i = y /\ k ∈ e_opp E l) g g' /\
         forall a b k, glink g' a b k <->
           glink g a b k /\ ~ (a = y /\ b = x /\ k ∈ e_opp E l /\ is_Some (graph_get g x)))
      (fun p '(g', r') => (exists k, k ∈ e_opp E l /\ badkind k) /\ WF E g' /\
         bframe (fun i k => i = y /\ k ∈ e_opp E l) g g')) end.
    apply wp_bind. unfold wp at 1, node_unwrap. rewrite Hgx.
    apply wp_bind. unfold wp at 1. rewrite Hgy.
    eapply wp_mono; [apply (wp_mfor _ _ (fun P '(g', r') =>
      r' = r /\ WF E g' /\ bframe (fun i k => i = y /\ k ∈ e_opp E l) g g' /\
      forall a b k, glink g' a b k <-> glink g a b k /\ ~ (a = y /\ b = x /\ k ∈ P))
      (fun _ '(g', r') => (exists k, k ∈ e_opp E l /\ badkind k) /\ WF E g' /\
         bframe (fun i k => i = y /\ k ∈ e_opp E l) g g'))|..]; cbn beta.
    - split; [done|]. split; [done|]. split; [apply bframe_refl|]. intros a b k.
      rewrite elem_of_nil. naive_solver.
    - intros P lk post [g1 r1] Heq (->&Hwf1&Hfr1&HK1).
      assert (lk ∈ match_bd ny (e_opp E l)) as Hin by (rewrite Heq, elem_of_app, elem_of_cons; auto).
      apply elem_match_bd in Hin as [Hopp Hlv].
      destruct (bfr_some _ _ _ Hfr1 y ny Hgy) as (ny1&Hgy1&Hvy1&_).
      eapply wp_mono; [apply (bidi_rm_wp g1 r y x lk ny1); try done|..]; cbn beta.
      + apply (bframe_present _ _ _ _ Hfr1). eauto.
      + congruence.
      + intros _ [g2 r2] (->&Hwf2&Hfr2&HK2). split; [done|]. split; [done|]. split.
        * eapply bframe_trans; [done|]. eapply bframe_mono; [|done]. cbn. intros i k [-> ->]. done.
        * intros a b k. rewrite HK2, HK1, elem_of_app, elem_of_list_singleton. clear. naive_solver.
      + intros p [g2 r2] [Hbad [= -> ->]]. split; [by eauto|]. done.
    - intros _ [g1 r1] (->&Hwf1&Hfr1&HK1). split; [done|]. split; [done|]. split; [done|].
      intros a b k. rewrite HK1. split; (intros [HKa Hn]; split; [done|]).
      + intros (->&->&Hk&_). apply Hn. split; [done|]. split; [done|]. apply elem_match_bd. split; [done|].
        symmetry. by eapply glink_var.
      + intros (->&->&Hk). apply Hn. apply elem_match_bd in Hk as [Hk _]. eauto.
    - intros p ? HH. exact HH.
  Qed.

  Lemma bidi_removes_wp L g r :
    WF E g ->
    wp (mfor L (bidi_remove1 E)) (g, r)
      (fun _ '(g', r') => r' = r /\ WF E g' /\
         bframe (fun i k => exists x l, (x, i, l) ∈ L /\ k ∈ e_opp E l) g g' /\
         forall a b k, glink g' a b k <->
           glink g a b k /\ ~ (exists l, (b, a, l) ∈ L /\ k ∈ e_opp E l /\ is_Some (graph_get g b)))
      (fun p '(g', r') => (exists x y l k, (x, y, l) ∈ L /\ k ∈ e_opp E l /\ badkind k) /\ WF E g' /\
         bframe (fun i k => exists x l, (x, i, l) ∈ L /\ k ∈ e_opp E l) g g').
  Proof.
    intros Hwf. apply (wp_mfor L _ (fun P '(g', r') => r' = r /\ WF E g' /\
         bframe (fun i k => exists x l, (x, i, l) ∈ L /\ k ∈ e_opp E l) g g' /\
         forall a b k, glink g' a b k <->
           glink g a b k /\ ~ (exists l, (b, a, l) ∈ P /\ k ∈ e_opp E l /\ is_Some (graph_get g b)))).
    - split; [done|]. split; [done|]. split; [apply bframe_refl|]. intros a b k.
      setoid_rewrite elem_of_nil. naive_solver.
    - intros P [[x y] l] post [g1 r1] Heq (->&Hwf1&Hfr1&HK1).
      assert ((x, y, l) ∈ L) as Hin by (rewrite Heq, elem_of_app, elem_of_cons; auto).
      eapply wp_mono; [by apply bidi_remove1_wp|..]; cbn beta.
      + intros _ [g2 r2] (->&Hwf2&Hfr2&HK2). split; [done|]. split; [done|]. split.
        * eapply bframe_trans; [done|]. eapply bframe_mono; [|done]. cbn. intros i k [-> Hk]. eauto.
        * intros a b k. rewrite HK2, HK1, (bframe_present _ _ _ x Hfr1).
          setoid_rewrite elem_of_app. setoid_rewrite elem_of_list_singleton. split.
          -- intros [[HK Hn1] Hn2]. split; [done|].
             intros (l'&[?|[= -> -> ->]]&Hk&Hp); [apply Hn1; eauto|by apply Hn2].
          -- intros [HK Hn]. split; [split; [done|]|].
             ++ intros (l'&?&?&?). apply Hn. eauto.
             ++ intros (->&->&?&?). apply Hn. eauto.
      + intros p [g2 r2] ((k&?&?)&Hwf2&Hfr2). split; [by exists x, y, l, k|]. split; [done|].
        eapply bframe_trans; [done|]. eapply bframe_mono; [|done]. cbn. intros i k' [-> Hk]. eauto.
  Qed.

  (** one added link *)
  Definition bidi_conflict g x y l (p : panic) : Prop :=
    is_Some (graph_get g x) /\ exists ny, graph_get g y = Some ny /\
      ((p = PMultiChoice /\ 2 <= length (match_bd ny (e_opp E l)) /\
        forall k, k ∈ match_bd ny (e_opp E l) -> ~ has_link ny k x) \/
       (exists k, match_bd ny (e_opp E l) = [k] /\
         (badkind k \/ (p = PAddOccupied /\ linkkind E k = Some KDirect /\ exists z, z <> x /\ has_link ny k z)))).

  Lemma bidi_add1_wp g r x y l :
    WF E g ->
    wp (bidi_add1 E (x, y, l)) (g, r)
      (fun _ '(g', r') => r' = r /\ WF E g' /\
         bframe (fun i k => i = y /\ k ∈ e_opp E l) g g' /\
         (forall a b k, glink g' a b k <-> glink g a b k \/
           (a = y /\ b = x /\ is_Some (graph_get g x) /\
             exists ny, graph_get g y = Some ny /\ match_bd ny (e_opp E l) = [k])) /\
         (is_Some (graph_get g x) -> forall ny, graph_get g y = Some ny ->
            match_bd ny (e_opp E l) <> [] -> exists k, k ∈ match_bd ny (e_opp E l) /\ glink g' y x k))
      (fun p st => bidi_conflict g x y l p /\ st = (g, r)).
  Proof.
    intros Hwf. unfold bidi_add1. unfold wp at 1.
    destruct (negb (arena_contains (g_nodes g) x) || negb (arena_contains (g_nodes g) y)) eqn:Hc.
    { assert (is_Some (graph_get g x) -> is_Some (graph_get g y) -> False) as Hnp.
      { intros [nx Hx] [ny Hy]. apply orb_true_iff in Hc. rewrite !negb_true_iff, !arena_contains_false in Hc.
        unfold graph_get in *. destruct Hc; congruence. }
      split; [done|]. split; [done|]. split; [apply bframe_refl|]. split.
      - intros a b k. split; [auto|]. intros [?|(->&->&Hx&ny&Hy&_)]; [done|]. exfalso. eauto.
      - intros Hx ny Hy. exfalso. eauto. }
    apply orb_false_iff in Hc as [Hcx Hcy]. apply negb_false_iff, arena_contains_get in Hcx as [nx Hgx], Hcy as [ny Hgy].
    change (graph_get g x = Some nx) in Hgx. change (graph_get g y = Some ny) in Hgy.
    assert (x <> 0%N) as Hx0 by (intros ->; by rewrite (wf_zero _ _ Hwf) in Hgx).
    pose proof (wf_nodes _ _ Hwf _ _ Hgy) as Hok.
    set (Q := fun _ : unit => fun '(g', r') => r' = r /\ WF E g' /\
         bframe (fun i k => i = y /\ k ∈ e_opp E l) g g' /\
         (forall a b k, glink g' a b k <-> glink g a b k \/
           (a = y /\ b = x /\ is_Some (graph_get g x) /\
             exists ny, graph_get g y = Some ny /\ match_bd ny (e_opp E l) = [k])) /\
         (is_Some (graph_get g x) -> forall ny, graph_get g y = Some ny ->
            match_bd ny (e_opp E l) <> [] -> exists k, k ∈ match_bd ny (e_opp E l) /\ glink g' y x k)).
    match goal with |- match ?m (g, r) with _ => _ end =>
      change (wp m (g, r) Q (fun p st => bidi_conflict g x y l p /\ st = (g, r))) end.
    apply wp_bind. unfold wp at 1, node_unwrap. rewrite Hgx.
    apply wp_bind. unfold wp at 1. rewrite Hgy. cbv zeta.
    assert (forall k, contains_link ny k x = true <-> has_link ny k x) as Hcont.
    { intros k. by apply (contains_link_iff E). }
    destruct (match_bd ny (e_opp E l)) as [|lk rest] eqn:Hbds.
    { apply wp_ret. split; [done|]. split; [done|]. split; [apply bframe_refl|]. split.
      - intros a b k. split; [auto|]. intros [?|(_&_&_&ny'&?&?)]; [done|]. congruence.
      - intros _ ny' Hny'. congruence. }
    destruct (existsb (fun lk' => contains_link ny lk' x) (lk :: rest)) eqn:Hex.
    { apply existsb_exists in Hex as (k&Hk&Hkx). rewrite Hcont in Hkx. apply elem_of_list_In in Hk.
      apply wp_ret. split; [done|]. split; [done|]. split; [apply bframe_refl|]. split.
      - intros a b k'. split; [auto|]. intros [?|(->&->&_&ny'&Hny'&Hb')]; [done|].
        assert (ny' = ny) as -> by congruence. rewrite Hbds in Hb'. injection Hb' as -> ->.
        apply elem_of_list_singleton in Hk as ->. by exists ny.
      - intros _ ny' Hny' _. assert (ny' = ny) as -> by congruence. exists k. rewrite Hbds. split; [done|].
        by exists ny. }
    assert (forall k, k ∈ lk :: rest -> ~ has_link ny k x) as Hnone.
    { intros k Hk. rewrite <- Hcont. intros Hkx. apply not_true_iff_false in Hex. apply Hex.
      apply existsb_exists. exists k. split; [|done]. by apply elem_of_list_In. }
    destruct (Nat.eqb_spec (length (lk :: rest)) 1) as [Hlen|Hlen].
    2:{ apply wp_panic. split; [|done]. split; [by eauto|]. exists ny. split; [done|]. left. split; [done|]. rewrite Hbds. split; [cbn in *; lia|done]. }
    destruct rest; [|done]. clear Hlen Hex.
    assert (lk ∈ e_opp E l /\ l_var lk = nvar ny) as [Hopp Hv].
    { apply elem_match_bd. rewrite Hbds. left. }
    apply wp_bind. pose proof (add_link_spec E ny lk x Hok (eq_sym Hv) Hx0) as Hspec.
    destruct (add_link ny lk x) as [[n' b]|p]; cbn [liftM].
    2:{ apply wp_panic. split; [|done]. split; [by eauto|]. exists ny. split; [done|]. right. exists lk. split; [done|].
        destruct Hspec as [[_ ?]|[[_ ?]|(->&Hk&z&Hz&Hs)]].
        - left. by left.
        - left. by right.
        - right. split; [done|]. split; [done|]. exists z. split; [done|].
          assert (z <> 0%N).
          { intros ->. unfold src_val in Hs. cbn in Hs. destruct Hs as [_ Hs].
            destruct (nlinks ny !! l_fld lk) as [lv|] eqn:Hl; [|done].
            pose proof (node_ok_linkkind E ny _ _ Hok Hl) as Hkk. rewrite <- Hv in Hkk.
            replace (Link (l_var lk) (l_fld lk)) with lk in Hkk by by destruct lk.
            rewrite Hk in Hkk. destruct lv; cbn in Hkk; [naive_solver|done|done]. }
          apply src_val_has_link in Hs; [|done]. by destruct lk. }
    destruct Hspec as (Hok'&Honly&Hsrc&Hb&Hbf&k0&Hk0&Hk0v).
    apply wp_ret. apply wp_bind. unfold wp at 1.
    set (g1 := with_nodes g (arena_set (g_nodes g) y n')).
    assert (forall i, graph_get g1 i = if decide (i = y) then Some n' else graph_get g i) as Hget1.
    { intros i. unfold graph_get. cbn. by eapply arena_set_get. }
    assert (bframe (fun i k => i = y /\ k ∈ e_opp E l) g g1) as Hfr.
    { eapply bframe_mono; [|eapply set_node_bframe; [done..|]].
      2:{ intros s. rewrite Hsrc. naive_solver. }
      cbn. intros i l' [-> ->]. split; [done|].
      rewrite <- Hv. by destruct lk. }
    assert (nonvec E lk) as Hnv by (unfold nonvec; fold (linkkind E lk); congruence).
    assert (b = true) as ->.
    { destruct b; [done|]. destruct (Hnone lk); [left|]. apply (has_link_lsrc E); [done..|]. by apply Hb. }
    clear Hb Hbf.
    assert (forall a b k, glink g1 a b k <-> glink g a b k \/ (a = y /\ b = x /\ k = lk)) as HK.
    { intros a b' k. unfold glink. rewrite Hget1. case_decide as Ha.
      - subst a. rewrite Hgy. transitivity (has_link n' k b'); [clear; naive_solver|].
        transitivity (has_link ny k b' \/ (b' = x /\ k = lk)); [|clear; naive_solver].
        rewrite (has_link_of_src _ _ Hsrc), has_link_iff. split.
        + intros (Hz&s&Hl&[Hs|[-> ->]]); [left; by eauto|]. right. split; [done|]. rewrite <- Hl. by destruct lk.
        + intros [(Hz&s&Hl&Hs)|[-> ->]]; [by eauto|]. split; [done|]. exists (lsrc lk). split; [by destruct lk|auto].
      - clear -Ha. naive_solver. }
    assert (arena_ok E (g_nodes g1)) as Haok1 by by apply arena_set_ok, Hwf.
    apply wp_bind. assert (to_source E lk = Ok (lsrc lk)) as ->.
    { unfold to_source. fold (linkkind E lk). rewrite Hk0. by destruct k0. }
    cbn [liftM]. apply wp_ret. unfold add_back_link, back_entry_insert. apply wp_bind.
    eapply wp_mono; [apply back_entry_wp; apply Hwf|..]; cbn beta; [|intros ?? HH; exact HH].
    intros _ [g2 r2] (->&HBR1).
    eapply wp_mono; [apply back_insert_wp; apply HBR1|..]; cbn beta.
    2:{ intros p ? [_ Hn]. exfalso. apply Hn, (br_has _ _ _ _ HBR1). auto. }
    intros u [g3 r3] (->&_&HBR2).
    pose proof (BR_trans _ _ _ _ _ _ _ HBR1 HBR2) as HBR.
    assert (forall z e, inback g3 z e <-> inback g z e \/ (z = x /\ e = (y, lsrc lk))) as Hin3.
    { intros z e. rewrite (br_in _ _ _ _ HBR2), (br_in _ _ _ _ HBR1). done. }
    assert (forall i, graph_get g3 i = graph_get g1 i) as Hsame.
    { intros i. unfold graph_get. by rewrite (br_nodes _ _ _ _ HBR). }
    assert (forall a b k, glink g3 a b k <-> glink g a b k \/ (a = y /\ b = x /\ k = lk)) as HK3.
    { intros a b k. rewrite <- HK. unfold glink. by rewrite Hsame. }
    split; [done|]. split; [|split; [|split]].
    - eapply (WF_node_update g g3 y ny n'); try done.
      + intros i. by rewrite Hsame.
      + by rewrite (br_nodes _ _ _ _ HBR).
      + apply HBR.
      + intros z Hz. apply (br_has _ _ _ _ HBR2), (br_has _ _ _ _ HBR1). by right.
      + intros z i s Hi. rewrite Hin3. split; [|auto]. intros [?|[_ [= ? _]]]; done.
      + intros z s Hs. apply Hin3. apply Hsrc in Hs as [Hs|[-> ->]]; [|by right].
        left. by eapply (wf_b2 _ _ Hwf).
      + intros z s Hz Hi. apply Hin3 in Hi as [Hi|[-> [= ->]]].
        * apply (wf_b3 _ _ Hwf) in Hi as (n0&Hn0&Hs); [|done]. assert (n0 = ny) as -> by congruence.
          apply Hsrc. by left.
        * apply Hsrc. by right.
    - split.
      + rewrite (br_ctx _ _ _ _ HBR). apply Hfr.
      + intros j. rewrite (br_nodes _ _ _ _ HBR). apply Hfr.
      + intros i Hi. rewrite Hsame. by apply Hfr.
      + intros i n Hi. rewrite Hsame. by apply Hfr.
      + intros i n n2 Hn. rewrite Hsame. by apply Hfr.
    - intros a b k. rewrite HK3. split.
      + intros [?|(->&->&->)]; [by left|]. right. split; [done|]. split; [done|]. split; [eauto|].
        by exists ny.
      + intros [?|(->&->&_&ny'&Hny'&Hb')]; [by left|]. right.
        assert (ny' = ny) as -> by congruence. rewrite Hbds in Hb'. by injection Hb' as ->.
    - intros _ ny' Hny' _. assert (ny' = ny) as -> by congruence. exists lk. rewrite Hbds. split; [left|].
      apply HK3. by right.
  Qed.

  (** the only way in which node [y] may be given the opposite of a link [l] *)
  Definition sole_opp g y l k : Prop :=
    exists ny, graph_get g y = Some ny /\ match_bd ny (e_opp E l) = [k].
  Lemma sole_opp_frame F g g' y l k : bframe F g g' -> sole_opp g' y l k <-> sole_opp g y l k.
  Proof.
    intros Hf. unfold sole_opp. split.
    - intros (n&Hn&Hm). destruct (graph_get g y) as [n0|] eqn:Hg.
      + exists n0. split; [done|]. rewrite <- Hm. apply match_bd_nvar. symmetry. by eapply bframe_nvar.
      + apply (bfr_none _ _ _ Hf) in Hg. congruence.
    - intros (n&Hn&Hm). destruct (bfr_some _ _ _ Hf y n Hn) as (n'&Hn'&Hv&_). exists n'. split; [done|].
      rewrite <- Hm. by apply match_bd_nvar.
  Qed.

  Definition adds_conflict (L : list (idx * idx * link)) g (p : panic) : Prop :=
    exists x y l ny, (x, y, l) ∈ L /\ graph_get g y = Some ny /\ is_Some (graph_get g x) /\
      ((p = PMultiChoice /\ 2 <= length (match_bd ny (e_opp E l)) /\
        forall k, k ∈ match_bd ny (e_opp E l) -> ~ glink g y x k) \/
       (exists k, match_bd ny (e_opp E l) = [k] /\
         (badkind k \/ (p = PAddOccupied /\ linkkind E k = Some KDirect /\
            exists z, z <> x /\ (glink g y z k \/
              exists l', (z, y, l') ∈ L /\ is_Some (graph_get g z) /\ sole_opp g y l' k))))).

  Lemma bidi_adds_wp L g r :
    WF E g ->
    wp (mfor L (bidi_add1 E)) (g, r)
      (fun _ '(g', r') => r' = r /\ WF E g' /\
         bframe (fun i k => exists x l, (x, i, l) ∈ L /\ k ∈ e_opp E l) g g' /\
         (forall a b k, glink g' a b k <-> glink g a b k \/
            (exists l, (b, a, l) ∈ L /\ is_Some (graph_get g b) /\ sole_opp g a l k)) /\
         (forall x y l ny, (x, y, l) ∈ L -> is_Some (graph_get g x) -> graph_get g y = Some ny ->
            match_bd ny (e_opp E l) <> [] -> exists k, k ∈ match_bd ny (e_opp E l) /\ glink g' y x k))
      (fun p '(g', r') => adds_conflict L g p /\ WF E g' /\
         bframe (fun i k => exists x l, (x, i, l) ∈ L /\ k ∈ e_opp E l) g g').
  Proof.
    intros Hwf. apply (wp_mfor L _ (fun P '(g', r') => r' = r /\ WF E g' /\
         bframe (fun i k => exists x l, (x, i, l) ∈ L /\ k ∈ e_opp E l) g g' /\
         (forall a b k, glink g' a b k <-> glink g a b k \/
            (exists l, (b, a, l) ∈ P /\ is_Some (graph_get g b) /\ sole_opp g a l k)) /\
         (forall x y l ny, (x, y, l) ∈ P -> is_Some (graph_get g x) -> graph_get g y = Some ny ->
            match_bd ny (e_opp E l) <> [] -> exists k, k ∈ match_bd ny (e_opp E l) /\ glink g' y x k))).
    - split; [done|]. split; [done|]. split; [apply bframe_refl|]. split.
      + intros a b k. setoid_rewrite elem_of_nil. naive_solver.
      + intros x y l ny Hin. by apply elem_of_nil in Hin.
    - intros P [[x y] l] post [g1 r1] Heq (->&Hwf1&Hfr1&HK1&Hdone).
      assert ((x, y, l) ∈ L) as Hin by (rewrite Heq, elem_of_app, elem_of_cons; auto).
      eapply wp_mono; [by apply bidi_add1_wp|..]; cbn beta.
      + intros _ [g2 r2] (->&Hwf2&Hfr2&HK2&Hdone2). split; [done|]. split; [done|]. split; [|split].
        * eapply bframe_trans; [done|]. eapply bframe_mono; [|done]. cbn. intros i k [-> Hk]. eauto.
        * intros a b k. rewrite HK2, HK1, (bframe_present _ _ _ x Hfr1).
          change (exists ny, graph_get g1 y = Some ny /\ match_bd ny (e_opp E l) = [k]) with (sole_opp g1 y l k).
          rewrite (sole_opp_frame _ _ _ _ _ _ Hfr1).
          setoid_rewrite elem_of_app. setoid_rewrite elem_of_list_singleton. split.
          -- intros [[?|(l'&?&?&?)]|(->&->&?&?)]; [by left|right; eauto..].
          -- intros [?|(l'&[?|[= -> -> ->]]&?&?)]; [by auto|left; right; eauto|by right].
        * intros x' y' l' ny' Hin' Hx' Hy' Hne. apply elem_of_app in Hin' as [Hin'|Hin'].
          -- destruct (Hdone x' y' l' ny' Hin' Hx' Hy' Hne) as (k&Hk&HKk). exists k. split; [done|].
             apply HK2. by left.
          -- apply elem_of_list_singleton in Hin' as [= -> -> ->].
             destruct (bfr_some _ _ _ Hfr1 y ny' Hy') as (n1&Hn1&Hv1&_).
             destruct (Hdone2 (proj2 (bframe_present _ _ _ x Hfr1) Hx') n1 Hn1) as (k&Hk&HKk).
             ++ by rewrite (match_bd_nvar n1 ny').
             ++ exists k. split; [|done]. by rewrite (match_bd_nvar ny' n1).
      + intros p [g2 r2] [(Hx1&n1&Hn1&Hc) [= -> ->]]. split; [|done].
        destruct (graph_get g y) as [ny|] eqn:Hgy.
        2:{ apply (bfr_none _ _ _ Hfr1) in Hgy. congruence. }
        assert (nvar n1 = nvar ny) as Hv by by eapply bframe_nvar.
        rewrite (match_bd_nvar n1 ny) in Hc by done.
        assert (is_Some (graph_get g x)) as Hx by by apply (bframe_present _ _ _ x Hfr1).
        exists x, y, l, ny. split; [done|]. split; [done|]. split; [done|].
        destruct Hc as [(->&Hlen&Hn)|(k&Hk&Hc)].
        * left. split; [done|]. split; [done|]. intros k Hk HKk. apply (Hn k Hk).
          assert (glink g1 y x k) as (n2&Hn2&Hl2) by (apply HK1; by left). congruence.
        * right. exists k. split; [done|]. destruct Hc as [?|(->&Hkd&z&Hz&Hlz)]; [by left|].
          right. split; [done|]. split; [done|]. exists z. split; [done|].
          assert (glink g1 y z k) as HKz by by exists n1.
          apply HK1 in HKz as [?|(l'&?&?&?)]; [by left|]. right. exists l'.
          split; [|done]. rewrite Heq. apply elem_of_app. by left.
  Qed.

  (** what the maintenance does with the removed links [rems] and the added links [adds] *)
  Definition bidi_links (rems adds : list (idx * idx * link)) g (a b : idx) (k : link) : Prop :=
    (glink g a b k /\ ~ (exists l, (b, a, l) ∈ rems /\ k ∈ e_opp E l /\ is_Some (graph_get g b))) \/
    (exists l, (b, a, l) ∈ adds /\ is_Some (graph_get g b) /\ sole_opp g a l k).

  Definition bidi_touched (rems adds : list (idx * idx * link)) (i : idx) (k : link) : Prop :=
    exists x l, ((x, i, l) ∈ rems \/ (x, i, l) ∈ adds) /\ k ∈ e_opp E l.

  (** the ways the maintenance can panic *)
  Definition bidi_panics (rems adds : list (idx * idx * link)) g (p : panic) : Prop :=
    (exists x y l k, (x, y, l) ∈ rems /\ k ∈ e_opp E l /\ badkind k) \/
    exists x y l ny, (x, y, l) ∈ adds /\ graph_get g y = Some ny /\ is_Some (graph_get g x) /\
      ((p = PMultiChoice /\ 2 <= length (match_bd ny (e_opp E l)) /\
        forall k, k ∈ match_bd ny (e_opp E l) ->
          ~ (glink g y x k /\ ~ (exists l, (x, y, l) ∈ rems /\ k ∈ e_opp E l))) \/
       (exists k, match_bd ny (e_opp E l) = [k] /\
         (badkind k \/ (p = PAddOccupied /\ linkkind E k = Some KDirect /\
            exists z, z <> x /\ bidi_links rems adds g y z k)))).

  Lemma apply_bidirectional_links_wp rr g r :
    WF E g ->
    wp (apply_bidirectional_links E rr) (g, r)
      (fun _ '(g', r') => r' = r /\ WF E g' /\
         bframe (bidi_touched (lc_rems rr) (lc_adds rr)) g g' /\
         (forall a b k, glink g' a b k <-> bidi_links (lc_rems rr) (lc_adds rr) g a b k) /\
         (forall x y l ny, (x, y, l) ∈ lc_adds rr -> is_Some (graph_get g x) -> graph_get g y = Some ny ->
            match_bd ny (e_opp E l) <> [] -> exists k, k ∈ match_bd ny (e_opp E l) /\ glink g' y x k))
      (fun p '(g', r') => bidi_panics (lc_rems rr) (lc_adds rr) g p /\ WF E g' /\
         bframe (bidi_touched (lc_rems rr) (lc_adds rr)) g g').
  Proof.
    intros Hwf. unfold apply_bidirectional_links. apply wp_bind.
    eapply wp_mono; [by apply bidi_removes_wp|..]; cbn beta.
    2:{ intros p [g' r'] (?&?&?). split; [by left|]. split; [done|].
        eapply bframe_mono; [|done]; cbn; unfold bidi_touched; naive_solver. }
    intros _ [g1 r1] (->&Hwf1&Hfr1&HK1).
    assert (forall b, is_Some (graph_get g1 b) <-> is_Some (graph_get g b)) as Hp.
    { intros b. by eapply bframe_present. }
    assert (forall a l k, sole_opp g1 a l k <-> sole_opp g a l k) as Hso.
    { intros a l k. by eapply sole_opp_frame. }
    eapply wp_mono; [by apply bidi_adds_wp|..]; cbn beta.
    - intros _ [g2 r2] (->&Hwf2&Hfr2&HK2&Hdone). split; [done|]. split; [done|]. split; [|split].
      + eapply bframe_trans; (eapply bframe_mono; [|done]); cbn; unfold bidi_touched; naive_solver.
      + intros a b k. rewrite HK2, HK1. unfold bidi_links. setoid_rewrite Hp. setoid_rewrite Hso. done.
      + intros x y l ny Hin Hx Hy Hne. destruct (bfr_some _ _ _ Hfr1 y ny Hy) as (n1&Hn1&Hv1&_).
        rewrite (match_bd_nvar ny n1) in * by done. eapply Hdone; try done. by apply Hp.
    - intros p [g2 r2] [(x&y&l&n1&Hin&Hn1&Hx&Hc) [Hwf2 Hfr2]].
      split.
      2:{ split; [done|]. apply (bframe_trans _ g g1 g2).
          - eapply bframe_mono; [|exact Hfr1]. unfold bidi_touched. cbn. naive_solver.
          - eapply bframe_mono; [|exact Hfr2]. unfold bidi_touched. cbn. naive_solver. }
      right.
      destruct (graph_get g y) as [ny|] eqn:Hgy.
      2:{ apply (bfr_none _ _ _ Hfr1) in Hgy. congruence. }
      assert (nvar n1 = nvar ny) as Hv by exact (bframe_nvar _ _ _ _ _ _ Hfr1 Hgy Hn1).
      rewrite (match_bd_nvar n1 ny) in Hc by done. apply Hp in Hx.
      exists x, y, l, ny. split; [done|]. split; [done|]. split; [done|].
      destruct Hc as [(->&Hlen&Hn)|(k&Hk&Hc)].
      + left. split; [done|]. split; [done|]. intros k Hk [HKk Hnr]. apply (Hn k Hk). apply HK1.
        split; [done|]. intros (l'&?&?&_). apply Hnr. eauto.
      + right. exists k. split; [done|]. destruct Hc as [?|(->&Hkd&z&Hz&Hlz)]; [by left|].
        right. split; [done|]. split; [done|]. exists z. split; [done|].
        unfold bidi_links. setoid_rewrite <- Hp. setoid_rewrite <- Hso. destruct Hlz as [Hl|?]; [|by right].
        apply HK1 in Hl. left. by setoid_rewrite Hp.
  Qed.
End graph.
