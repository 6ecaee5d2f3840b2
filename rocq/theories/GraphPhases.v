(** * The phases of a commit: merge, modify, update, redirect, remove *)
From Verif Require Export GraphInv.

Section phases.
  Context {D : Type} (E : env).
  Implicit Types (g : graph D) (n : node D) (x y : idx) (s : source).

  (** nodes and context of [g] with a new reverse index, described by membership *)
  Record BR g g' (I : idx -> idx * source -> Prop) (H : idx -> Prop) : Prop := {
    br_ctx : g_ctx g' = g_ctx g;
    br_nodes : g_nodes g' = g_nodes g;
    br_nd : back_nd g';
    br_in : forall y e, inback g' y e <-> I y e;
    br_has : forall y, hasback g' y <-> H y }.

  Lemma BR_refl g : back_nd g -> BR g g (inback g) (hasback g).
  Proof. by split. Qed.
  Lemma BR_ext g g' I H I' H' :
    BR g g' I H -> (forall y e, I y e <-> I' y e) -> (forall y, H y <-> H' y) -> BR g g' I' H'.
  Proof. intros [] HI HH. split; try done; intros; rewrite ?br_in0, ?br_has0; auto. Qed.
  Lemma BR_trans g g' g'' I H I' H' :
    BR g g' I H -> BR g' g'' I' H' -> BR g g'' I' H'.
  Proof. intros [] []. split; try done; congruence. Qed.

  Lemma BR_insert g y0 b b' (P : idx * source -> Prop) :
    back_nd g -> omap_get y0 (g_back g) = b -> NoDup b' -> (forall e, e ∈ b' <-> P e) ->
    BR g (with_back g (omap_insert y0 b' (g_back g)))
       (fun y e => if decide (y = y0) then P e else inback g y e)
       (fun y => y = y0 \/ hasback g y).
  Proof.
    intros [Hk Hl] Hb Hnd HP. split; try done.
    - split; cbn; [by apply omap_insert_NoDup|]. intros y b0. rewrite omap_get_insert.
      case_decide; [by intros [= <-]|apply Hl].
    - intros y e. unfold inback. cbn. rewrite omap_get_insert. case_decide; [|done].
      rewrite <- HP. naive_solver.
    - intros y. unfold hasback. cbn. rewrite omap_get_insert. case_decide; [|naive_solver].
      split; [auto|]. eauto.
  Qed.

  Lemma back_remove_wp g r y0 e0 :
    back_nd g ->
    wp (back_remove y0 e0) (g, r)
      (fun _ '(g', r') => r' = r /\ hasback g y0 /\
         BR g g' (fun y e => inback g y e /\ ~ (y = y0 /\ e = e0)) (hasback g))
      (fun _ _ => ~ hasback g y0).
  Proof.
    intros Hnd. unfold wp, back_remove. destruct (omap_get y0 (g_back g)) as [b|] eqn:Hb.
    - split; [done|]. split; [by exists b|].
      assert (NoDup b) as Hb' by by eapply Hnd.
      eapply BR_ext; [eapply (BR_insert g y0 _ _ (fun e => e <> e0 /\ e ∈ b)); [done|done| |]|..].
      + by apply oset_del_NoDup.
      + intros e. by apply oset_del_elem.
      + intros y e. cbn. unfold inback. case_decide; [subst; rewrite Hb|]; naive_solver.
      + intros y. cbn. split; [|auto]. intros [->|?]; [by exists b|done].
    - unfold hasback. rewrite Hb. by intros [? ?].
  Qed.
  Lemma back_insert_wp g r y0 e0 :
    back_nd g ->
    wp (back_insert y0 e0) (g, r)
      (fun _ '(g', r') => r' = r /\ hasback g y0 /\
         BR g g' (fun y e => inback g y e \/ (y = y0 /\ e = e0)) (hasback g))
      (fun p _ => p = PUnwrap /\ ~ hasback g y0).
  Proof.
    intros Hnd. unfold wp, back_insert. destruct (omap_get y0 (g_back g)) as [b|] eqn:Hb.
    - split; [done|]. split; [by exists b|].
      assert (NoDup b) as Hb' by by eapply Hnd.
      eapply BR_ext; [eapply (BR_insert g y0 _ _ (fun e => e = e0 \/ e ∈ b)); [done|done| |]|..].
      + by apply oset_insert_NoDup.
      + intros e. by apply oset_insert_elem.
      + intros y e. cbn. unfold inback. case_decide; [subst; rewrite Hb|]; naive_solver.
      + intros y. cbn. split; [|auto]. intros [->|?]; [by exists b|done].
    - split; [done|]. unfold hasback. rewrite Hb. by intros [? ?].
  Qed.
  Lemma back_entry_wp g r y0 (R : panic -> graph D * lcr -> Prop) :
    back_nd g ->
    wp (back_entry y0) (g, r)
      (fun _ '(g', r') => r' = r /\
         BR g g' (inback g) (fun y => y = y0 \/ hasback g y)) R.
  Proof.
    intros Hnd. unfold wp, back_entry. split; [done|]. unfold omap_entry.
    destruct (omap_get y0 (g_back g)) as [b|] eqn:Hb.
    - eapply BR_ext; [|done|].
      + split; try done.
      + intros y. cbn. split; [auto|]. intros [->|?]; [by exists b|done].
    - eapply BR_ext; [eapply (BR_insert g y0 _ _ (fun e => False)); [done|done| |]|..].
      + constructor.
      + intros e. split; [inversion 1|done].
      + intros y e. cbn. unfold inback. case_decide; [subst; rewrite Hb|]; naive_solver.
      + done.
  Qed.

  Lemma rec_add_wp g r x y l (R : panic -> graph D * lcr -> Prop) :
    wp (rec_add x y l) (g, r) (fun _ '(g', r') => g' = g /\ r' = lcr_add x y l r) R.
  Proof. by split. Qed.
  Lemma rec_rem_wp g r x y l (R : panic -> graph D * lcr -> Prop) :
    wp (rec_rem x y l) (g, r) (fun _ '(g', r') => g' = g /\ r' = lcr_rem x y l r) R.
  Proof. by split. Qed.

  (** ** Removing / adding all sources of [x] *)
  Lemma unlink_loop_wp x L g r :
    back_nd g ->
    wp (mfor L (fun '(y, s) => run! back_remove y (x, s); rec_rem x y (src_link s))) (g, r)
      (fun _ '(g', r') => r' = rems_fold x L r /\
         BR g g' (fun y e => inback g y e /\ ~ exists s, e = (x, s) /\ (y, s) ∈ L) (hasback g))
      (fun _ _ => exists y s, (y, s) ∈ L /\ ~ hasback g y).
  Proof.
    revert g r. induction L as [|[y s] L IH]; intros g r Hnd; cbn [mfor].
    - apply wp_ret. split; [done|]. eapply BR_ext; [by apply BR_refl| |done].
      intros y e. split; [|naive_solver]. intros ?. split; [done|]. intros (?&_&Hin). inversion Hin.
    - apply wp_bind, wp_bind. eapply wp_mono; [by apply back_remove_wp|..]; cbn beta.
      2:{ intros p _ Hn. exists y, s. split; [left|done]. }
      intros _ [g1 r1] (->&Hy&HBR). eapply wp_mono; [apply rec_rem_wp|..]; cbn beta.
      2:{ intros p ? HH. exact HH. }
      intros _ [g2 r2] [-> ->]. eapply wp_mono; [apply IH, HBR|..]; cbn beta.
      + intros _ [g3 r3] [-> HBR']. split; [done|]. eapply BR_ext; [by eapply BR_trans|..]; cbn.
        * intros y' e. rewrite (br_in _ _ _ _ HBR). setoid_rewrite elem_of_cons.
          split.
          -- intros [[? Hn] Hn']. split; [done|]. intros (s'&->&[[= -> ->]|?]); naive_solver.
          -- intros [? Hn]. split; [split; [done|]|]; naive_solver.
        * apply HBR.
      + intros p _ (y'&s'&Hin&Hn). exists y', s'. split; [by right|]. by rewrite <- (br_has _ _ _ _ HBR).
  Qed.

  Lemma remove_back_links_wp x n g r :
    back_nd g ->
    wp (remove_back_links E x n) (g, r)
      (fun _ '(g', r') => r' = r /\
         BR g g' (fun y e => inback g y e /\ ~ exists s, e = (x, s) /\ src_val n s y) (hasback g))
      (fun _ _ => exists y s, src_val n s y /\ ~ hasback g y).
  Proof.
    intros Hnd. unfold remove_back_links.
    enough (forall L, wp (mfor L (fun '(y, s) => back_remove y (x, s))) (g, r)
      (fun _ '(g', r') => r' = r /\
         BR g g' (fun y e => inback g y e /\ ~ exists s, e = (x, s) /\ (y, s) ∈ L) (hasback g))
      (fun _ _ => exists y s, (y, s) ∈ L /\ ~ hasback g y)) as Hgen.
    { eapply wp_mono; [apply Hgen|..]; cbn beta.
      - intros _ [g' r'] [-> HBR]. split; [done|]. eapply BR_ext; [done| |done].
        intros y e. cbn. by setoid_rewrite elem_iter_sources.
      - intros _ _ H. by setoid_rewrite elem_iter_sources in H. }
    intros L. revert g r Hnd. induction L as [|[y s] L IH]; intros g r Hnd; cbn [mfor].
    - apply wp_ret. split; [done|]. eapply BR_ext; [by apply BR_refl| |done].
      intros y e. split; [|naive_solver]. intros ?. split; [done|]. intros (?&_&Hin). inversion Hin.
    - apply wp_bind. eapply wp_mono; [by apply back_remove_wp|..]; cbn beta.
      2:{ intros p _ Hn. exists y, s. split; [left|done]. }
      intros _ [g1 r1] (->&Hy&HBR). eapply wp_mono; [apply IH, HBR|..]; cbn beta.
      + intros _ [g3 r3] [-> HBR']. split; [done|]. eapply BR_ext; [by eapply BR_trans|..]; cbn.
        * intros y' e. rewrite (br_in _ _ _ _ HBR). setoid_rewrite elem_of_cons.
          split.
          -- intros [[? Hn] Hn']. split; [done|]. intros (s'&->&[[= -> ->]|?]); naive_solver.
          -- intros [? Hn]. split; [split; [done|]|]; naive_solver.
        * apply HBR.
      + intros p _ (y'&s'&Hin&Hn). exists y', s'. split; [by right|]. by rewrite <- (br_has _ _ _ _ HBR).
  Qed.

  Lemma link_loop_wp x L g r :
    back_nd g ->
    wp (mfor L (fun '(y, s) => run! back_insert y (x, s); rec_add x y (src_link s))) (g, r)
      (fun _ '(g', r') => r' = adds_fold x L r /\ (forall y s, (y, s) ∈ L -> hasback g y) /\
         BR g g' (fun y e => inback g y e \/ exists s, e = (x, s) /\ (y, s) ∈ L) (hasback g))
      (fun p _ => p = PUnwrap /\ exists y s, (y, s) ∈ L /\ ~ hasback g y).
  Proof.
    revert g r. induction L as [|[y s] L IH]; intros g r Hnd; cbn [mfor].
    - apply wp_ret. split; [done|]. split; [by inversion 1|]. eapply BR_ext; [by apply BR_refl| |done].
      intros y e. split; [auto|]. intros [?|(?&_&Hin)]; [done|inversion Hin].
    - apply wp_bind, wp_bind. eapply wp_mono; [by apply back_insert_wp|..]; cbn beta.
      2:{ intros p _ [-> Hn]. split; [done|]. exists y, s. split; [left|done]. }
      intros _ [g1 r1] (->&Hy&HBR). eapply wp_mono; [apply rec_add_wp|..]; cbn beta.
      2:{ intros p ? HH. exact HH. }
      intros _ [g2 r2] [-> ->]. eapply wp_mono; [apply IH, HBR|..]; cbn beta.
      + intros _ [g3 r3] (->&Hall&HBR'). split; [done|]. split.
        { intros y' s' [[= -> ->]|Hin]%elem_of_cons; [done|]. apply (br_has _ _ _ _ HBR). by eapply Hall. }
        eapply BR_ext; [by eapply BR_trans|..]; cbn.
        * intros y' e. rewrite (br_in _ _ _ _ HBR). setoid_rewrite elem_of_cons. naive_solver.
        * apply HBR.
      + intros p _ (->&y'&s'&Hin&Hn). split; [done|]. exists y', s'. split; [by right|]. by rewrite <- (br_has _ _ _ _ HBR).
  Qed.

  Lemma add_back_links_wp x n g r (R : panic -> graph D * lcr -> Prop) :
    back_nd g ->
    wp (add_back_links E x n) (g, r)
      (fun _ '(g', r') => r' = r /\
         BR g g' (fun y e => inback g y e \/ exists s, e = (x, s) /\ src_val n s y)
                 (fun y => hasback g y \/ y = x \/ exists s, src_val n s y)) R.
  Proof.
    intros Hnd. unfold add_back_links. apply wp_bind.
    eapply wp_mono; [by apply back_entry_wp|..]; cbn beta; [|intros ?? HH; exact HH].
    intros _ [g1 r1] [-> HBR1].
    assert (forall L g2 r, back_nd g2 ->
      wp (mfor L (fun '(y, s) => back_entry_insert y (x, s))) (g2, r)
      (fun _ '(g', r') => r' = r /\
         BR g2 g' (fun y e => inback g2 y e \/ exists s, e = (x, s) /\ (y, s) ∈ L)
                 (fun y => hasback g2 y \/ exists s, (y, s) ∈ L)) R) as Hgen.
    { clear g r Hnd g1 HBR1. induction L as [|[y s] L IH]; intros g r Hnd; cbn [mfor].
      - apply wp_ret. split; [done|]. eapply BR_ext; [by apply BR_refl|..].
        + intros y e. split; [auto|]. intros [?|(?&_&Hin)]; [done|inversion Hin].
        + intros y. split; [auto|]. intros [?|(?&Hin)]; [done|inversion Hin].
      - apply wp_bind. unfold back_entry_insert. apply wp_bind.
        eapply wp_mono; [by apply back_entry_wp|..]; cbn beta; [|intros ?? HH; exact HH].
        intros _ [g1 r1] [-> HBR1]. eapply wp_mono; [apply back_insert_wp, HBR1|..]; cbn beta.
        2:{ intros p st [_ Hn]. destruct Hn. apply (br_has _ _ _ _ HBR1). by left. }
        intros _ [g2 r2] (->&_&HBR2). eapply wp_mono; [apply IH, HBR2|..]; cbn beta; [|by auto].
        intros _ [g3 r3] [-> HBR3]. split; [done|].
        eapply BR_ext; [exact (BR_trans _ _ _ _ _ _ _ HBR1 (BR_trans _ _ _ _ _ _ _ HBR2 HBR3))|..]; cbn.
        + intros y' e. rewrite (br_in _ _ _ _ HBR2), (br_in _ _ _ _ HBR1).
          setoid_rewrite elem_of_cons. naive_solver.
        + intros y'. rewrite (br_has _ _ _ _ HBR2), (br_has _ _ _ _ HBR1).
          setoid_rewrite elem_of_cons. naive_solver. }
    eapply wp_mono; [apply Hgen, HBR1|..]; cbn beta; [|by auto].
    intros _ [g2 r2] [-> HBR2]. split; [done|].
    eapply BR_ext; [by eapply BR_trans|..]; cbn.
    - intros y e. rewrite (br_in _ _ _ _ HBR1). by setoid_rewrite elem_iter_sources.
    - intros y. rewrite (br_has _ _ _ _ HBR1). setoid_rewrite elem_iter_sources. naive_solver.
  Qed.

  (** ** Merging the new nodes *)
  Lemma merge_nodes_wp a g r K0 (R : panic -> graph D * lcr -> Prop) :
    WF E g -> arena_ok E a -> arena_disj (g_nodes g) a ->
    (forall x n, arena_get a x = Some n -> node_ok E n /\ x <> 0%N) ->
    LC E r K0 (glink g) ->
    wp (merge_nodes E a) (g, r)
      (fun _ '(g', r') => WF E g' /\ g_ctx g' = g_ctx g /\
         g_nodes g' = arena_merge (g_nodes g) a /\
         (forall i, graph_get g' i = match arena_get a i with Some n => Some n | None => graph_get g i end) /\
         LC E r' K0 (glink g') /\
         (forall y, hasback g' y <-> hasback g y \/ is_Some (arena_get a y) \/
            exists x n s, arena_get a x = Some n /\ src_val n s y)) R.
  Proof.
    intros Hwf Hok Hdis Hnok HLC. unfold merge_nodes. apply wp_bind.
    eapply (wp_mono _ _ (fun _ '(g', r') =>
      BR g g' (fun y e => inback g y e \/ exists x n s, e = (x, s) /\ (x, n) ∈ arena_items a /\ src_val n s y)
              (fun y => hasback g y \/ y ∈ (arena_items a).*1 \/
                        exists x n s, (x, n) ∈ arena_items a /\ src_val n s y) /\
      LC E r' K0 (fun x y l => glink g x y l \/ exists n, (x, n) ∈ arena_items a /\ has_link n l y))).
    { apply (wp_mfor _ _ (fun P '(g', r') =>
        BR g g' (fun y e => inback g y e \/ exists x n s, e = (x, s) /\ (x, n) ∈ P /\ src_val n s y)
                (fun y => hasback g y \/ y ∈ P.*1 \/ exists x n s, (x, n) ∈ P /\ src_val n s y) /\
        LC E r' K0 (fun x y l => glink g x y l \/ exists n, (x, n) ∈ P /\ has_link n l y))).
      - split.
        + eapply BR_ext; [apply BR_refl, Hwf|..].
          * intros y e. split; [auto|]. intros [?|(?&?&?&_&Hin&_)]; [done|inversion Hin].
          * intros y. split; [auto|]. intros [?|[Hin|(?&?&?&Hin&_)]]; [done|inversion Hin..].
        + eapply LC_ext; [exact HLC|]. intros x y l _ _. split; [auto|].
          intros [?|(?&Hin&_)]; [done|inversion Hin].
      - intros P [x n] post [g1 r1] Heq [HBR HLC1]. apply wp_bind.
        assert ((x, n) ∈ arena_items a) as Hin by (rewrite Heq, elem_of_app, elem_of_cons; auto).
        assert (arena_get a x = Some n) as Hgx by by apply (arena_get_items E).
        destruct (Hnok x n Hgx) as [Hn_ok Hx0].
        eapply wp_mono; [apply add_back_links_wp, HBR|..]; cbn beta; [|intros ?? HH; exact HH].
        intros _ [g2 r2] [-> HBR2].
        assert (forall L r, wp (mfor L (fun '(y, s) => rec_add x y (src_link s))) (g2, r)
          (fun _ st => st = (g2, adds_fold x L r)) R) as Hloop.
        { induction L as [|[y s] L IH]; intros r'; cbn [mfor]; [by apply wp_ret|].
          apply wp_bind. eapply wp_mono; [apply rec_add_wp|..]; cbn beta; [|intros ?? HH; exact HH].
          intros _ [g3 r3] [-> ->]. apply IH. }
        eapply wp_mono; [apply Hloop|..]; cbn beta; [|by auto].
        intros _ st ->. split.
        + eapply BR_ext; [exact (BR_trans _ _ _ _ _ _ _ HBR HBR2)|..]; cbn.
          * intros y e. rewrite (br_in _ _ _ _ HBR). setoid_rewrite elem_of_app.
            setoid_rewrite elem_of_list_singleton. naive_solver.
          * intros y. rewrite (br_has _ _ _ _ HBR), fmap_app, elem_of_app. cbn.
            rewrite elem_of_list_singleton. setoid_rewrite elem_of_app.
            setoid_rewrite elem_of_list_singleton. naive_solver.
        + eapply LC_ext; [apply LC_adds_fold; [done|exact HLC1|]|].
          * intros y l [(n0&Hg&_)|(n0&Hin0&_)].
            -- apply arena_get_dispatch in Hg, Hgx. rewrite Hdis in Hg by done. by destruct Hg.
            -- pose proof (arena_items_NoDup E a Hok) as Hnd.
               rewrite Heq, fmap_app in Hnd. apply NoDup_app in Hnd as (_&Hd&_).
               apply (Hd x); [|left]. apply elem_of_list_fmap. by exists (x, n0).
          * intros x' y' l' _ _. setoid_rewrite elem_of_app.
            setoid_rewrite elem_of_list_singleton. naive_solver. }
    2:{ intros ?? HH. exact HH. }
    intros _ [g1 r1] [HBR HLC1]. unfold wp.
    assert (forall i, graph_get (with_nodes g1 (arena_merge (g_nodes g1) a)) i =
      match arena_get a i with Some n => Some n | None => graph_get g i end) as Hget.
    { intros i. unfold graph_get. cbn. rewrite (br_nodes _ _ _ _ HBR).
      apply (arena_merge_get E); [apply Hwf|done|done]. }
    assert (forall x n, arena_get a x = Some n -> graph_get g x = None) as Hfresh.
    { intros x n Hx. destruct (graph_get g x) eqn:Hg; [|done]. apply arena_get_dispatch in Hg, Hx.
      rewrite Hdis in Hg by done. by destruct Hg. }
    assert (forall x n, graph_get g x = Some n -> arena_get a x = None) as Hfresh'.
    { intros x n Hx. destruct (arena_get a x) eqn:Hg; [|done]. apply Hfresh in Hg. congruence. }
    split.
    { split.
      - cbn. rewrite (br_nodes _ _ _ _ HBR). apply arena_merge_ok; [apply Hwf|done|done].
      - intros x n. rewrite Hget. destruct (arena_get a x) as [n'|] eqn:Ha.
        + intros [= ->]. by apply (Hnok x).
        + apply (wf_nodes _ _ Hwf).
      - rewrite Hget. destruct (arena_get a 0%N) as [n'|] eqn:Ha.
        + by apply Hnok in Ha as [_ ?].
        + apply Hwf.
      - apply HBR.
      - intros x n. rewrite Hget. intros Hx. change (hasback g1 x). rewrite (br_has _ _ _ _ HBR).
        destruct (arena_get a x) as [n'|] eqn:Ha.
        + right. left. apply (arena_get_items E) in Ha; [|done].
          apply elem_of_list_fmap. by exists (x, n').
        + left. by eapply wf_b1.
      - intros x n s y. rewrite Hget. intros Hx Hs. change (inback g1 y (x, s)).
        rewrite (br_in _ _ _ _ HBR). destruct (arena_get a x) as [n'|] eqn:Ha.
        + right. injection Hx as ->. exists x, n, s. split; [done|]. split; [|done].
          by apply (arena_get_items E).
        + left. by eapply wf_b2.
      - intros y x s Hy Hin. change (inback g1 y (x, s)) in Hin.
        rewrite (br_in _ _ _ _ HBR) in Hin. rewrite Hget. destruct Hin as [Hin|Hin].
        + apply (wf_b3 _ _ Hwf) in Hin as (n&Hg&Hs); [|done]. exists n. split; [|done].
          by rewrite (Hfresh' _ _ Hg).
        + destruct Hin as (x'&n&s'&[= <- <-]&Hin&Hs). exists n. split; [|done].
          apply (arena_get_items E) in Hin; [|done]. by rewrite Hin. }
    split; [apply HBR|]. split; [cbn; by rewrite (br_nodes _ _ _ _ HBR)|].
    split; [exact Hget|]. split.
    - eapply LC_ext; [exact HLC1|]. intros x y l _ _. unfold glink. rewrite Hget.
      setoid_rewrite <- (arena_get_items E); [|done]. split.
      + intros [(n&Hg&Hl)|(n&Hg&Hl)].
        * exists n. by rewrite (Hfresh' _ _ Hg).
        * exists n. by rewrite Hg.
      + destruct (arena_get a x) as [n'|]; naive_solver.
    - intros y. change (hasback g1 y <-> hasback g y \/ is_Some (arena_get a y) \/
        exists x n s, arena_get a x = Some n /\ src_val n s y).
      rewrite (br_has _ _ _ _ HBR). setoid_rewrite <- (arena_get_items E); [|done].
      assert (y ∈ (arena_items a).*1 <-> is_Some (arena_get a y)) as ->; [|done].
      rewrite elem_of_list_fmap. split.
      + intros ([y' n]&->&Hin). exists n. by apply (arena_get_items E).
      + intros [n Hn]. exists (y, n). split; [done|]. by apply (arena_get_items E).
  Qed.

  (** ** Changing one node *)
  Record node_changed g g' r' K0 x n' : Prop := {
    nc_wf : WF E g';
    nc_ctx : g_ctx g' = g_ctx g;
    nc_disp : forall j, arena_dispatch (g_nodes g') j = arena_dispatch (g_nodes g) j;
    nc_get : forall i, graph_get g' i = if decide (i = x) then Some n' else graph_get g i;
    nc_lc : LC E r' K0 (glink g');
    nc_has : forall y, hasback g' y <-> hasback g y }.

  Lemma unlink_sources_wp x g r :
    WF E g ->
    wp (unlink_sources E x) (g, r)
      (fun _ '(g', r') => exists n, graph_get g x = Some n /\ r' = rems_fold x (iter_sources E n) r /\
         BR g g' (fun y e => inback g y e /\ ~ exists s, e = (x, s) /\ src_val n s y) (hasback g))
      (fun _ st => graph_get g x = None /\ st = (g, r)).
  Proof.
    intros Hwf. unfold unlink_sources. apply wp_bind. unfold wp at 1, node_unwrap.
    destruct (graph_get g x) as [n|] eqn:Hg; [|done].
    eapply wp_mono; [apply unlink_loop_wp, Hwf|..]; cbn beta.
    - intros _ [g' r'] [-> HBR]. exists n. split; [done|]. split; [done|].
      eapply BR_ext; [exact HBR| |done]. intros y e. cbn. by setoid_rewrite elem_iter_sources.
    - intros _ ? (y&s&Hin&Hn). destruct Hn. apply elem_iter_sources in Hin.
      eapply inback_hasback, wf_b2; eauto.
  Qed.

  Lemma link_sources_wp x g g1 r K0 n n' :
    WF E g -> graph_get g x = Some n -> node_ok E n' ->
    LC E r K0 (glink g) ->
    arena_ok E (g_nodes g1) ->
    g_ctx g1 = g_ctx g ->
    back_nd g1 ->
    (forall j, arena_dispatch (g_nodes g1) j = arena_dispatch (g_nodes g) j) ->
    (forall i, graph_get g1 i = if decide (i = x) then Some n' else graph_get g i) ->
    (forall y e, inback g1 y e <-> inback g y e /\ ~ exists s, e = (x, s) /\ src_val n s y) ->
    (forall y, hasback g1 y <-> hasback g y) ->
    wp (link_sources E x) (g1, rems_fold x (iter_sources E n) r)
      (fun _ '(g', r') => node_changed g g' r' K0 x n' /\ (forall y s, src_val n' s y -> hasback g y))
      (fun p _ => p = PUnwrap /\ exists y s, src_val n' s y /\ ~ hasback g y).
  Proof.
    intros Hwf Hg Hok HLC Haok Hctx Hnd Hdisp Hget Hin Hhas.
    unfold link_sources. apply wp_bind. unfold wp at 1, node_unwrap.
    rewrite Hget, decide_True by done.
    eapply wp_mono; [by apply link_loop_wp|..]; cbn beta.
    2:{ intros p _ (->&y&s&Hys&Hn). apply elem_iter_sources in Hys.
        rewrite Hhas in Hn. eauto. }
    intros _ [g2 r2] (->&Hall&HBR).
    assert (forall i, graph_get g2 i = if decide (i = x) then Some n' else graph_get g i) as Hget2.
    { intros i. unfold graph_get in *. by rewrite (br_nodes _ _ _ _ HBR). }
    assert (forall y e, inback g2 y e <->
      (inback g y e /\ ~ exists s, e = (x, s) /\ src_val n s y) \/
      exists s, e = (x, s) /\ src_val n' s y) as Hin2.
    { intros y e. rewrite (br_in _ _ _ _ HBR), Hin. by setoid_rewrite elem_iter_sources. }
    split.
    2:{ intros y s Hs. apply Hhas. by eapply Hall, elem_iter_sources. }
    split.
    - split.
      + by rewrite (br_nodes _ _ _ _ HBR).
      + intros i m. rewrite Hget2. case_decide; [by intros [= <-]|apply Hwf].
      + rewrite Hget2. case_decide; [|apply Hwf]. subst. by rewrite (wf_zero _ _ Hwf) in Hg.
      + apply HBR.
      + intros i m. rewrite Hget2. intros Hm. apply (br_has _ _ _ _ HBR), Hhas.
        case_decide; [subst|]; by eapply wf_b1.
      + intros i m s y. rewrite Hget2, Hin2. intros Hm Hs. case_decide.
        * subst. right. injection Hm as ->. eauto.
        * left. split; [by eapply wf_b2|]. by intros (?&[= ? ?]&_).
      + intros y i s Hy. rewrite Hin2, Hget2. intros [[Hi Hn]|(s'&[= -> ->]&Hs)].
        * apply (wf_b3 _ _ Hwf) in Hi as (m&Hm&Hs); [|done].
          case_decide; [|eauto]. subst. rewrite Hg in Hm. injection Hm as <-. destruct Hn. eauto.
        * rewrite decide_True by done. eauto.
    - by rewrite (br_ctx _ _ _ _ HBR).
    - intros j. by rewrite (br_nodes _ _ _ _ HBR).
    - exact Hget2.
    - eapply LC_ext.
      + apply LC_adds_fold; [done| |].
        * apply LC_rems_fold; [by apply (wf_nodes _ _ Hwf x)|exact HLC|].
          intros y l Hl. exists n. done.
        * intros y l [(m&Hm&Hl) Hn]. rewrite Hg in Hm. injection Hm as <-. by apply Hn.
      + intros x' y' l' Hy Hl. unfold glink. rewrite Hget2. case_decide; subst.
        * rewrite Hg. naive_solver.
        * naive_solver.
    - intros y. by rewrite (br_has _ _ _ _ HBR).
  Qed.

  Lemma modify_node_wp x f g r K0 :
    WF E g -> LC E r K0 (glink g) ->
    (forall n n', graph_get g x = Some n -> f n = Done n' tt -> node_ok E n') ->
    wp (modify_node E x f) (g, r)
      (fun _ '(g', r') => exists n n', graph_get g x = Some n /\ f n = Done n' tt /\
         node_changed g g' r' K0 x n' /\ (forall y s, src_val n' s y -> hasback g y))
      (fun p st => (graph_get g x = None /\ st = (g, r)) \/ exists n, graph_get g x = Some n /\
         ((exists n', f n = Panicked p n') \/
          exists n' y s, f n = Done n' tt /\ p = PUnwrap /\ src_val n' s y /\ ~ hasback g y)).
  Proof.
    intros Hwf HLC Hf. unfold modify_node. apply wp_bind.
    eapply wp_mono; [by apply unlink_sources_wp|..]; cbn beta; [|by left].
    intros _ [g1 r1] (n&Hg&->&HBR). apply wp_bind.
    unfold wp at 1. unfold graph_get. rewrite (br_nodes _ _ _ _ HBR).
    change (arena_get (g_nodes g) x) with (graph_get g x). rewrite Hg.
    destruct (f n) as [n' []|p n'] eqn:Hfn; [|by eauto 6].
    eapply wp_mono; [eapply (link_sources_wp x g _ r K0 n n'); try done|..]; cbn beta.
    - by eapply Hf.
    - cbn. apply arena_set_ok, Hwf.
    - apply HBR.
    - apply HBR.
    - intros j. cbn. apply arena_set_dispatch.
    - intros i. unfold graph_get. cbn. by apply (arena_set_get _ _ n).
    - apply HBR.
    - apply HBR.
    - intros _ [g' r'] [Hnc Hall]. exists n, n'. eauto.
    - intros p ? (->&y&s&Hs&Hn). right. exists n. split; [done|]. right. exists n', y, s. done.
  Qed.

  Lemma update_node_wp x f g r K0 :
    WF E g -> LC E r K0 (glink g) ->
    (forall n n', graph_get g x = Some n -> f n = Ok n' -> node_ok E n') ->
    wp (update_node E x f) (g, r)
      (fun _ '(g', r') => exists n n', graph_get g x = Some n /\ f n = Ok n' /\
         node_changed g g' r' K0 x n' /\ (forall y s, src_val n' s y -> hasback g y))
      (fun p st => (graph_get g x = None /\ st = (g, r)) \/ exists n, graph_get g x = Some n /\
         (f n = Err p \/
          exists n' y s, f n = Ok n' /\ p = PUnwrap /\ src_val n' s y /\ ~ hasback g y)).
  Proof.
    intros Hwf HLC Hf. unfold update_node. apply wp_bind.
    eapply wp_mono; [by apply unlink_sources_wp|..]; cbn beta; [|by left].
    intros _ [g1 r1] (n&Hg&->&HBR). apply wp_bind.
    unfold wp at 1. rewrite (br_nodes _ _ _ _ HBR).
    pose proof (arena_update_wp E (g_nodes g) x f
      (fun _ a' => exists n', f n = Ok n' /\ arena_ok E a' /\
        (forall j, arena_dispatch a' j = arena_dispatch (g_nodes g) j) /\
        (forall j, arena_get a' j = if decide (j = x) then Some n' else arena_get (g_nodes g) j))
      (fun p _ => f n = Err p) (wf_arena _ _ Hwf)) as Hup.
    unfold wp in Hup. destruct (arena_update_with x f (g_nodes g)) as [a' []|p a'] eqn:Hau.
    - destruct Hup as (n'&Hfn&Haok&Hdisp&Hget).
      { intros n0 n' a0 Hn0 Hf0 Ha0 Hd0 Hg0. unfold graph_get in Hg. rewrite Hg in Hn0.
        injection Hn0 as <-. eauto. }
      { intros p a0 [Hn|(n0&Hn0&He)]; unfold graph_get in Hg; congruence. }
      eapply wp_mono; [eapply (link_sources_wp x g _ r K0 n n'); try done|..]; cbn beta.
      + by eapply Hf.
      + apply HBR.
      + apply HBR.
      + apply HBR.
      + apply HBR.
      + intros _ [g' r'] [Hnc Hall]. exists n, n'. eauto.
      + intros p ? (->&y&s&Hs&Hn). right. exists n. split; [done|]. right. exists n', y, s. done.
    - right. exists n. split; [done|]. left. apply Hup.
      { intros n0 n' a0 Hn0 Hf0 Ha0 Hd0 Hg0. unfold graph_get in Hg. rewrite Hg in Hn0.
        injection Hn0 as <-. eauto. }
      { intros p0 a0 [Hn|(n0&Hn0&He)]; unfold graph_get in Hg; congruence. }
  Qed.
End phases.
