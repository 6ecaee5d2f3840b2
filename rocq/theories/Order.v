(** * Iteration order

    The order in which [iter_type] lists the nodes of a variant, as a function of the
    calls made.  [take_out] and [touch] are the two ways a list of indices is rearranged. *)
From Verif Require Export WorldInv.

Section lists.
  Implicit Types (x : idx) (l : list idx).
  (** the last entry takes the place of [x] *)
  Definition take_out x l : list idx :=
    match list_find (fun y => y = x) l, last l with
    | Some (i, _), Some z => take (length l - 1) (<[i := z]> l)
    | _, _ => l
    end.
  (** [x] is taken out and put at the end *)
  Definition touch x l : list idx := if decide (x ∈ l) then take_out x l ++ [x] else l.

  Lemma removelast_take {A} (l : list A) : removelast l = take (length l - 1) l.
  Proof.
    induction l as [|a [|b l] IH]; [done|done|]. cbn [length]. rewrite Nat.sub_succ, Nat.sub_0_r.
    change (removelast (a :: b :: l)) with (a :: removelast (b :: l)). rewrite IH. cbn. by rewrite Nat.sub_0_r.
  Qed.
  Lemma last_cons_cons {A} (a b : A) (l : list A) : last (a :: b :: l) = last (b :: l).
  Proof. done. Qed.
  Lemma take_out_swap x l : take_out x l = swap_del (fun y => y = x) l.
  Proof.
    induction l as [|a l IH]; [done|]. unfold take_out. cbn [swap_del list_find]. destruct (decide (a = x)) as [Ha|Ha].
    - destruct l as [|b l]; [done|]. rewrite last_cons_cons. destruct (last (b :: l)) as [z|] eqn:Hz.
      + cbn [insert list_insert length]. rewrite Nat.sub_succ, Nat.sub_0_r. rewrite removelast_take. cbn. by rewrite Nat.sub_0_r.
      + by apply last_None in Hz.
    - rewrite <- IH. unfold take_out. destruct (list_find (fun y => y = x) l) as [[i y]|] eqn:Hf; cbn; [|done].
      destruct l as [|b l]; [done|]. rewrite last_cons_cons. destruct (last (b :: l)) as [z|] eqn:Hz.
      + cbn. rewrite Nat.sub_0_r. done.
      + by apply last_None in Hz.
  Qed.
  Lemma take_out_notin x l : x ∉ l -> take_out x l = l.
  Proof. intros H. rewrite take_out_swap. apply swap_del_none. by intros a Ha ->. Qed.
  Lemma touch_notin x l : x ∉ l -> touch x l = l.
  Proof. intros H. unfold touch. by rewrite decide_False. Qed.
  Lemma removelast_fmap {A B} (f : A -> B) (l : list A) : f <$> removelast l = removelast (f <$> l).
  Proof. induction l as [|a [|b l] IH]; [done|done|]. cbn in *. by rewrite IH. Qed.
  Lemma omap_del_order {V} x (m : list (idx * V)) : (omap_del x m).*1 = take_out x m.*1.
  Proof.
    rewrite take_out_swap. unfold omap_del. induction m as [|[y v] m IH]; [done|]. cbn [swap_del fmap list_fmap fst].
    destruct (decide (y = x)) as [->|Hne]; cbn.
    - rewrite ?decide_True by done. rewrite fmap_last. destruct (last m) as [[z u]|]; cbn; [|done]. by rewrite removelast_fmap.
    - rewrite ?decide_False by done. cbn. by rewrite IH.
  Qed.
  Lemma omap_insert_order {V} x v (m : list (idx * V)) : x ∈ m.*1 -> (omap_insert x v m).*1 = m.*1.
  Proof.
    induction m as [|[y u] m IH]; cbn; [inversion 1|]. rewrite elem_of_cons. case_decide as H; [done|].
    intros [?|?]; [done|]. cbn. by rewrite IH.
  Qed.
End lists.

Section order.
  Context {D : Type} (E : env).
  Implicit Types (a b : arena D) (g : graph D) (t : trans D) (n : node D) (x y i : idx) (d : nat).

  Definition korder a d : list idx := (cont a d).*1.
  Definition gorder g d : list idx := (graph_iter_type g d).*1.

  Lemma korder_disp a d i : arena_ok E a -> i ∈ korder a d -> arena_dispatch a i = Some d.
  Proof. intros Hok ([j n]&->&Hin)%elem_of_list_fmap. by eapply (arena_cont_dispatch E). Qed.

  (** nothing moves *)
  Record same_ord a a' : Prop := {
    so_disp : forall i, arena_dispatch a' i = arena_dispatch a i;
    so_ord : forall d, korder a' d = korder a d;
    so_ok : arena_ok E a -> arena_ok E a' }.
  Lemma same_refl a : same_ord a a.
  Proof. done. Qed.
  Lemma same_trans a a' a'' : same_ord a a' -> same_ord a' a'' -> same_ord a a''.
  Proof. intros [] []. split; intros; [congruence|congruence|auto]. Qed.
  Lemma same_set a i n0 n : arena_get a i = Some n0 -> same_ord a (arena_set a i n).
  Proof.
    intros Hg. pose proof (arena_get_inv a i n0 Hg) as (d&Hd&Hc&Hi). split.
    - intros j. apply arena_set_dispatch.
    - intros d'. unfold korder, arena_set. rewrite Hd. rewrite cont_set_cont by by eapply lookup_lt_Some.
      case_decide; [subst|done]. apply omap_insert_order. by eapply omap_get_Some_key.
    - apply arena_set_ok.
  Qed.

  Lemma order_remove a x d : arena_ok E a -> korder (arena_remove a x).1 d = take_out x (korder a d).
  Proof.
    intros Hok. unfold arena_remove. destruct (arena_dispatch a x) as [d0|] eqn:Hd; cbn [fst].
    - unfold korder at 1. destruct (decide (d0 < length (a_cont a))) as [Hlt|Hge].
      + rewrite (cont_set_cont (set_disp a _)) by done. case_decide; [subst|].
        * apply omap_del_order.
        * rewrite take_out_notin; [done|]. intros Hin. apply korder_disp in Hin; [congruence|done].
      + unfold cont, set_cont. cbn. rewrite list_insert_ge by lia. rewrite take_out_notin; [done|].
        intros Hin. assert (d = d0) as ->. { apply korder_disp in Hin; [congruence|done]. }
        unfold korder, cont in Hin. rewrite lookup_ge_None_2 in Hin by lia. inversion Hin.
    - rewrite take_out_notin; [done|]. intros Hin. apply korder_disp in Hin; [congruence|done].
  Qed.
  Lemma order_update a x f d : arena_ok E a ->
    match arena_update_with x f a with
    | Done a' _ => korder a' d = touch x (korder a d)
    | Panicked p a' => a' = a \/ exists n, arena_get a x = Some n /\ f n = Err p
    end.
  Proof.
    intros Hok. unfold arena_update_with, bindM, getM, unwrapM.
    destruct (arena_dispatch a x) as [d0|] eqn:Hd; cbn; [|by left].
    destruct (omap_get x (cont a d0)) as [n|] eqn:Hn; cbn; [|by left].
    destruct (f n) as [n'|p] eqn:Hf; cbn.
    - assert (Hc := cont_get_lookup _ _ _ _ Hn). assert (Hlt := lookup_lt_Some _ _ _ Hc).
      unfold korder. rewrite cont_set_cont by (cbn; by rewrite insert_length).
      destruct (decide (d = d0)) as [->|Hne].
      + rewrite cont_set_cont, decide_True by done. unfold touch. rewrite decide_True by by eapply omap_get_Some_key.
        rewrite <- omap_del_order, omap_insert_fresh, fmap_app; [done|].
        rewrite omap_del_keys by by apply (arena_ok_cont E). tauto.
      + rewrite cont_set_cont, decide_False by done. rewrite touch_notin; [done|].
        intros Hin. apply korder_disp in Hin; [congruence|done].
    - right. exists n. split; [|done]. unfold arena_get. by rewrite Hd.
  Qed.
  Lemma order_merge a b d : arena_ok E a -> arena_ok E b -> arena_disj a b ->
    korder (arena_merge a b) d = korder a d ++ korder b d.
  Proof. intros Ha Hb Hdis. unfold korder. by rewrite (arena_merge_cont_disj E), fmap_app. Qed.
  Lemma order_put a i n a' d : arena_put E a i n a' ->
    korder a' d = korder a d ++ (if decide (d = nvar n) then [i] else []).
  Proof.
    intros Hp. unfold korder. rewrite (ap_cont _ _ _ _ _ Hp). case_decide; [by rewrite fmap_app|by rewrite app_nil_r].
  Qed.

  (** ** parts of a commit that move nothing, also when they panic *)
  Definition keeps {A} (m : M (graph D * lcr) A) : Prop :=
    forall g r, wp m (g, r) (fun _ s => same_ord (g_nodes g) (g_nodes s.1)) (fun _ s => same_ord (g_nodes g) (g_nodes s.1)).

  Lemma keeps_ret {A} (v : A) : keeps (retM v).
  Proof. intros g r. apply same_refl. Qed.
  Lemma keeps_panic {A} p : keeps (panicM (A:=A) p).
  Proof. intros g r. apply same_refl. Qed.
  Lemma keeps_get : keeps getM.
  Proof. intros g r. apply same_refl. Qed.
  Lemma keeps_lift {A} (v : res A) : keeps (liftM v).
  Proof. destruct v; [apply keeps_ret|apply keeps_panic]. Qed.
  Lemma keeps_unwrap {A} p (v : option A) : keeps (unwrapM p v).
  Proof. destruct v; [apply keeps_ret|apply keeps_panic]. Qed.
  Lemma keeps_bind {A B} (m : M (graph D * lcr) A) (k : A -> M (graph D * lcr) B) :
    keeps m -> (forall v, keeps (k v)) -> keeps (bindM m k).
  Proof.
    intros Hm Hk g r. apply wp_bind. eapply wp_mono; [apply Hm| |done]. intros v [g' r'] Hs. cbn in Hs.
    eapply wp_mono; [apply Hk| |]; cbn; intros ? s Hs'; by eapply same_trans.
  Qed.
  Lemma keeps_mfor {A} (l : list A) f : (forall v, keeps (f v)) -> keeps (mfor l f).
  Proof. intros Hf. induction l as [|v l IH]; cbn; [apply keeps_ret|]. by apply keeps_bind. Qed.
  Lemma keeps_of {A} (m : M (graph D * lcr) A) :
    (forall g r, match m (g, r) with Done s _ => same_ord (g_nodes g) (g_nodes s.1) | Panicked _ s => same_ord (g_nodes g) (g_nodes s.1) end) ->
    keeps m.
  Proof. done. Qed.

  Lemma keeps_rec_add x y l : keeps (rec_add x y l).
  Proof. intros g r. apply same_refl. Qed.
  Lemma keeps_rec_rem x y l : keeps (rec_rem x y l).
  Proof. intros g r. apply same_refl. Qed.
  Lemma keeps_back_insert y e : keeps (back_insert y e).
  Proof. apply keeps_of. intros g r. cbn. by destruct (omap_get y (g_back g)). Qed.
  Lemma keeps_back_remove y e : keeps (back_remove y e).
  Proof. apply keeps_of. intros g r. cbn. by destruct (omap_get y (g_back g)). Qed.
  Lemma keeps_back_entry y : keeps (back_entry y).
  Proof. intros g r. apply same_refl. Qed.
  Lemma keeps_back_entry_insert y e : keeps (back_entry_insert y e).
  Proof. apply keeps_bind; [apply keeps_back_entry|intros _; apply keeps_back_insert]. Qed.
  Lemma keeps_node_unwrap x : keeps (node_unwrap x).
  Proof. apply keeps_of. intros g r. cbn. by destruct (graph_get g x). Qed.
  Lemma keeps_node_modify y s o w : keeps (node_modify y s o w).
  Proof.
    apply keeps_of. intros g r. cbn. destruct (graph_get g y) as [n|] eqn:Hg; [|done].
    destruct (modify_link n s o w) as [[n' fl]|]; [|done]. by eapply same_set.
  Qed.
  Local Hint Resolve keeps_ret keeps_panic keeps_get keeps_lift keeps_unwrap keeps_rec_add keeps_rec_rem keeps_back_insert
    keeps_back_remove keeps_back_entry keeps_back_entry_insert keeps_node_unwrap keeps_node_modify : core.


  Lemma keeps_unlink x : keeps (unlink_sources E x).
  Proof. unfold unlink_sources. apply keeps_bind; [auto|]. intros n. apply keeps_mfor. intros [y s]. apply keeps_bind; auto. Qed.
  Lemma keeps_link x : keeps (link_sources E x).
  Proof. unfold link_sources. apply keeps_bind; [auto|]. intros n. apply keeps_mfor. intros [y s]. apply keeps_bind; auto. Qed.
  Lemma keeps_redirect_links o w : keeps (redirect_links o w).
  Proof.
    unfold redirect_links. apply keeps_bind. { apply keeps_of. intros g r. cbn. by destruct (omap_get o (g_back g)). }
    intros l. apply keeps_bind; [auto|]. intros _. apply keeps_mfor. intros [y s]. apply keeps_bind; [auto|]. intros _.
    apply keeps_bind; [auto|]. intros [b1 b2]. apply keeps_bind; [by destruct b2; auto|]. intros _. by destruct b1; auto.
  Qed.
  Lemma keeps_redirect_vec reps : keeps (redirect_links_vec reps).
  Proof.
    unfold redirect_links_vec. apply keeps_bind; [auto|]. induction reps as [|[o w] reps IH]; intros fa; cbn; [auto|].
    apply keeps_bind; [auto|]. intros y0. apply keeps_bind; [auto|]. intros root. apply keeps_bind; [apply keeps_redirect_links|].
    intros _. apply keeps_bind; [auto|]. done.
  Qed.
  Lemma keeps_modify x f : keeps (modify_node E x f).
  Proof.
    unfold modify_node. apply keeps_bind; [apply keeps_unlink|]. intros _. apply keeps_bind; [|intros _; apply keeps_link].
    apply keeps_of. intros g r. destruct (graph_get g x) as [n|] eqn:Hg; [|done]. destruct (f n); by eapply same_set.
  Qed.
  Lemma keeps_set_known y n0 n (k : M (graph D * lcr) unit) :
    keeps k -> forall g r, graph_get g y = Some n0 ->
    wp (run! (fun '(g', r') => Done (with_nodes g' (arena_set (g_nodes g') y n), r') tt); k) (g, r)
      (fun _ s => same_ord (g_nodes g) (g_nodes s.1)) (fun _ s => same_ord (g_nodes g) (g_nodes s.1)).
  Proof.
    intros Hk g r Hg. apply wp_bind. unfold wp at 1. eapply wp_mono; [apply Hk| |]; cbn; intros ? s Hs;
      (eapply same_trans; [by eapply same_set|done]).
  Qed.
  Lemma keeps_bidi_remove e : keeps (bidi_remove1 E e).
  Proof.
    destruct e as [[x y] l]. intros g r. unfold bidi_remove1, wp. destruct (_ || _); [apply same_refl|]. revert g r.
    change (keeps (do! _ <- node_unwrap x; do! ny <- node_unwrap y;
       mfor (match_bd ny (e_opp E l)) (fun lk =>
         do! ny' <- node_unwrap y;
         do! (ny'', b) <- liftM (remove_link ny' lk x);
         run! (fun '(g', r') => Done (with_nodes g' (arena_set (g_nodes g') y ny''), r') tt);
         if b : bool then do! s <- liftM (to_source E lk); remove_back_link y x s
         else retM tt))).
    apply keeps_bind; [auto|]. intros _. apply keeps_bind; [auto|]. intros ny. apply keeps_mfor. intros lk g r.
    apply wp_bind. unfold wp at 1, node_unwrap. destruct (graph_get g y) as [n|] eqn:Hg; [|apply same_refl].
    apply wp_bind, wp_lift; [|intros; apply same_refl]. intros [n' b] _. apply keeps_set_known with n; [|done].
    destruct b; [|auto]. apply keeps_bind; [auto|]. intros s. apply keeps_back_remove.
  Qed.
  Lemma keeps_bidi_add e : keeps (bidi_add1 E e).
  Proof.
    destruct e as [[x y] l]. intros g r. unfold bidi_add1, wp. destruct (_ || _); [apply same_refl|].
    change (wp (do! _ <- node_unwrap x; do! ny <- node_unwrap y;
       let bds := match_bd ny (e_opp E l) in
       match bds with
       | [] => retM tt
       | lk :: _ =>
         if existsb (fun lk' => contains_link ny lk' x) bds then retM tt
         else if length bds =? 1 then
           do! (ny'', b) <- liftM (add_link ny lk x);
           run! (fun '(g', r') => Done (with_nodes g' (arena_set (g_nodes g') y ny''), r') tt);
           if b : bool then do! s <- liftM (to_source E lk); add_back_link y x s
           else retM tt
         else panicM PMultiChoice
       end) (g, r) (fun _ s => same_ord (g_nodes g) (g_nodes s.1)) (fun _ s => same_ord (g_nodes g) (g_nodes s.1))).
    apply wp_bind. unfold wp at 1, node_unwrap at 1. destruct (graph_get g x) as [nx|]; [|apply same_refl].
    apply wp_bind. unfold wp at 1, node_unwrap at 1. destruct (graph_get g y) as [n|] eqn:Hg; [|apply same_refl].
    cbn zeta. destruct (match_bd n (e_opp E l)) as [|lk bds]; [apply same_refl|].
    destruct (existsb _ _); [apply same_refl|]. destruct (_ =? _); [|apply same_refl].
    apply wp_bind, wp_lift; [|intros; apply same_refl]. intros [n' b] _. apply keeps_set_known with n; [|done].
    destruct b; [|auto]. apply keeps_bind; [auto|]. intros s. apply keeps_back_entry_insert.
  Qed.
  Lemma keeps_bidi r0 : keeps (apply_bidirectional_links E r0).
  Proof.
    unfold apply_bidirectional_links. apply keeps_bind; [apply keeps_mfor, keeps_bidi_remove|].
    intros _. apply keeps_mfor, keeps_bidi_add.
  Qed.

  (** ** parts of a commit that rearrange the order in the given steps *)
  Definition ostep : Type := nat -> list idx -> list idx.
  Definition orun (S : list ostep) (d : nat) (l : list idx) : list idx := fold_left (fun l f => f d l) S l.
  Definition stuck a : Prop := exists x, is_Some (arena_dispatch a x) /\ arena_get a x = None.
  Definition progP {A} (m : M (graph D * lcr) A) (S : list ostep) g r : Prop :=
    wp m (g, r)
      (fun _ s => arena_ok E (g_nodes s.1) /\ forall d, korder (g_nodes s.1) d = orun S d (korder (g_nodes g) d))
      (fun _ s => (exists j, forall d, korder (g_nodes s.1) d = orun (take j S) d (korder (g_nodes g) d)) \/ stuck (g_nodes s.1)).
  Definition prog {A} (m : M (graph D * lcr) A) (S : list ostep) : Prop :=
    forall g r, arena_ok E (g_nodes g) -> progP m S g r.

  Lemma orun_app S1 S2 d l : orun (S1 ++ S2) d l = orun S2 d (orun S1 d l).
  Proof. apply fold_left_app. Qed.
  Lemma keeps_prog {A} (m : M (graph D * lcr) A) : keeps m -> prog m [].
  Proof.
    intros Hm g r Hok. eapply wp_mono; [apply Hm| |]; cbn.
    - intros _ s [_ Ho Hk]. auto.
    - intros _ s [_ Ho Hk]. left. by exists 0.
  Qed.
  Lemma progP_bind {A B} (m : M (graph D * lcr) A) (k : A -> M (graph D * lcr) B) S1 S2 g r :
    progP m S1 g r -> (forall v, prog (k v) S2) -> progP (bindM m k) (S1 ++ S2) g r.
  Proof.
    intros Hm Hk. apply wp_bind. eapply wp_mono; [apply Hm| |]; cbn beta.
    - intros v [g' r'] [Hok Ho]. cbn in Hok, Ho. eapply wp_mono; [by apply Hk| |]; cbn beta.
      + intros _ s [Hok' Ho']. split; [done|]. intros d. by rewrite Ho', Ho, orun_app.
      + intros _ s [[j Hj]|Hs]; [left|by right]. exists (length S1 + j). intros d. rewrite Hj, Ho, take_add_app, orun_app by done. done.
    - intros _ s [[j Hj]|Hs]; [left|by right]. exists (length (take j S1)). intros d. rewrite Hj. f_equal.
      rewrite take_length. destruct (decide (j <= length S1)).
      + rewrite Nat.min_l, take_app_le by lia. done.
      + rewrite Nat.min_r, take_app, take_ge by lia. done.
  Qed.
  Lemma prog_bind {A B} (m : M (graph D * lcr) A) (k : A -> M (graph D * lcr) B) S1 S2 :
    prog m S1 -> (forall v, prog (k v) S2) -> prog (bindM m k) (S1 ++ S2).
  Proof. intros Hm Hk g r Hok. apply progP_bind; auto. Qed.
  Lemma prog_mfor {A} (l : list A) f (S : A -> ostep) : (forall v, prog (f v) [S v]) -> prog (mfor l f) (S <$> l).
  Proof.
    intros Hf. induction l as [|v l IH]; cbn; [apply keeps_prog, keeps_ret|].
    change (S v :: (S <$> l)) with ([S v] ++ (S <$> l)). by apply prog_bind.
  Qed.

  Lemma prog_update x f : prog (update_node E x f) [fun _ => touch x].
  Proof.
    unfold update_node. change [fun _ : nat => touch x] with ([] ++ [fun _ : nat => touch x] ++ []).
    apply prog_bind; [apply keeps_prog, keeps_unlink|]. intros _.
    apply prog_bind; [|intros _; apply keeps_prog, keeps_link].
    intros g r Hok. unfold progP, wp. pose proof (fun d => order_update (g_nodes g) x f d Hok) as Ho.
    pose proof (arena_update_wp E (g_nodes g) x f (fun _ a' => arena_ok E a') (fun _ _ => True) Hok) as Hu. unfold wp in Hu.
    destruct (arena_update_with x f (g_nodes g)) as [a' []|p a'] eqn:Ha; cbn.
    - split; [|apply Ho]. apply Hu; [|done]. by intros.
    - destruct (Ho 0) as [->|(n&Hn&Hf)]; [left; by exists 0|]. right. exists x.
      destruct (arena_get_inv _ _ _ Hn) as (d&Hd&Hc&Hg).
      unfold arena_update_with, bindM, getM, unwrapM, putM in Ha. rewrite Hd in Ha. cbn in Ha. rewrite Hg in Ha. cbn in Ha.
      rewrite Hf in Ha. cbn in Ha. injection Ha as <-. split; [by rewrite set_cont_dispatch, Hd|].
      unfold arena_get. rewrite set_cont_dispatch, Hd, cont_set_cont, decide_True by (done || by eapply lookup_lt_Some).
      rewrite omap_get_del by by apply (arena_ok_cont E). by rewrite decide_True.
  Qed.
  Lemma prog_remove x : prog (remove_node E x) [fun _ => take_out x].
  Proof.
    unfold remove_node. change [fun _ : nat => take_out x] with ([fun _ : nat => take_out x] ++ []).
    apply prog_bind.
    - intros g r Hok. unfold progP, wp. pose proof (fun d => order_remove (g_nodes g) x d Hok) as Ho.
      pose proof (arena_remove_ok E (g_nodes g) x Hok) as Hok'. destruct (arena_remove (g_nodes g) x) as [a' [n|]]; cbn.
      + done.
      + left. by exists 1.
    - intros n. apply keeps_prog. apply keeps_bind. { apply keeps_mfor. intros [y s]. apply keeps_rec_rem. } intros _.
      apply keeps_bind. { apply keeps_mfor. intros [y s]. apply keeps_back_remove. } intros _.
      apply keeps_bind. { apply keeps_of. intros g r. cbn. by destruct (omap_get x (g_back g)). }
      intros bl. apply keeps_mfor. intros [y s]. apply keeps_bind; [apply keeps_node_modify|intros _; apply keeps_rec_rem].
  Qed.
  Lemma keeps_merge_links b : keeps (mfor (arena_items b) (fun '(x, n) =>
      run! add_back_links E x n;
      mfor (iter_sources E n) (fun '(y, s) => rec_add x y (src_link s)))).
  Proof.
    apply keeps_mfor. intros [x n]. apply keeps_bind.
    - apply keeps_bind; [apply keeps_back_entry|]. intros _. apply keeps_mfor. intros [y s]. apply keeps_back_entry_insert.
    - intros _. apply keeps_mfor. intros [y s]. apply keeps_rec_add.
  Qed.
  Lemma prog_merge b g r : arena_ok E (g_nodes g) -> arena_ok E b -> arena_disj (g_nodes g) b ->
    progP (merge_nodes E b) [fun d l => l ++ korder b d] g r.
  Proof.
    intros Hok Hb Hdis. unfold merge_nodes, progP. apply wp_bind. eapply wp_mono; [apply keeps_merge_links| |]; cbn beta.
    - intros _ [g' r'] [Hd Ho Hk]. unfold wp. cbn in *.
      assert (arena_disj (g_nodes g') b) as Hdis' by (intros i Hi; rewrite Hd; by apply Hdis).
      split; [by apply arena_merge_ok; auto|]. intros d. rewrite order_merge by auto. by rewrite Ho.
    - intros _ s [Hd Ho Hk]. left. by exists 0.
  Qed.

  (** what a commit of [t] does to the order *)
  Definition commit_steps t : list ostep :=
    (fun d l => l ++ korder (t_inc t) d) :: ((fun x _ => touch x) <$> (t_upd t).*1) ++ ((fun x _ => take_out x) <$> t_dec t).
  Lemma prog_commit_body t g r : arena_ok E (g_nodes g) -> arena_ok E (t_inc t) -> arena_disj (g_nodes g) (t_inc t) ->
    progP (commit_body E t) (commit_steps t) g r.
  Proof.
    intros Hok Hb Hdis. unfold commit_body, progP. apply wp_bind. eapply wp_mono; [apply keeps_redirect_vec| |]; cbn beta.
    - intros _ [g' r'] [Hd Ho Hk]. cbn in Hd, Ho, Hk. set (k := bindM (merge_nodes E (t_inc t)) _).
      assert (progP k (commit_steps t) g' r') as Hp.
      { unfold k. change (commit_steps t) with ([fun d l => l ++ korder (t_inc t) d] ++
          (((fun x _ => touch x) <$> (t_upd t).*1) ++ ((fun x _ => take_out x) <$> t_dec t))).
        apply progP_bind.
        - apply prog_merge; [auto|done|]. intros i Hi. rewrite Hd. by apply Hdis.
        - intros _. change (?l1 ++ ?l2) with ([] ++ (l1 ++ ([] ++ l2))). apply prog_bind.
          { apply keeps_prog, keeps_mfor. intros [i f]. apply keeps_modify. }
          intros _. apply prog_bind.
          { rewrite <- list_fmap_compose. apply (prog_mfor _ _ (fun p : idx * upd_fn D => fun _ : nat => touch p.1)). intros [i f]. apply prog_update. }
          intros _. apply prog_bind; [apply keeps_prog, keeps_redirect_vec|].
          intros _. apply (prog_mfor _ _ (fun (x : idx) (_ : nat) => take_out x)). apply prog_remove. }
      eapply wp_mono; [apply Hp| |]; cbn beta.
      + intros _ s [? Ho']. split; [done|]. intros d. by rewrite Ho', Ho.
      + intros _ s [[j Hj]|?]; [left|by right]. exists j. intros d. by rewrite Hj, Ho.
    - intros _ s [Hd Ho Hk]. left. by exists 0.
  Qed.

  Lemma check_link_type_state r g : match check_link_type E r g with Done g' _ => g' = g | Panicked _ g' => g' = g end.
  Proof.
    unfold check_link_type. set (f := fun '(_, y, l) => _).
    assert (wp (mfor (lc_adds r) f) g (fun _ g' => g' = g) (fun _ g' => g' = g)) as H; [|exact H].
    apply (wp_mfor_simple _ f (fun g' => g' = g)); [done|]. intros [[x y] l] g' _ ->. unfold f, wp.
    destruct (graph_get g y) as [n|]; [|done]. by destruct (e_chk E (nvar n) l).
  Qed.

  Theorem commit_order T t g : WF E g -> trans_ok E T g t ->
    match commit E t g with
    | Done g' _ => forall d, gorder g' d = orun (commit_steps t) d (gorder g d)
    | Panicked p g' => (exists j, forall d, gorder g' d = orun (take j (commit_steps t)) d (gorder g d)) \/ stuck (g_nodes g')
    end.
  Proof.
    intros Hwf Hto.
    assert (progP (run! commit_body E t; do! (_, r) <- getM; run! apply_bidirectional_links E r; retM r) (commit_steps t) g lcr_new) as Hp.
    { rewrite <- (app_nil_r (commit_steps t)). apply progP_bind; [apply prog_commit_body; [apply Hwf|apply Hto|apply Hto]|].
      intros _. apply keeps_prog. apply keeps_bind; [apply keeps_get|]. intros [g1 r1].
      apply keeps_bind; [apply keeps_bidi|intros _; apply keeps_ret]. }
    unfold commit, bindM at 1. unfold do_commit.
    destruct (_ && _). { left. by exists 0. } destruct (_ && _). { left. by exists 0. }
    unfold progP, wp in Hp. destruct ((run! commit_body E t; _) (g, lcr_new)) as [[g' r'] r|p [g' r']]; [|exact Hp].
    pose proof (check_link_type_state r g') as Hc. destruct (check_link_type E r g') as [g'' []|p g'']; subst g''.
    - apply Hp.
    - left. exists (length (commit_steps t)). intros d. rewrite take_ge by done. apply Hp.
  Qed.
End order.
