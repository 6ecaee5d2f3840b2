(** * Which panics a commit can raise *)
From Verif Require Export BidiThms.

(** [m] panics only with reasons satisfying [P] *)
Definition pan {S A} (P : panic -> Prop) (m : M S A) : Prop :=
  forall s, wp m s (fun _ _ => True) (fun p _ => P p).
Definition panr {A} (P : panic -> Prop) (r : res A) : Prop :=
  match r with Ok _ => True | Err p => P p end.

Section pan.
  Context {S : Type} (P : panic -> Prop).
  Lemma pan_ret {A} (a : A) : pan P (retM (S:=S) a).
  Proof. by intros s. Qed.
  Lemma pan_panic {A} p : P p -> pan P (panicM (S:=S) (A:=A) p).
  Proof. by intros ? s. Qed.
  Lemma pan_get : pan P (getM (S:=S)).
  Proof. by intros s. Qed.
  Lemma pan_lift {A} (r : res A) : panr P r -> pan P (liftM (S:=S) r).
  Proof. intros H s. by destruct r. Qed.
  Lemma pan_unwrap {A} p (o : option A) : P p -> pan P (unwrapM (S:=S) p o).
  Proof. intros H s. by destruct o. Qed.
  Lemma pan_bind {A B} (m : M S A) (k : A -> M S B) : pan P m -> (forall a, pan P (k a)) -> pan P (bindM m k).
  Proof.
    intros Hm Hk s. apply wp_bind. eapply wp_mono; [apply Hm| |done]. intros a s' _. apply Hk.
  Qed.
  Lemma pan_mfor {A} (l : list A) (f : A -> M S unit) : (forall a, a ∈ l -> pan P (f a)) -> pan P (mfor l f).
  Proof.
    induction l as [|a l IH]; intros Hf; cbn; [apply pan_ret|].
    apply pan_bind; [apply Hf; left|]. intros _. apply IH. intros b Hb. apply Hf. by right.
  Qed.
  Lemma pan_done {A} (m : M S A) s p s' : pan P m -> m s = Panicked p s' -> P p.
  Proof. intros H Hm. specialize (H s). unfold wp in H. by rewrite Hm in H. Qed.
End pan.

(** the panics of node-level bookkeeping *)
Definition node_panic (p : panic) : Prop :=
  match p with
  | PUnwrap | PBounds | PMismatch | PIllTyped | PAddOccupied | PVecAdd | PVecRemove | PVecSource
  | PMultiChoice | PRemoveMissing | PUpdateMissing => True
  | _ => False
  end.

Section commit.
  Context {D : Type} (E : env) (P : panic -> Prop).
  Hypothesis HP : forall p, node_panic p -> P p.
  Implicit Types (g : graph D) (t : trans D) (n : node D).

  Ltac np := first [done | apply HP; exact I].

  Lemma pan_back_remove y e : pan P (back_remove (D:=D) y e).
  Proof. intros [g r]. unfold back_remove, wp. destruct (omap_get _ _); [done|np]. Qed.
  Lemma pan_back_insert y e : pan P (back_insert (D:=D) y e).
  Proof. intros [g r]. unfold back_insert, wp. destruct (omap_get _ _); [done|np]. Qed.
  Lemma pan_back_entry y : pan P (back_entry (D:=D) y).
  Proof. by intros [g r]. Qed.
  Lemma pan_back_entry_insert y e : pan P (back_entry_insert (D:=D) y e).
  Proof. apply pan_bind; [apply pan_back_entry|]. intros _. apply pan_back_insert. Qed.
  Lemma pan_rec_add x y l : pan P (rec_add (D:=D) x y l).
  Proof. by intros [g r]. Qed.
  Lemma pan_rec_rem x y l : pan P (rec_rem (D:=D) x y l).
  Proof. by intros [g r]. Qed.
  Lemma pan_node_unwrap x : pan P (node_unwrap (D:=D) x).
  Proof. intros [g r]. unfold node_unwrap, wp. destruct (graph_get g x); [done|np]. Qed.
  Lemma panr_modify n s o z : panr P (modify_link n s o z).
  Proof.
    unfold modify_link. case_decide; [|np].
    destruct (nlinks n !! s_fld s) as [[|k l|l]|]; destruct (s_pos s); cbn; try np; try done.
    - destruct (z =? 0)%N; done.
    - destruct (l !! _); [|np]. done.
  Qed.
  Lemma panr_remove n lk x : panr P (remove_link n lk x).
  Proof.
    unfold remove_link. case_decide; [|np].
    destruct (nlinks n !! l_fld lk) as [[i|k l|l]|]; cbn; try np; try done.
    repeat (destruct (_ =? _)%N; cbn); done.
  Qed.
  Lemma panr_add n lk x : panr P (add_link n lk x).
  Proof.
    unfold add_link. case_decide; [|np].
    destruct (nlinks n !! l_fld lk) as [[i|k l|l]|]; cbn; try np; try done.
    repeat (case_match; cbn); try done; np.
  Qed.
  Lemma panr_to_source lk : panr P (to_source E lk).
  Proof. unfold to_source. repeat (case_match; cbn); try done; np. Qed.
  Lemma pan_node_modify y s o z : pan P (node_modify (D:=D) y s o z).
  Proof.
    intros [g r]. unfold node_modify, wp. destruct (graph_get g y) as [n|]; [|np].
    pose proof (panr_modify n s o z) as H. by destruct (modify_link n s o z) as [[n' fl]|p].
  Qed.
  Lemma pan_redirect_links o z : pan P (redirect_links (D:=D) o z).
  Proof.
    apply pan_bind.
    { intros [g r]. unfold wp. destruct (omap_get _ _); [done|np]. }
    intros bl. apply pan_bind; [apply pan_back_entry|]. intros _. apply pan_mfor. intros [y s] _.
    apply pan_bind; [apply pan_back_insert|]. intros _.
    apply pan_bind; [apply pan_node_modify|]. intros [rm ad].
    apply pan_bind; [destruct ad; [apply pan_rec_add|apply pan_ret]|]. intros _.
    destruct rm; [apply pan_rec_rem|apply pan_ret].
  Qed.
  Lemma pan_redirect_loop reps post fa :
    UF fa -> (forall x, x ∈ fa.*1 <-> x ∈ reps.*1 \/ x ∈ reps.*2) ->
    (forall (o z : idx), (o, z) ∈ post -> (o, z) ∈ reps) ->
    pan P (redirect_loop (D:=D) post fa).
  Proof.
    revert fa. induction post as [|[old new] post IH]; intros fa Huf Hkeys Hpost; cbn [redirect_loop]; [apply pan_ret|].
    assert (new ∈ fa.*1) as Hnew.
    { apply Hkeys. right. apply elem_of_list_fmap. exists (old, new). split; [done|]. apply Hpost. left. }
    destruct Huf as [Hnd Hreach]. destruct (Hreach new Hnew) as (k&z&Hz).
    pose proof (reaches_bound _ _ _ _ Hz) as Hk.
    intros s. apply wp_bind. destruct (omap_key_get fa new Hnew) as [y0 Hy0]. rewrite Hy0. apply wp_ret.
    apply wp_bind. rewrite (fa_chase_spec _ _ _ _ _ _ Hz Hy0) by lia. apply wp_ret.
    apply wp_bind. eapply wp_mono; [apply pan_redirect_links| |done]. intros _ s' _.
    apply wp_bind.
    destruct (fa_compress_spec fa k new z (S (length fa))) as (fa'&Hc&Huf'&Hlen&Hkeys'&Hr'); [by split|done|lia|].
    rewrite Hc. apply wp_ret. apply IH; [done| |].
    - intros x. by rewrite Hkeys'.
    - intros o n Hon. apply Hpost. by right.
  Qed.
  Lemma pan_redirect_vec reps : (redir_bad reps -> P PLoop) -> pan P (redirect_links_vec (D:=D) reps).
  Proof.
    intros Hloop s. unfold redirect_links_vec. apply wp_bind. pose proof (fa_build_spec reps) as Hb.
    destruct (fa_build reps (fa_init reps)) as [fa|p]; cbn [liftM].
    - apply wp_ret. apply (pan_redirect_loop reps); [apply Hb|apply Hb|done].
    - apply wp_panic. destruct Hb as (->&_&Hl). by apply Hloop.
  Qed.
  Lemma pan_merge (a : arena D) : pan P (merge_nodes E a).
  Proof.
    apply pan_bind; [|intros _; by intros [g r]]. apply pan_mfor. intros [x n] _.
    apply pan_bind; [|intros _; apply pan_mfor; intros [y s] _; apply pan_rec_add].
    apply pan_bind; [apply pan_back_entry|]. intros _. apply pan_mfor. intros [y s] _. apply pan_back_entry_insert.
  Qed.
  Lemma pan_unlink x : pan P (unlink_sources (D:=D) E x).
  Proof.
    apply pan_bind; [apply pan_node_unwrap|]. intros n. apply pan_mfor. intros [y s] _.
    apply pan_bind; [apply pan_back_remove|]. intros _. apply pan_rec_rem.
  Qed.
  Lemma pan_link x : pan P (link_sources (D:=D) E x).
  Proof.
    apply pan_bind; [apply pan_node_unwrap|]. intros n. apply pan_mfor. intros [y s] _.
    apply pan_bind; [apply pan_back_insert|]. intros _. apply pan_rec_add.
  Qed.
  Lemma pan_modify_node x f : (forall n n' p, f n = Panicked p n' -> P p) -> pan P (modify_node (D:=D) E x f).
  Proof.
    intros Hf. apply pan_bind; [apply pan_unlink|]. intros _. apply pan_bind; [|intros _; apply pan_link].
    intros [g r]. unfold wp. destruct (graph_get g x) as [n|]; [|np].
    destruct (f n) as [n' u|p n'] eqn:Hfn; [done|]. by eapply Hf.
  Qed.
  Lemma pan_update_node x f : (forall n p, f n = Err p -> P p) -> pan P (update_node (D:=D) E x f).
  Proof.
    intros Hf. apply pan_bind; [apply pan_unlink|]. intros _. apply pan_bind; [|intros _; apply pan_link].
    intros [g r]. unfold wp.
    assert (pan P (arena_update_with (D:=D) x f)) as Hp.
    { apply pan_bind; [apply pan_get|]. intros a.
      apply pan_bind; [apply pan_unwrap; np|]. intros d.
      apply pan_bind; [apply pan_unwrap; np|]. intros n.
      apply pan_bind; [by intros s|]. intros _.
      apply pan_bind; [apply pan_lift; destruct (f n) eqn:Hfn; [done|by eapply Hf]|]. intros n'.
      apply pan_bind; [apply pan_get|]. intros a'. by intros s. }
    specialize (Hp (g_nodes g)). unfold wp in Hp. by destruct (arena_update_with x f (g_nodes g)).
  Qed.
  Lemma pan_remove_node x : pan P (remove_node (D:=D) E x).
  Proof.
    apply pan_bind.
    { intros [g r]. unfold wp. destruct (arena_remove (g_nodes g) x) as [a' [n|]]; np. }
    intros n. apply pan_bind; [apply pan_mfor; intros [y s] _; apply pan_rec_rem|]. intros _.
    apply pan_bind; [apply pan_mfor; intros [y s] _; apply pan_back_remove|]. intros _.
    apply pan_bind; [intros [g r]; unfold wp; destruct (omap_get _ _); np|]. intros bl.
    apply pan_mfor. intros [y s] _. apply pan_bind; [apply pan_node_modify|]. intros _. apply pan_rec_rem.
  Qed.
  Lemma pan_at {S A} (m : M S A) s : pan P m -> match m s with Done _ _ => True | Panicked p _ => P p end.
  Proof. intros H. apply (H s). Qed.
  Lemma pan_set_node y n : pan P (fun '(g', r') => Done (with_nodes g' (arena_set (g_nodes g') y n), r') tt : out (graph D * lcr) unit).
  Proof. by intros [g r]. Qed.
  Lemma pan_bidi_remove1 e : pan P (bidi_remove1 (D:=D) E e).
  Proof.
    destruct e as [[x y] l]. intros [g r]. unfold bidi_remove1, wp. destruct (_ || _); [done|].
    apply pan_at. apply pan_bind; [apply pan_node_unwrap|]. intros _.
    apply pan_bind; [apply pan_node_unwrap|]. intros ny. apply pan_mfor. intros lk _.
    apply pan_bind; [apply pan_node_unwrap|]. intros ny'.
    apply pan_bind; [apply pan_lift, panr_remove|]. intros [n'' b].
    apply pan_bind; [apply pan_set_node|]. intros _. destruct b; [|apply pan_ret].
    apply pan_bind; [apply pan_lift, panr_to_source|]. intros s. apply pan_back_remove.
  Qed.
  Lemma pan_bidi_add1 e : pan P (bidi_add1 (D:=D) E e).
  Proof.
    destruct e as [[x y] l]. intros [g r]. unfold bidi_add1, wp. destruct (_ || _); [done|].
    apply pan_at. apply pan_bind; [apply pan_node_unwrap|]. intros _.
    apply pan_bind; [apply pan_node_unwrap|]. intros ny. cbv zeta.
    destruct (match_bd ny (e_opp E l)) as [|lk ls]; [apply pan_ret|].
    destruct (existsb _ _); [apply pan_ret|]. destruct (_ =? _); [|apply pan_panic; np].
    apply pan_bind; [apply pan_lift, panr_add|]. intros [n'' b].
    apply pan_bind; [apply pan_set_node|]. intros _. destruct b; [|apply pan_ret].
    apply pan_bind; [apply pan_lift, panr_to_source|]. intros s. apply pan_back_entry_insert.
  Qed.

  Lemma pan_commit_body t :
    (redir_bad (t_redir t) \/ redir_bad (t_redir_all t) -> P PLoop) ->
    (forall i f n n' p, (i, f) ∈ t_mut t -> f n = Panicked p n' -> P p) ->
    (forall i f n p, (i, f) ∈ t_upd t -> f n = Err p -> P p) ->
    pan P (commit_body E t).
  Proof.
    intros Hl Hm Hu. apply pan_bind; [apply pan_redirect_vec; auto|]. intros _.
    apply pan_bind; [apply pan_merge|]. intros _.
    apply pan_bind; [apply pan_mfor; intros [i f] Hin; apply pan_modify_node; intros; by eapply Hm|]. intros _.
    apply pan_bind; [apply pan_mfor; intros [i f] Hin; apply pan_update_node; intros; by eapply Hu|]. intros _.
    apply pan_bind; [apply pan_redirect_vec; auto|]. intros _.
    apply pan_mfor. intros x _. apply pan_remove_node.
  Qed.
  Lemma pan_apply_bidi r : pan P (apply_bidirectional_links (D:=D) E r).
  Proof.
    apply pan_bind; [apply pan_mfor; intros e _; apply pan_bidi_remove1|]. intros _.
    apply pan_mfor. intros e _. apply pan_bidi_add1.
  Qed.
  Lemma do_commit_panic_kind t g p g' :
    (redir_bad (t_redir t) \/ redir_bad (t_redir_all t) -> P PLoop) ->
    (forall i f n n' p, (i, f) ∈ t_mut t -> f n = Panicked p n' -> P p) ->
    (forall i f n p, (i, f) ∈ t_upd t -> f n = Err p -> P p) ->
    (guard_fails E g t -> P PCtxMismatch /\ P PUnfilled) ->
    do_commit E t g = Panicked p g' -> P p.
  Proof.
    intros Hl Hm Hu Hg. apply (guard_cases E g t); intros Hgd.
    { destruct (do_commit_guard E g t Hgd) as (p'&->&[-> | ->]); intros [= <- <-]; by apply Hg. }
    rewrite (do_commit_unfold E g t Hgd).
    set (prog := (run! commit_body E t; _)).
    assert (pan P prog) as Hp.
    { unfold prog. clear prog. assert (pan P (run! commit_body E t; do! (_, r) <- getM; run! apply_bidirectional_links E r; retM r)) as Hp; [|exact Hp].
      apply pan_bind; [by apply pan_commit_body|]. intros _. apply pan_bind; [apply pan_get|]. intros [g0 r].
      apply pan_bind; [apply pan_apply_bidi|]. intros _. apply pan_ret. }
    specialize (Hp (g, lcr_new)). unfold wp in Hp. destruct (prog (g, lcr_new)) as [[g1 r1] r2|p1 [g1 r1]]; [done|].
    by intros [= <- <-].
  Qed.
End commit.

Section use.
  Context {D : Type} (E : env).
  Implicit Types (g : graph D) (t : trans D) (n : node D).

  (** C10: a loop panic has a loop as its cause *)
  Lemma commit_loop_cause t g p g' :
    closures_plain t -> commit E t g = Panicked p g' -> p = PLoop ->
    redir_bad (t_redir t) \/ redir_bad (t_redir_all t).
  Proof.
    intros [Hm Hu] Hc ->. unfold commit, bindM in Hc.
    destruct (do_commit E t g) as [g1 r|p1 g1] eqn:Hd.
    { pose proof (check_link_type_spec E r g1) as Hs. rewrite Hc in Hs. destruct Hs as (_&?&_). done. }
    injection Hc as -> ->.
    eapply (do_commit_panic_kind E (fun p => p = PLoop -> redir_bad (t_redir t) \/ redir_bad (t_redir_all t))); [..|done].
    - by intros [].
    - done.
    - intros i f n n' p Hin Hf ->. by destruct (Hm _ _ _ _ _ Hin Hf).
    - intros i f n p Hin Hf ->. by destruct (Hu _ _ _ _ Hin Hf).
    - by split.
    - done.
  Qed.
  (** C10: resolving chains terminates, whatever the lists *)
  Lemma commit_terminates t g p g' :
    closures_plain t -> commit E t g = Panicked p g' -> p <> PDiverge.
  Proof.
    intros [Hm Hu] Hc ->. unfold commit, bindM in Hc.
    destruct (do_commit E t g) as [g1 r|p1 g1] eqn:Hd.
    { pose proof (check_link_type_spec E r g1) as Hs. rewrite Hc in Hs. destruct Hs as (_&?&_). done. }
    injection Hc as -> ->.
    eapply (do_commit_panic_kind E (fun p => p <> PDiverge)); [..|exact Hd|done]; try done.
    - by intros [].
    - intros i f n n' p Hin Hf ->. by destruct (Hm _ _ _ _ _ Hin Hf).
    - intros i f n p Hin Hf ->. by destruct (Hu _ _ _ _ Hin Hf).
  Qed.
  (** C10: a loop in the first list panics at once *)
  Lemma commit_loop_panics t g :
    ~ guard_fails E g t -> redir_bad (t_redir t) -> commit E t g = Panicked PLoop g.
  Proof.
    intros Hg Hb. apply fa_build_err in Hb as [p Hl]. pose proof (fa_build_spec (t_redir t)) as Hs. rewrite Hl in Hs. destruct Hs as [-> _].
    unfold commit. unfold bindM at 1. rewrite (do_commit_unfold E g t Hg).
    unfold commit_body, redirect_links_vec, bindM. by rewrite Hl.
  Qed.
  (** no link type panic comes from anything but the check itself *)
  Lemma do_commit_no_linktype t g g' : closures_plain t -> do_commit E t g <> Panicked PLinkType g'.
  Proof.
    intros [Hm Hu] Hd.
    eapply (do_commit_panic_kind E (fun p => p <> PLinkType)); [..|exact Hd|done]; try done.
    - by intros [].
    - intros i f n n' p Hin Hf ->. by destruct (Hm _ _ _ _ _ Hin Hf).
    - intros i f n p Hin Hf ->. by destruct (Hu _ _ _ _ Hin Hf).
  Qed.
End use.
