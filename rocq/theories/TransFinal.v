(** * Facts about transactions, stated for the calls made on them *)
From Verif Require Export Owner.

Section tfinal.
  Context {D : Type} (E : env) (T : Prop).
  Implicit Types (g : graph D) (t : trans D) (s : tspec D) (n : node D) (L : list (tevent D)).

  (** ** What a transaction holds *)
  Definition trans_is t s : Prop :=
    (forall i, arena_get (t_inc t) i = ts_new s !! i) /\
    (forall i, i ∈ t_alloc t <-> is_Some (ts_res s !! i)) /\
    t_dec t = ts_del s /\ t_mut t = ts_mut s /\ t_upd t = ts_upd s /\
    t_redir_all t = ts_redir_all s /\ t_redir t = ts_redir s.
  Lemma trep_is t s : trep E t s -> trans_is t s.
  Proof.
    intros []. split; [done|]. split; [|done]. intros i. rewrite tr_res. case_decide; [split; eauto|].
    split; [done|]. by intros [? ?].
  Qed.

  (** [t] is a transaction of some history, [L] the calls made on it so far, and [cnt]
      the number of indices its context has handed out *)
  Definition open_trans (cnt : idx) t L : Prop :=
    exists w lg k c u, lreach E T w lg /\ w_trans w !! k = Some (c, t) /\ w_ctx w !! c = Some (u, cnt) /\ lg k = L.

  Lemma open_rep cnt t L : open_trans cnt t L -> exists u, t_hist E u cnt t L.
  Proof.
    intros (w&lg&k&c&u&Hl&Hk&Hc&<-). destruct (lreach_inv E T w lg Hl) as [_ [_ Hts]].
    destruct (Hts k c t Hk) as (u'&cnt'&Hc'&Hh). assert (u' = u) as -> by congruence.
    assert (cnt' = cnt) as -> by congruence. eauto.
  Qed.

  (** C38: every call does what the specification says *)
  Lemma open_call cnt t L (c : tcall D) s :
    open_trans cnt t L -> ts_run ts_empty L = Some s -> tc_ok E t c -> (allocates c = true -> cnt + 1 < usize_mod)%N ->
    match tc_run E c (cnt, t) with
    | Done (cnt', t') i => exists s', ts_call i s c = Some s' /\ trans_is t' s' /\
        (if allocates c then i = (cnt + 1)%N /\ cnt' = (cnt + 1)%N else cnt' = cnt)
    | Panicked p (cnt', t') => (forall i, ts_call i s c = None) /\ cnt' = cnt
    end.
  Proof.
    intros Ho Hs Hok Hb. destruct (open_rep cnt t L Ho) as (u&Hh).
    destruct (t_hist_call E u cnt t L c Hh Hok Hb) as (s'&Hs'&Hr&Hm). assert (s' = s) as -> by congruence.
    destruct (tc_run E c (cnt, t)) as [[cnt' t'] i|p [cnt' t']]; [|done].
    destruct Hm as (s'&H1&H2&H3). exists s'. split; [done|]. split; [by apply trep_is|done].
  Qed.
  Lemma open_is cnt t L s : open_trans cnt t L -> ts_run ts_empty L = Some s -> trans_is t s.
  Proof.
    intros Ho Hs. destruct (open_rep cnt t L Ho) as (u&Hh). destruct (t_hist_rep E _ _ _ _ Hh) as (s'&Hs'&Hr&_).
    assert (s' = s) as -> by congruence. by apply trep_is.
  Qed.
  Lemma open_fill cnt t L s i n : open_trans cnt t L -> ts_run ts_empty L = Some s -> node_ok E n ->
    (exists t', trans_fill_back i n t = Done t' tt) <-> ts_res s !! i = Some (Some (nvar n)).
  Proof.
    intros Ho Hs Hn. pose proof (open_call cnt t L (CFill i n) s Ho Hs Hn ltac:(done)) as Hc. cbn in Hc.
    destruct (trans_fill_back i n t) as [t' []|p t'].
    - split; [intros _|eauto]. destruct Hc as (s'&Hc&_). destruct (ts_res s !! i) as [[v|]|]; try done.
      case_decide; [|done]. by subst v.
    - split; [by intros [? ?]|]. intros Hi. destruct Hc as [Hc _]. specialize (Hc 0%N). rewrite Hi in Hc.
      by rewrite decide_True in Hc.
  Qed.
  Lemma open_remove_own cnt t L s i : open_trans cnt t L -> ts_run ts_empty L = Some s ->
    is_Some (ts_new s !! i) \/ is_Some (ts_res s !! i) ->
    t_dec (trans_remove i t) = t_dec t /\ arena_get (t_inc (trans_remove i t)) i = None /\ (i ∉ t_alloc (trans_remove i t)) /\
    forall j, j <> i -> arena_get (t_inc (trans_remove i t)) j = arena_get (t_inc t) j /\
                        (j ∈ t_alloc (trans_remove i t) <-> j ∈ t_alloc t).
  Proof.
    intros Ho Hs Hi. pose proof (open_is cnt t L s Ho Hs) as (In&Ir&Id&_).
    pose proof (open_call cnt t L (CRemove i) s Ho Hs I ltac:(done)) as Hc. cbn in Hc.
    destruct Hc as (s'&Hc&(Jn&Jr&Jd&_)&_).
    rewrite Jd, Id.
    destruct (open_rep cnt t L Ho) as (u&Hh). destruct (t_hist_rep E _ _ _ _ Hh) as (s0&Hs0&Hr&_).
    assert (s0 = s) as -> by congruence.
    destruct (ts_new s !! i) as [n|] eqn:Hn.
    - injection Hc as <-. cbn in *. split; [done|]. split; [by rewrite Jn, lookup_delete|]. split.
      + rewrite Jr, <- Ir. intros Ha. apply (tr_excl _ _ _ Hr) in Ha. rewrite In in Ha. congruence.
      + intros j Hj. rewrite Jn, In, lookup_delete_ne by done. split; [done|]. by rewrite Jr, Ir.
    - destruct (ts_res s !! i) as [r|] eqn:Hres; [|by destruct Hi as [[? ?]|[? ?]]]. injection Hc as <-. cbn in *.
      split; [done|]. split; [by rewrite Jn|]. split.
      + rewrite Jr, lookup_delete. by intros [? ?].
      + intros j Hj. rewrite Jn, In. split; [done|]. by rewrite Jr, Ir, lookup_delete_ne.
  Qed.

  Lemma open_mutate_own cnt t L s i n (f : mut_fn D) :
    open_trans cnt t L -> ts_run ts_empty L = Some s -> ts_new s !! i = Some n ->
    match f n with
    | Done n' _ => exists t', trans_mutate i f t = Done t' tt /\ arena_get (t_inc t') i = Some n' /\ t_mut t' = t_mut t
    | Panicked _ _ => exists p t', trans_mutate i f t = Panicked p t'
    end.
  Proof.
    intros Ho Hs Hi. pose proof (open_call cnt t L (CMutate i f) s Ho Hs I ltac:(done)) as Hc. cbn in Hc.
    pose proof (open_is cnt t L s Ho Hs) as (_&_&_&Hm&_). rewrite Hi in Hc.
    destruct (trans_mutate i f t) as [t' []|p t'], (f n) as [n' []|q n'].
    - destruct Hc as (s'&[= <-]&(In&_&_&Hm'&_)&_). exists t'. split; [done|]. cbn in In, Hm'.
      split; [by rewrite In, lookup_insert|by rewrite Hm', Hm].
    - by destruct Hc as (s'&?&_).
    - by destruct Hc as [Hc%(fun H => H 0%N) _].
    - eauto.
  Qed.
  Lemma open_update_own cnt t L s i n (f : upd_fn D) :
    open_trans cnt t L -> ts_run ts_empty L = Some s -> ts_new s !! i = Some n ->
    match f n with
    | Ok n' => exists t', trans_update i f t = Done t' tt /\ arena_get (t_inc t') i = Some n' /\ t_upd t' = t_upd t
    | Err _ => exists p t', trans_update i f t = Panicked p t'
    end.
  Proof.
    intros Ho Hs Hi. pose proof (open_call cnt t L (CUpdate i f) s Ho Hs I ltac:(done)) as Hc. cbn in Hc.
    pose proof (open_is cnt t L s Ho Hs) as (_&_&_&_&Hm&_). rewrite Hi in Hc.
    destruct (trans_update i f t) as [t' []|p t'], (f n) as [n'|q].
    - destruct Hc as (s'&[= <-]&(In&_&_&_&Hm'&_)&_). exists t'. split; [done|]. cbn in In, Hm'.
      split; [by rewrite In, lookup_insert|by rewrite Hm', Hm].
    - by destruct Hc as (s'&?&_).
    - by destruct Hc as [Hc%(fun H => H 0%N) _].
    - eauto.
  Qed.
  Lemma macros_keep_variant v (f : M (list linkval * list (string * D)) unit) f' n :
    (nvar n <> v -> mut_node_closure v f n = Panicked PTypeMacro n /\ update_node_closure v f' n = Err PTypeMacro) /\
    (forall n' u, mut_node_closure v f n = Done n' u -> nvar n = v /\ nvar n' = v) /\
    (forall n', update_node_closure v f' n = Ok n' -> nvar n = v /\ nvar n' = v).
  Proof.
    unfold mut_node_closure, update_node_closure. case_decide as Hv; [|naive_solver]. split; [done|]. split.
    - intros n' u. destruct (f _) as [[ls d] ?|? [ls d]]; [|done]. by intros [= <-].
    - intros n'. destruct (f' _) as [[ls d]|?]; [|done]. by intros [= <-].
  Qed.

  (** C36 *)
  Lemma final_empty g t s : history E T g t s ->
    (trans_is_empty t = true <-> ts_is_empty s) /\ (trans_is_empty t = true -> commit E t g = Done g tt).
  Proof.
    intros Hh. destruct (history_ok E T g t s Hh) as (Hwf&_&_&Hctx&Hr&_). split.
    - by apply (trans_is_empty_spec E).
    - intros He. by eapply (commit_empty E t s g).
  Qed.

  (** C48 *)
  Definition queued {F} (i : idx) (fs : list (idx * F)) : list F := (filter (fun p => p.1 = i) fs).*2.
  Fixpoint run_mutates (fs : list (node D -> out (node D) unit)) n : option (node D) :=
    match fs with
    | [] => Some n
    | f :: fs' => match f n with Done n' _ => run_mutates fs' n' | Panicked _ _ => None end
    end.
  Fixpoint run_updates (fs : list (node D -> res (node D))) n : option (node D) :=
    match fs with
    | [] => Some n
    | f :: fs' => match f n with Ok n' => run_updates fs' n' | Err _ => None end
    end.
  Lemma sp_mutates_at fs (m m' : gmap N (node D)) i n : sp_mutates fs m = Some m' -> m !! i = Some n ->
    exists n', run_mutates (queued i fs) n = Some n' /\ m' !! i = Some n'.
  Proof.
    revert m n. induction fs as [|[j f] fs IH]; intros m n; cbn [sp_mutates sp_updates].
    - intros [= <-] Hi. cbn. eauto.
    - destruct (m !! j) as [nj|] eqn:Hj; [|done]. destruct (f nj) as [nj' []|] eqn:Hf; [|done]. intros Hm Hi.
      unfold queued. destruct (decide (j = i)) as [->|Hne].
      + rewrite filter_cons_True by done. cbn [fmap list_fmap snd run_mutates run_updates]. assert (nj = n) as -> by congruence. rewrite Hf.
        eapply IH; [done|]. by rewrite lookup_insert.
      + rewrite filter_cons_False by done. eapply IH; [done|]. by rewrite lookup_insert_ne.
  Qed.
  Lemma sp_updates_at fs (m m' : gmap N (node D)) i n : sp_updates fs m = Some m' -> m !! i = Some n ->
    exists n', run_updates (queued i fs) n = Some n' /\ m' !! i = Some n'.
  Proof.
    revert m n. induction fs as [|[j f] fs IH]; intros m n; cbn [sp_mutates sp_updates].
    - intros [= <-] Hi. cbn. eauto.
    - destruct (m !! j) as [nj|] eqn:Hj; [|done]. destruct (f nj) as [nj'|] eqn:Hf; [|done]. intros Hm Hi.
      unfold queued. destruct (decide (j = i)) as [->|Hne].
      + rewrite filter_cons_True by done. cbn [fmap list_fmap snd run_mutates run_updates]. assert (nj = n) as -> by congruence. rewrite Hf.
        eapply IH; [done|]. by rewrite lookup_insert.
      + rewrite filter_cons_False by done. eapply IH; [done|]. by rewrite lookup_insert_ne.
  Qed.

  Lemma final_closures g t s g' i n : history E T g t s -> commit E t g = Done g' tt ->
    i ∉ ts_del s ->
    graph_get g i = Some n ->
    exists n1 n2 n3 n4 n5 n', node_rel (lv_redirected (ts_redir s)) n n1 /\
      run_mutates (queued i (ts_mut s)) n1 = Some n2 /\
      run_updates (queued i (ts_upd s)) n2 = Some n3 /\
      node_rel (lv_redirected (ts_redir_all s)) n3 n4 /\
      node_rel (lv_cleared (ts_del s)) n4 n5 /\ graph_get g' i = Some n' /\ agree_nonbidi E n5 n'.
  Proof.
    intros Hh Hc Hd Hi. destruct (history_ok E T g t s Hh) as (Hwf&Hty&Ht&Hctx&Hr&_).
    destruct (commit_refines E T g t Hwf Hty Ht g' Hc) as (m'&Hsp&Hho).
    pose proof (sp_del_nz E T g t m' Hwf Ht Hsp) as Hz.
    destruct Hsp as (m1&m2&m3&m4&H1&H2&H3&H4&H5). cbn in *.
    pose proof (sp_commit_ok E T g t _ _ _ _ Hwf Ht H1 H2 H3 H4) as (Hok1&Hok2&Hok3&_).
    pose proof (wf_nodes _ _ Hwf i n Hi) as Hokn. destruct H1 as (res&Hres&->), H4 as (res'&Hres'&->).
    rewrite <- (tr_redir _ _ _ Hr) in *. rewrite <- (tr_redir_all _ _ _ Hr) in *. rewrite <- (tr_del _ _ _ Hr) in *.
    rewrite <- (tr_mut _ _ _ Hr), <- (tr_upd _ _ _ Hr).
    pose proof (node_redirects_spec E _ _ n (to_redir _ _ _ _ Ht) Hres Hokn) as Hn1.
    destruct (sp_mutates_at _ _ _ i (node_redirects res n) H2) as (n2&Hn2&Hm2).
    { rewrite lookup_union_r; [by rewrite lookup_fmap, (gmap_of_get E), Hi|].
      rewrite (amap_get E) by apply Ht. by eapply (own_not_old E). }
    destruct (sp_updates_at _ _ _ i n2 H3 Hm2) as (n3&Hn3&Hm3).
    pose proof (Hok3 i n3 Hm3) as Hokn3.
    pose proof (node_redirects_spec E _ _ n3 (to_redir_all _ _ _ _ Ht) Hres' Hokn3) as Hn4.
    pose proof (node_redirects_ok E res' n3 Hokn3) as Hok4.
    pose proof (node_clear_spec E (t_dec t) _ Hz Hok4) as Hn5. cbv zeta in Hn5.
    specialize (Hho i). rewrite (sp_removes_closed _ _ _ H5), decide_False in Hho by done.
    rewrite lookup_fmap, Hm3 in Hho. cbn in Hho. inversion Hho as [? n' Ha Heq|]; subst.
    eexists _, _, _, _, _, _. split; [exact Hn1|]. split; [exact Hn2|]. split; [exact Hn3|]. split; [exact Hn4|]. split; [exact Hn5|]. done.
  Qed.

  (** closures queued on a reserved index that was filled later *)
  Lemma final_closures_own g t s g' i n : history E T g t s -> commit E t g = Done g' tt ->
    i ∉ ts_del s -> ts_new s !! i = Some n ->
    exists n2 n3 n4 n5 n', run_mutates (queued i (ts_mut s)) n = Some n2 /\
      run_updates (queued i (ts_upd s)) n2 = Some n3 /\
      node_rel (lv_redirected (ts_redir_all s)) n3 n4 /\
      node_rel (lv_cleared (ts_del s)) n4 n5 /\ graph_get g' i = Some n' /\ agree_nonbidi E n5 n'.
  Proof.
    intros Hh Hc Hd Hi. destruct (history_ok E T g t s Hh) as (Hwf&Hty&Ht&Hctx&Hr&_).
    destruct (commit_refines E T g t Hwf Hty Ht g' Hc) as (m'&Hsp&Hho).
    pose proof (sp_del_nz E T g t m' Hwf Ht Hsp) as Hz.
    destruct Hsp as (m1&m2&m3&m4&H1&H2&H3&H4&H5). cbn in *.
    pose proof (sp_commit_ok E T g t _ _ _ _ Hwf Ht H1 H2 H3 H4) as (Hok1&Hok2&Hok3&_).
    destruct H1 as (res&Hres&->), H4 as (res'&Hres'&->).
    rewrite <- (tr_redir_all _ _ _ Hr) in *. rewrite <- (tr_del _ _ _ Hr) in *.
    rewrite <- (tr_mut _ _ _ Hr), <- (tr_upd _ _ _ Hr).
    destruct (sp_mutates_at _ _ _ i n H2) as (n2&Hn2&Hm2).
    { apply lookup_union_Some_l. rewrite (amap_get E) by apply Ht. rewrite (proj1 (trep_is t s Hr)). done. }
    destruct (sp_updates_at _ _ _ i n2 H3 Hm2) as (n3&Hn3&Hm3).
    pose proof (Hok3 i n3 Hm3) as Hokn3.
    pose proof (node_redirects_spec E _ _ n3 (to_redir_all _ _ _ _ Ht) Hres' Hokn3) as Hn4.
    pose proof (node_redirects_ok E res' n3 Hokn3) as Hok4.
    pose proof (node_clear_spec E (t_dec t) _ Hz Hok4) as Hn5. cbv zeta in Hn5.
    specialize (Hho i). rewrite (sp_removes_closed _ _ _ H5), decide_False in Hho by done.
    rewrite lookup_fmap, Hm3 in Hho. cbn in Hho. inversion Hho as [? n' Ha Heq|]; subst.
    eexists _, _, _, _, _. split; [exact Hn2|]. split; [exact Hn3|]. split; [exact Hn4|]. split; [exact Hn5|]. done.
  Qed.

  (** C35: two graphs and a transaction of one context *)
  Definition two_graphs g g2 t L : Prop :=
    exists w lg kg kg2 k c, lreach E T w lg /\ kg <> kg2 /\ w_graphs w !! kg = Some (c, g) /\
      w_graphs w !! kg2 = Some (c, g2) /\ w_trans w !! k = Some (c, t) /\ lg k = L.

  Lemma two_graphs_merge g g2 t L t' : two_graphs g g2 t L -> (e_dbg E = false -> tight g2) -> trans_merge g2 t = Done t' tt ->
    pair_log E T g t' (L ++ [EvMerge (gmap_of g2)]).
  Proof.
    intros (w&lg&kg&kg2&k&c&Hl&Hne&Hg&Hg2&Ht&<-) Hcl Hm.
    assert (lreach E T (del_g (set_t w k (c, t')) kg2) (log_step w (OMerge k kg2) lg)) as Hl'.
    { eapply lr_step; [done|by econstructor|]. intros c' g' Hg'. by assert (g' = g2) as -> by congruence. }
    eexists _, _, kg, k, c. split; [exact Hl'|]. cbn. rewrite lookup_delete_ne, lookup_insert by done.
    split; [done|]. split; [done|]. rewrite Hg2. unfold lput. by rewrite decide_True.
  Qed.
  Lemma two_graphs_disjoint g g2 t L i : two_graphs g g2 t L -> graph_get g i = None \/ graph_get g2 i = None.
  Proof.
    intros (w&lg&kg&kg2&k&c&Hl&Hne&Hg&Hg2&_).
    destruct (graph_get g i) as [n|] eqn:Hi; [|by left]. destruct (graph_get g2 i) as [n2|] eqn:Hi2; [|by right].
    destruct Hne. assert (inl kg = inl kg2 :> nat + nat) as [=]; [|done].
    apply (iv_disj _ _ _ (proj1 (lreach_inv E T w lg Hl)) _ _ c i).
    - exists g. split; [done|]. by eapply arena_get_dispatch.
    - exists g2. split; [done|]. by eapply arena_get_dispatch.
  Qed.
  Lemma two_graphs_ctx g g2 t L : two_graphs g g2 t L -> exists t', trans_merge g2 t = Done t' tt.
  Proof.
    intros (w&lg&kg&kg2&k&c&Hl&Hne&Hg&Hg2&Ht&_). pose proof (proj1 (lreach_inv E T w lg Hl)) as Hinv.
    destruct (iv_graph _ _ _ Hinv _ _ _ Hg2) as (_&_&cnt&Hc). destruct (iv_trans _ _ _ Hinv _ _ _ Ht) as (_&cnt'&Hc').
    unfold trans_merge. assert (t_ctx t = g_ctx g2) as -> by congruence. rewrite N.eqb_refl. eauto.
  Qed.
  Lemma two_graphs_pair g g2 t L t' : two_graphs g g2 t L -> trans_merge g2 t = Done t' tt -> pair_of E T g t'.
  Proof.
    intros (w&lg&kg&kg2&k&c&Hl&Hne&Hg&Hg2&Ht&_) Hm. exists (del_g (set_t w k (c, t')) kg2), kg, k, c.
    split; [econstructor; [by eapply lreach_reachable|by econstructor]|]. cbn. by rewrite lookup_delete_ne, lookup_insert by done.
  Qed.
  Lemma final_merge g g2 t t' g' : two_graphs g g2 t [] -> trans_merge g2 t = Done t' tt -> commit E t' g = Done g' tt ->
    forall i, option_Forall2 (agree_nonbidi E)
      (match graph_get g i with Some n => Some n | None => graph_get g2 i end) (graph_get g' i).
  Proof.
    intros H2 Hm Hc i. destruct (pair_of_ok E T g t' (two_graphs_pair _ _ _ _ _ H2 Hm)) as (Hwf&Hty&Ht'&_).
    destruct (commit_refines E T g t' Hwf Hty Ht' g' Hc) as (m'&Hsp&Hho).
    assert (WF E g2 /\ trep E t ts_empty) as [Hwf2 Hr].
    { destruct H2 as (w&lg&kg&kg2&k&c&Hl&_&Hg&Hg2&Ht&HL). pose proof (lreach_inv E T w lg Hl) as [Hi _]. split; [by apply (iv_graph _ _ _ Hi kg2 c g2)|].
      destruct (pair_log_rep E T g t []) as (s&Hs&Hr&_); [exists w, lg, kg, k, c; done|]. by injection Hs as <-. }
    unfold trans_merge in Hm. destruct (_ =? _)%N; [|done]. injection Hm as <-. destruct Hr.
    unfold trans_txn in Hsp. cbn [t_redir t_mut t_upd t_redir_all t_dec t_inc with_inc] in Hsp.
    rewrite tr_redir, tr_mut, tr_upd, tr_redir_all, tr_del in Hsp. destruct Hsp as (m1&m2&m3&m4&H1&Hm2&Hm3&H4&H5).
    cbn [x_redir x_new x_mut x_upd x_redir_all x_del ts_redir ts_mut ts_upd ts_redir_all ts_del ts_empty sp_mutates sp_updates sp_removes] in *.
    injection Hm2 as <-. injection Hm3 as <-. injection H5 as <-.
    destruct H1 as (res&Hres&->), H4 as (res'&Hres'&->). apply resolved_nil in Hres as ->, Hres' as ->.
    specialize (Hho i). unfold node_redirects in Hho. cbn [fold_left] in Hho. rewrite lookup_fmap, lookup_union, lookup_fmap in Hho.
    rewrite (gmap_of_get E g) in Hho by done.
    assert (arena_get (t_inc t) i = None) as Hti by by rewrite <- tr_new.
    assert (arena_get (arena_merge (t_inc t) (g_nodes g2)) i = graph_get g2 i) as Hmi.
    { rewrite (arena_merge_get E), Hti; [unfold graph_get; by destruct (arena_get (g_nodes g2) i)|done|apply Hwf2|].
      intros j Hj. apply eq_None_not_Some. intros Hs. destruct (arena_get (t_inc t) j) as [n|] eqn:Hn; [by rewrite <- tr_new in Hn|].
      specialize (tr_stale j Hs Hn). specialize (tr_res j). rewrite decide_True in tr_res by done. done. }
    rewrite (amap_get E), Hmi in Hho by apply Ht'.
    destruct (two_graphs_disjoint _ _ _ _ i H2) as [Hi|Hi]; rewrite Hi in *.
    - destruct (graph_get g2 i); cbn in *; done.
    - destruct (graph_get g i); cbn in *; done.
  Qed.

  (** C43 *)
  Definition holder_has (w : world (D:=D)) (h : nat + nat) (c : nat) (i : idx) : Prop :=
    match h with
    | inl k => exists g, w_graphs w !! k = Some (c, g) /\ is_Some (graph_get g i)
    | inr k => exists t, w_trans w !! k = Some (c, t) /\ (is_Some (arena_get (t_inc t) i) \/ i ∈ t_alloc t)
    end.
  Lemma one_holder w h h' c i : reachable E T w -> holder_has w h c i -> holder_has w h' c i -> h = h'.
  Proof.
    intros Hr. assert (forall h, holder_has w h c i -> owns w h c i) as Hown.
    { intros [k|k]; cbn.
      - intros (g&Hk&[n Hn]). exists g. split; [done|]. by eapply arena_get_dispatch.
      - intros (t&Hk&[[n Hn]|Ha]); exists t; (split; [done|]); [left; by eapply arena_get_dispatch|by right]. }
    intros Hh Hh'. apply (iv_disj _ _ _ (reachable_inv E T w Hr) h h' c i); by apply Hown.
  Qed.
  Lemma final_fresh g t s i : history E T g t s -> is_Some (ts_new s !! i) \/ is_Some (ts_res s !! i) -> graph_get g i = None.
  Proof.
    intros (L&Hp&Hs) Hi. destruct (graph_get g i) as [n|] eqn:Hg; [|done].
    destruct (pair_log_rep E T g t L Hp) as (s'&Hs'&Hr&_). assert (s' = s) as -> by congruence.
    destruct Hp as (w&lg&kg&k&c&Hl&Hkg&Hk&_).
    assert (inl kg = inr k :> nat + nat) as ?; [|done].
    apply (one_holder w _ _ c i (lreach_reachable _ _ _ _ Hl)).
    - exists g. by rewrite Hg.
    - exists t. split; [done|]. destruct (trep_is t s Hr) as (Hn&Hre&_). rewrite Hn, Hre. done.
  Qed.

  (** C44, C01: indices handed out by a context *)
  Definition handed (w : world (D:=D)) (o : op (D:=D)) (c : nat) (i : idx) : Prop :=
    exists k t, w_trans w !! k = Some (c, t) /\
      ((exists n, o = OInsert k n i) \/ (exists d, o = OAlloc k d i) \/ o = OAllocUntyped k i).
  Definition any_step (w w' : world (D:=D)) : Prop := exists o, step E T w o w'.

  Lemma handed_next w o w' c i : reachable E T w -> step E T w o w' -> handed w o c i ->
    exists u cnt, w_ctx w !! c = Some (u, cnt) /\ i = (cnt + 1)%N /\ w_ctx w' !! c = Some (u, i).
  Proof.
    intros Hr Hs (k&t&Hk&Ho). pose proof (reachable_inv E T w Hr) as Hinv.
    assert (forall c1 u cnt cnt' t', (cnt < usize_mod)%N -> w_ctx w !! c1 = Some (u, cnt) ->
      w_ctx (set_cnt (set_t w k (c1, t')) c1 u cnt') !! c1 = Some (u, cnt')) as Hl.
    { intros c1 u cnt cnt' t' _ Hc. cbn. apply list_lookup_insert. by eapply lookup_lt_Some. }
    destruct (iv_trans _ _ _ Hinv k c t Hk) as (Htw&_).
    destruct Ho as [(n&->)|[(d&->)| ->]].
    - inversion Hs as [| | |? ? c1 u cnt t1 cnt' t' ? Hk1 Hc1 Hn1 Hb Hrun| | | | | | | | | | | | | | | | |]; subst.
      assert (c1 = c) as -> by congruence. assert (t1 = t) as -> by congruence.
      apply (trans_insert_step E T) in Hrun as (->&->&_); try done; [|by eapply inv_bound].
      exists u, cnt. split; [done|]. split; [done|]. eapply Hl; [|done]. lia.
    - inversion Hs as [| | | |? ? c1 u cnt t1 cnt' t' ? Hk1 Hc1 Hb Hrun| | | | | | | | | | | | | | | |]; subst.
      assert (c1 = c) as -> by congruence. assert (t1 = t) as -> by congruence.
      apply (trans_alloc_step E T) in Hrun as (->&->&_); try done; [|by eapply inv_bound].
      exists u, cnt. split; [done|]. split; [done|]. eapply Hl; [|done]. lia.
    - inversion Hs as [| | | | |? c1 u cnt t1 cnt' t' ? Hk1 Hc1 Hb Hrun| | | | | | | | | | | | | | |]; subst.
      assert (c1 = c) as -> by congruence. assert (t1 = t) as -> by congruence.
      apply (trans_alloc_untyped_step E T) in Hrun as (->&->&_); try done; [|by eapply inv_bound].
      exists u, cnt. split; [done|]. split; [done|]. eapply Hl; [|done]. lia.
  Qed.
  Lemma steps_ctx w w' : reachable E T w -> rtc any_step w w' -> reachable E T w' /\ ctx_le (w_ctx w) (w_ctx w').
  Proof.
    intros Hr Hs. induction Hs as [w|w w1 w' [o Ho] _ IH]; [split; [done|apply ctx_le_refl]|].
    assert (reachable E T w1) as Hr1 by by econstructor. destruct (IH Hr1) as [Hr' Hle]. split; [done|].
    destruct (step_wstep E T w o w1 (reachable_inv E T w Hr) Ho) as (phi&hn&Hw&_).
    intros c u cnt Hc. destruct (ws_ctx _ _ _ _ _ _ Hw c u cnt Hc) as (cnt1&Hc1&?).
    destruct (Hle c u cnt1 Hc1) as (cnt2&Hc2&?). exists cnt2. split; [done|lia].
  Qed.
  Lemma handed_increasing w o w1 w2 o' w3 c i j :
    reachable E T w -> step E T w o w1 -> handed w o c i -> rtc any_step w1 w2 -> step E T w2 o' w3 -> handed w2 o' c j ->
    (0 < i < j)%N.
  Proof.
    intros Hr H1 Hi Hs H2 Hj. destruct (handed_next w o w1 c i Hr H1 Hi) as (u&cnt&Hc&->&Hc1).
    assert (reachable E T w1) as Hr1 by by econstructor.
    destruct (steps_ctx w1 w2 Hr1 Hs) as [Hr2 Hle]. destruct (Hle _ _ _ Hc1) as (cnt2&Hc2&Hb).
    destruct (handed_next w2 o' w3 c j Hr2 H2 Hj) as (u'&cnt'&Hc'&->&_). assert (cnt' = cnt2) as -> by congruence. lia.
  Qed.
  (** an index some graph or transaction of the context holds is not handed out *)
  Lemma handed_not_held w o w' c i h : reachable E T w -> step E T w o w' -> handed w o c i -> ~ owns w h c i.
  Proof.
    intros Hr Hs Hi Ho. destruct (handed_next w o w' c i Hr Hs Hi) as (u&cnt&Hc&->&_).
    destruct (iv_owns _ _ _ (reachable_inv E T w Hr) h c _ Ho) as (u'&cnt'&Hc'&Hb).
    assert (cnt' = cnt) as -> by congruence. lia.
  Qed.
  Lemma handed_not_held' w o w' c i h : reachable E T w -> step E T w o w' -> handed w o c i -> ~ holder_has w h c i.
  Proof.
    intros Hr Hs Hi Hh. apply (handed_not_held w o w' c i h Hr Hs Hi). destruct h as [k|k]; cbn in *.
    - destruct Hh as (g&Hk&[n Hn]). exists g. split; [done|]. by eapply arena_get_dispatch.
    - destruct Hh as (t&Hk&[[n Hn]|Ha]); exists t; (split; [done|]); [left; by eapply arena_get_dispatch|by right].
  Qed.
  Lemma held_never_handed w h c i w2 o w3 j : reachable E T w -> holder_has w h c i ->
    rtc any_step w w2 -> step E T w2 o w3 -> handed w2 o c j -> (i < j)%N.
  Proof.
    intros Hr Hh Hs H2 Hj. assert (owns w h c i) as Ho.
    { destruct h as [k|k]; cbn in *.
      - destruct Hh as (g&Hk&[n Hn]). exists g. split; [done|]. by eapply arena_get_dispatch.
      - destruct Hh as (t&Hk&[[n Hn]|Ha]); exists t; (split; [done|]); [left; by eapply arena_get_dispatch|by right]. }
    destruct (iv_owns _ _ _ (reachable_inv E T w Hr) h c i Ho) as (u&cnt&Hc&Hb).
    destruct (steps_ctx w w2 Hr Hs) as [Hr2 Hle]. destruct (Hle _ _ _ Hc) as (cnt2&Hc2&Hb2).
    destruct (handed_next w2 o w3 c j Hr2 H2 Hj) as (u'&cnt'&Hc'&->&_). assert (cnt' = cnt2) as -> by congruence. lia.
  Qed.
  Lemma give_up_frame (w w' : world (D:=D)) k : step E T w (OGiveUp k) w' ->
    w_ctx w' = w_ctx w /\ (forall kg, w_graphs w' !! kg = w_graphs w !! kg) /\
    (forall k', k' <> k -> w_trans w' !! k' = w_trans w !! k') /\ w_trans w' !! k = None.
  Proof.
    intros Hs. inversion Hs; subst; cbn. split; [done|]. split; [done|].
    split; [intros k' Hne; by rewrite lookup_delete_ne|by rewrite lookup_delete].
  Qed.

  (** C35, C37, C39, C40 *)
  Lemma two_graphs_nodes g g2 t L : two_graphs g g2 t L -> nodes_are g2 (gmap_of g2).
  Proof.
    intros (w&lg&kg&kg2&k&c&Hl&_&_&Hg2&_) i. apply (gmap_of_get E).
    by apply (iv_graph _ _ _ (proj1 (lreach_inv E T w lg Hl)) kg2 c g2).
  Qed.
  Lemma final_unfilled g t s : e_dbg E = true -> history E T g t s -> ts_res s <> ∅ -> commit E t g = Panicked PUnfilled g.
  Proof.
    intros Hd Hh Hne. destruct (history_ok E T g t s Hh) as (_&_&_&Hctx&Hr&_).
    unfold commit, bindM, do_commit. rewrite Hd, Hctx, N.eqb_refl. cbn [andb negb].
    case_bool_decide as Ha; [|done]. destruct Hne. apply map_eq. intros i. rewrite lookup_empty.
    pose proof (tr_res _ _ _ Hr i) as Hi. rewrite Ha, decide_False in Hi; [done|apply not_elem_of_nil].
  Qed.
  Lemma open_fill_untyped_occupied cnt t L s i n n0 : T -> open_trans cnt t L -> ts_run ts_empty L = Some s ->
    ts_new s !! i = Some n0 -> nvar n0 = nvar n -> exists t', trans_fill_back_untyped i n t = Panicked PFillOccupied t'.
  Proof.
    intros HT Ho Hs Hi Hv. pose proof (open_is cnt t L s Ho Hs) as (In&_). rewrite <- In in Hi.
    destruct Ho as (w&lg&k&c&u&Hl&Hk&_). destruct (iv_trans _ _ _ (proj1 (lreach_inv E T w lg Hl)) k c t Hk) as (Htw&_).
    unfold trans_fill_back_untyped, arena_fill_back_untyped, bindM, getM, putM, cont_insert.
    assert (omap_get i (cont (t_inc t) (nvar n)) = Some n0) as Hc.
    { destruct (arena_get_dispatch _ _ _ Hi) as [d Hd]. pose proof (tw_typed _ _ _ Htw HT i n0 d Hi Hd) as <-.
      unfold arena_get in Hi. rewrite Hd in Hi. by rewrite <- Hv. }
    change (cont (set_disp (t_inc t) (omap_insert i (nvar n) (a_disp (t_inc t)))) (nvar n)) with (cont (t_inc t) (nvar n)).
    rewrite Hc. eauto.
  Qed.
  Lemma final_early_panics g t s : history E T g t s ->
    (e_dbg E = true /\ ts_res s <> ∅) \/ redir_bad (ts_redir s) ->
    exists p, commit E t g = Panicked p g.
  Proof.
    intros Hh [[Hd Hne]|Hlo]; [exists PUnfilled; by apply (final_unfilled g t s)|].
    destruct (decide (e_dbg E = true /\ ts_res s <> ∅)) as [[Hd Hne]|Hg]; [exists PUnfilled; by apply (final_unfilled g t s)|].
    exists PLoop. apply (final_loop_panics E T g t s Hh); [|done..]. destruct (e_dbg E); [right|by left].
    destruct (decide (ts_res s = ∅)); tauto.
  Qed.
End tfinal.
