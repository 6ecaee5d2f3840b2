(** * Histories of one transaction *)
From Verif Require Export TransThms.

Section hist.
  Context {D : Type} (E : env).
  Implicit Types (t : trans D) (s : tspec D) (n : node D) (c : tcall D) (g : graph D) (L : list (tevent D)).

  (** Rust's types and the usage rule for [fill_back_untyped] *)
  Definition tc_ok t c : Prop :=
    match c with
    | CInsert n | CFill _ n => node_ok E n
    | CFillUntyped i n => node_ok E n /\ i ∈ t_alloc t
    | _ => True
    end.
  (** the graph holds no left-over reservation *)
  Definition tight g : Prop :=
    forall i, is_Some (arena_dispatch (g_nodes g) i) -> is_Some (graph_get g i).

  (** [t_hist u cnt t L]: transaction [t] of context [u] was built by the calls [L], and
      the counter of the context is at [cnt] (other users may have advanced it) *)
  Inductive t_hist (u : N) : idx -> trans D -> list (tevent D) -> Prop :=
  | th_new cnt : t_hist u cnt (trans_new E u) []
  | th_time cnt cnt' t L : t_hist u cnt t L -> (cnt <= cnt')%N -> t_hist u cnt' t L
  | th_call cnt t L c cnt' t' i : t_hist u cnt t L -> tc_ok t c -> (allocates c = true -> cnt + 1 < usize_mod)%N ->
      tc_run E c (cnt, t) = Done (cnt', t') i -> t_hist u cnt' t' (L ++ [EvCall i c])
  | th_merge cnt t L g t' : t_hist u cnt t L -> WF E g -> tight g ->
      (forall i, gowned g i -> (i <= cnt)%N /\ ~ towned t i) ->
      trans_merge g t = Done t' tt -> t_hist u cnt t' (L ++ [EvMerge (gmap_of g)]).

  Lemma ts_run_app s L e : ts_run s (L ++ [e]) = match ts_run s L with Some s' => ts_event s' e | None => None end.
  Proof.
    revert s. induction L as [|e' L IH]; intros s; cbn.
    - by destruct (ts_event s e).
    - destruct (ts_event s e'); [apply IH|done].
  Qed.
  Lemma ts_call_idx i j s c : allocates c = false -> ts_call i s c = ts_call j s c.
  Proof. by destruct c. Qed.

  Definition ts_known s i : Prop := is_Some (ts_new s !! i) \/ is_Some (ts_res s !! i).
  Lemma ts_put_known s i n j : ts_known (ts_put s i n) j -> j = i \/ ts_known s j.
  Proof.
    unfold ts_known. cbn. destruct (decide (j = i)) as [->|Hne]; [by left|].
    rewrite lookup_insert_ne, lookup_delete_ne by done. tauto.
  Qed.
  Lemma ts_call_known i s c s' j :
    ts_call i s c = Some s' -> (forall k n, c = CFillUntyped k n -> ts_known s k) ->
    ts_known s' j -> (allocates c = true /\ j = i) \/ ts_known s j.
  Proof.
    destruct c as [n|v| |k n|k n|k|k f|k f|o z|o z]; cbn; intros H Hu.
    - injection H as <-. intros [->|?]%ts_put_known; tauto.
    - injection H as <-. unfold ts_known. cbn. intros [?|Hj]; [by right; left|].
      apply lookup_insert_is_Some in Hj as [->|[_ ?]]; [by left|by right; right].
    - injection H as <-. unfold ts_known. cbn. intros [?|Hj]; [by right; left|].
      apply lookup_insert_is_Some in Hj as [->|[_ ?]]; [by left|by right; right].
    - destruct (ts_res s !! k) as [[v|]|] eqn:Hk; try done. case_decide; [|done]. injection H as <-.
      intros [->|?]%ts_put_known; [|by right]. right. right. by rewrite Hk.
    - injection H as <-. intros [->|?]%ts_put_known; [|by right]. right. by eapply Hu.
    - right. destruct (ts_new s !! k) as [n|] eqn:Hn; [|destruct (ts_res s !! k) as [r|] eqn:Hr].
      + injection H as <-. destruct H0 as [Hj|Hj]; cbn in Hj; [|by right]. apply lookup_delete_is_Some in Hj as [_ ?]. by left.
      + injection H as <-. destruct H0 as [Hj|Hj]; cbn in Hj; [by left|]. apply lookup_delete_is_Some in Hj as [_ ?]. by right.
      + injection H as <-. by destruct H0; [left|right].
    - right. destruct (ts_new s !! k) as [n|] eqn:Hn.
      + destruct (f n) as [n' []|]; [|done]. injection H as <-. destruct (ts_put_known _ _ _ _ H0) as [->|]; [|done].
        left. by rewrite Hn.
      + injection H as <-. by destruct H0; [left|right].
    - right. destruct (ts_new s !! k) as [n|] eqn:Hn.
      + destruct (f n) as [n'|]; [|done]. injection H as <-. destruct (ts_put_known _ _ _ _ H0) as [->|]; [|done].
        left. by rewrite Hn.
      + injection H as <-. by destruct H0; [left|right].
    - injection H as <-. by right.
    - injection H as <-. by right.
  Qed.

  Lemma tc_ok_spec t s c : trep E t s -> tc_ok t c -> call_ok E s c.
  Proof.
    intros Hr. destruct c; cbn; try done. intros [? Hi]. split; [done|]. rewrite (tr_res _ _ _ Hr), decide_True by done. eauto.
  Qed.

  Lemma trep_merge t s g t' :
    trep E t s -> WF E g -> tight g -> (forall i, gowned g i -> ~ towned t i) -> trans_merge g t = Done t' tt ->
    exists s', ts_event s (EvMerge (gmap_of g)) = Some s' /\ trep E t' s'.
  Proof.
    intros [] Hwf Htight Hdis. unfold trans_merge. destruct (_ =? _)%N; [|done]. intros [= <-].
    eexists. split; [done|].
    assert (arena_disj (t_inc t) (g_nodes g)) as Hd.
    { intros i Hi. apply eq_None_not_Some. intros Hs. apply (Hdis i Hi). by left. }
    assert (forall i, i ∈ t_alloc t -> arena_dispatch (g_nodes g) i = None) as Ha.
    { intros i Hi. apply eq_None_not_Some. intros Hs. apply (Hdis i Hs). by right. }
    split; cbn [t_inc t_alloc with_inc ts_new ts_res ts_del ts_mut ts_upd ts_redir_all ts_redir]; try done.
    - apply arena_merge_ok; [done|apply Hwf|done].
    - intros i. rewrite (arena_merge_get E), lookup_union, (gmap_of_get E), tr_new by (done || apply Hwf).
      unfold graph_get. by destruct (arena_get (g_nodes g) i), (arena_get (t_inc t) i).
    - intros i. rewrite tr_res. case_decide as Hi; [|done]. f_equal.
      rewrite (arena_merge_dispatch E) by apply Hwf. by rewrite Ha.
    - intros i Hi. rewrite (arena_merge_get E) by (done || apply Hwf). unfold arena_get at 1.
      rewrite (Ha i Hi). by apply tr_excl.
    - intros i. rewrite (arena_merge_dispatch E), (arena_merge_get E) by (done || apply Hwf).
      destruct (arena_dispatch (g_nodes g) i) as [d|] eqn:Hi.
      + intros _ Hn. destruct (Htight i) as [n' Hn']; [by rewrite Hi|]. unfold graph_get in Hn'. by rewrite Hn' in Hn.
      + unfold arena_get at 1. rewrite Hi. apply tr_stale.
  Qed.

  Lemma t_hist_rep u cnt t L :
    t_hist u cnt t L ->
    exists s, ts_run ts_empty L = Some s /\ trep E t s /\ t_ctx t = u /\ forall i, ts_known s i -> (i <= cnt)%N.
  Proof.
    induction 1 as [cnt|cnt cnt' t L Hh (s&Hs&Hr&Hu&Hk) Hle|cnt t L c cnt' t' i Hh (s&Hs&Hr&Hu&Hk) Hok Hc Hrun
                   |cnt t L g t' Hh (s&Hs&Hr&Hu&Hk) Hwf Htight Hdis Hm].
    - exists ts_empty. split; [done|]. split; [apply trep_new|]. split; [done|]. by intros i [[? [=]]|[? [=]]].
    - exists s. repeat (split; [done|]). intros i Hi. apply Hk in Hi. lia.
    - assert (forall j, (j = cnt + 1)%N -> ts_new s !! j = None /\ ts_res s !! j = None) as Hfresh.
      { intros j ->. split; apply eq_None_not_Some; intros Hj.
        - assert (cnt + 1 <= cnt)%N by (apply Hk; by left). lia.
        - assert (cnt + 1 <= cnt)%N by (apply Hk; by right). lia. }
      destruct (Hfresh _ eq_refl) as [Hf1 Hf2].
      pose proof (tc_run_spec E c cnt t s Hr (tc_ok_spec _ _ _ Hr Hok) Hc Hf1 Hf2) as Hspec.
      rewrite Hrun in Hspec. destruct Hspec as (s'&Hs'&Hr'&Hi).
      exists s'. rewrite ts_run_app, Hs. cbn [ts_event].
      assert (ts_call i s c = Some s') as Hs''.
      { destruct (allocates c) eqn:Ha; [by destruct Hi as [-> _]|]. by rewrite (ts_call_idx _ (cnt + 1)%N). }
      split; [done|]. split; [done|]. split.
      + rewrite <- Hu. clear -Hrun. destruct c; cbn [tc_run] in Hrun.
        * unfold trans_insert in Hrun. destruct (arena_insert E n (cnt, t_inc t)) as [[? ?] ?|? [? ?]]; [|done]. by injection Hrun as <- <- <-.
        * unfold trans_alloc in Hrun. destruct (arena_alloc E v (cnt, t_inc t)) as [[? ?] ?|? [? ?]]; [|done]. by injection Hrun as <- <- <-.
        * unfold trans_alloc_untyped in Hrun. destruct (arena_alloc_untyped E (cnt, t_inc t)) as [[? ?] ?|? [? ?]]; [|done]. by injection Hrun as <- <- <-.
        * unfold trans_fill_back in Hrun. destruct (arena_fill_back i0 n (t_inc t)); [|done]. by injection Hrun as <- <- <-.
        * unfold trans_fill_back_untyped in Hrun. destruct (arena_fill_back_untyped i0 n (t_inc t)); [|done]. by injection Hrun as <- <- <-.
        * injection Hrun as <- <- <-. rewrite trans_remove_cases. repeat case_match; done.
        * unfold trans_mutate in Hrun. repeat case_match; simplify_eq; done.
        * unfold trans_update in Hrun. repeat case_match; simplify_eq; done.
        * by injection Hrun as <- <- <-.
        * by injection Hrun as <- <- <-.
      + intros j Hj. apply (ts_call_known _ _ _ _ _ Hs'') in Hj.
        * destruct (allocates c); [|subst; destruct Hj as [[? _]|Hj]; [done|by apply Hk]].
          destruct Hi as [-> ->]. destruct Hj as [[_ ->]|Hj]; [lia|]. apply Hk in Hj. lia.
        * intros k n ->. destruct Hok as [_ Hin]. right. rewrite (tr_res _ _ _ Hr), decide_True by done. eauto.
    - destruct (trep_merge t s g t' Hr Hwf Htight) as (s'&Hs'&Hr'); [|done|].
      { intros i Hi. by apply Hdis. }
      exists s'. rewrite ts_run_app, Hs. split; [done|]. split; [done|]. split.
      + unfold trans_merge in Hm. case_match; [|done]. by injection Hm as <-.
      + intros i. cbn in Hs'. injection Hs' as <-. unfold ts_known. cbn. rewrite lookup_union_is_Some, (gmap_of_get E) by done.
        intros [[[n Hi]|Hi]|Hi]; [|by apply Hk; left|by apply Hk; right].
        apply Hdis. unfold gowned. by eapply arena_get_dispatch.
  Qed.

  (** every further call: panics exactly if the specification says so *)
  Lemma t_hist_call u cnt t L c :
    t_hist u cnt t L -> tc_ok t c -> (allocates c = true -> cnt + 1 < usize_mod)%N ->
    exists s, ts_run ts_empty L = Some s /\ trep E t s /\
      match tc_run E c (cnt, t) with
      | Done (cnt', t') i => exists s', ts_call i s c = Some s' /\ trep E t' s' /\
          (if allocates c then i = (cnt + 1)%N /\ cnt' = (cnt + 1)%N else cnt' = cnt)
      | Panicked p (cnt', t') => (forall i, ts_call i s c = None) /\ cnt' = cnt
      end.
  Proof.
    intros Hh Hok Hc. destruct (t_hist_rep u cnt t L Hh) as (s&Hs&Hr&_&Hk). exists s. split; [done|]. split; [done|].
    assert (ts_new s !! (cnt + 1)%N = None /\ ts_res s !! (cnt + 1)%N = None) as [Hf1 Hf2].
    { split; apply eq_None_not_Some; intros Hj.
      - assert (cnt + 1 <= cnt)%N by (apply Hk; by left). lia.
      - assert (cnt + 1 <= cnt)%N by (apply Hk; by right). lia. }
    pose proof (tc_run_spec E c cnt t s Hr (tc_ok_spec _ _ _ Hr Hok) Hc Hf1 Hf2) as Hspec.
    destruct (tc_run E c (cnt, t)) as [[cnt' t'] i|p [cnt' t']].
    - destruct Hspec as (s'&Hs'&Hr'&Hi). exists s'. split; [|done].
      destruct (allocates c) eqn:Ha; [by destruct Hi as [-> _]|]. by rewrite (ts_call_idx _ (cnt + 1)%N).
    - destruct Hspec as [Hs' ->]. split; [|done]. intros i. destruct (allocates c) eqn:Ha; [by destruct c|].
      by rewrite (ts_call_idx _ (cnt + 1)%N).
  Qed.

  (** ** The empty transaction *)
  Lemma arena_empty (a : arena D) : arena_ok E a -> (forall i, arena_dispatch a i = None) -> a = arena_new (D:=D) E.
  Proof.
    intros (Hd&Hl&Hc) Hn. destruct a as [ds cs]. unfold arena_new. cbn in *. f_equal.
    - destruct ds as [|[i d] ds]; [done|]. specialize (Hn i). unfold arena_dispatch in Hn. cbn in Hn.
      by rewrite decide_True in Hn.
    - rewrite <- Hl. symmetry. apply replicate_as_elem_of. split; [done|]. intros x Hx.
      apply elem_of_list_lookup in Hx as [d Hx]. destruct (Hc d x Hx) as [_ Hin]. destruct x as [|[i n] x]; [done|].
      assert (arena_dispatch (Arena ds cs) i = Some d) by (eapply Hin; left). specialize (Hn i). unfold arena_dispatch in *. cbn in *. congruence.
  Qed.
  Lemma arena_merge_new (a : arena D) : arena_ok E a -> arena_merge a (arena_new E) = a.
  Proof.
    intros (_&Hl&_). destruct a as [ds cs]. unfold arena_merge, arena_new. cbn in *. f_equal.
    rewrite <- Hl. clear. induction cs as [|c cs IH]; cbn; [done|]. f_equal. apply IH.
  Qed.
  Lemma empty_trans t s : trep E t s -> ts_is_empty s -> t = trans_new E (t_ctx t).
  Proof.
    intros [] (Hr&Hn&Hd&Hm&Hu&Hra&Hre).
    assert (t_alloc t = []) as Hal.
    { destruct (t_alloc t) as [|i l] eqn:Hl; [done|]. specialize (tr_res i).
      rewrite Hr, lookup_empty, decide_True in tr_res by left. done. }
    assert (t_inc t = arena_new E) as Hi.
    { apply arena_empty; [done|]. intros i. apply eq_None_not_Some. intros Hs.
      apply tr_stale in Hs; [|by rewrite <- tr_new, Hn]. rewrite Hal in Hs. by apply elem_of_nil in Hs. }
    destruct t as [u al inc de mu up ra re]. cbn [t_ctx t_alloc t_inc t_dec t_mut t_upd t_redir_all t_redir] in *. unfold trans_new. f_equal; (done || (etrans; [eassumption|done])).
  Qed.
  Lemma commit_new_trans g u : WF E g -> u = g_ctx g -> commit E (trans_new E u) g = Done g tt.
  Proof.
    intros Hwf ->. unfold commit, do_commit, bindM at 1. cbn [t_ctx t_alloc trans_new].
    rewrite N.eqb_refl, bool_decide_true by done. cbn [negb]. rewrite andb_false_r.
    unfold commit_body. cbn [t_redir t_inc t_mut t_upd t_redir_all t_dec trans_new].
    unfold merge_nodes. rewrite arena_new_items.
    unfold bindM, redirect_links_vec, liftM, retM, getM, bindM. cbn [fa_build fa_init fold_left redirect_loop mfor].
    unfold retM, apply_bidirectional_links, bindM. cbn. unfold with_nodes. rewrite (arena_merge_new _ (wf_arena _ _ Hwf)).
    by destruct g.
  Qed.
  Lemma commit_empty t s g : trep E t s -> WF E g -> t_ctx t = g_ctx g -> trans_is_empty t = true -> commit E t g = Done g tt.
  Proof.
    intros Hr Hwf Hc He. apply (trans_is_empty_spec E t s Hr) in He. rewrite (empty_trans t s Hr He). by apply commit_new_trans.
  Qed.
End hist.
