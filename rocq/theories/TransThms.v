(** * The transaction calls refine their specification *)
From Verif Require Export TransSpec CommitThms.

Section trans.
  Context {D : Type} (E : env).
  Implicit Types (t : trans D) (s : tspec D) (n : node D) (c : tcall D).

  (** the modelled call; calls that hand out no index return 0 *)
  Definition tc_run c : M (idx * trans D) idx :=
    match c with
    | CInsert n => trans_insert E n
    | CAlloc v => trans_alloc E v
    | CAllocUntyped => trans_alloc_untyped E
    | CFill i n => fun '(cnt, t) => match trans_fill_back i n t with
        | Done t' _ => Done (cnt, t') 0%N | Panicked p t' => Panicked p (cnt, t') end
    | CFillUntyped i n => fun '(cnt, t) => match trans_fill_back_untyped i n t with
        | Done t' _ => Done (cnt, t') 0%N | Panicked p t' => Panicked p (cnt, t') end
    | CRemove i => fun '(cnt, t) => Done (cnt, trans_remove i t) 0%N
    | CMutate i f => fun '(cnt, t) => match trans_mutate i f t with
        | Done t' _ => Done (cnt, t') 0%N | Panicked p t' => Panicked p (cnt, t') end
    | CUpdate i f => fun '(cnt, t) => match trans_update i f t with
        | Done t' _ => Done (cnt, t') 0%N | Panicked p t' => Panicked p (cnt, t') end
    | CRedirect o z => fun '(cnt, t) => Done (cnt, trans_redirect o z t) 0%N
    | CRedirectAll o z => fun '(cnt, t) => Done (cnt, trans_redirect_all o z t) 0%N
    end.

  Record trep t s : Prop := {
    tr_ok : arena_ok E (t_inc t);
    tr_nd : NoDup (t_alloc t);
    tr_new : forall i, ts_new s !! i = arena_get (t_inc t) i;
    tr_res : forall i, ts_res s !! i = if decide (i ∈ t_alloc t) then Some (arena_dispatch (t_inc t) i) else None;
    tr_excl : forall i, i ∈ t_alloc t -> arena_get (t_inc t) i = None;
    tr_stale : forall i, is_Some (arena_dispatch (t_inc t) i) -> arena_get (t_inc t) i = None -> i ∈ t_alloc t;
    tr_del : t_dec t = ts_del s;
    tr_mut : t_mut t = ts_mut s;
    tr_upd : t_upd t = ts_upd s;
    tr_redir_all : t_redir_all t = ts_redir_all s;
    tr_redir : t_redir t = ts_redir s }.

  Lemma trep_new ctx : trep (trans_new E ctx) ts_empty.
  Proof.
    split; try done; cbn.
    - apply arena_new_ok.
    - constructor.
    - by intros i [? [=]].
  Qed.
  Lemma trep_txn t s : trep t s -> trans_txn t = ts_txn s.
  Proof.
    intros []. unfold trans_txn, ts_txn. f_equal; try done. apply map_eq. intros i.
    by rewrite (amap_get E), tr_new0.
  Qed.

  (** side conditions Rust's types and the usage rules give *)
  Definition call_ok s c : Prop :=
    match c with
    | CInsert n | CFill _ n => node_ok E n
    | CFillUntyped i n => node_ok E n /\ is_Some (ts_res s !! i)
    | _ => True
    end.

  Lemma put_trep t s i n a' :
    trep t s -> arena_get (t_inc t) i = None -> arena_put E (t_inc t) i n a' ->
    trep (with_alloc (with_inc t a') (oset_del i (t_alloc t))) (ts_put s i n).
  Proof.
    intros [] Hi Hput. split; cbn [t_inc t_alloc with_alloc with_inc ts_put ts_new ts_res ts_del ts_mut ts_upd ts_redir_all ts_redir]; try done.
    - apply Hput.
    - by apply oset_del_NoDup.
    - intros j. rewrite (ap_get _ _ _ _ _ Hput). case_decide; [subst; by rewrite lookup_insert|].
      by rewrite lookup_insert_ne.
    - intros j. rewrite (ap_disp _ _ _ _ _ Hput). destruct (decide (j = i)) as [->|Hne].
      + rewrite lookup_delete, decide_False; [done|]. rewrite oset_del_elem by done. naive_solver.
      + rewrite lookup_delete_ne, tr_res0 by done. apply decide_ext. rewrite oset_del_elem by done. naive_solver.
    - intros j. rewrite oset_del_elem by done. intros [Hj Hne]. rewrite (ap_get _ _ _ _ _ Hput).
      rewrite decide_False by done. by apply tr_excl0.
    - intros j. rewrite (ap_disp _ _ _ _ _ Hput), (ap_get _ _ _ _ _ Hput). case_decide; [done|].
      intros H1 H2. rewrite oset_del_elem by done. naive_solver.
  Qed.
  Lemma replace_trep t s i n n' a' :
    trep t s -> arena_get (t_inc t) i = Some n -> arena_ok E a' ->
    (forall j, arena_dispatch a' j = arena_dispatch (t_inc t) j) ->
    (forall j, arena_get a' j = if decide (j = i) then Some n' else arena_get (t_inc t) j) ->
    trep (with_inc t a') (ts_put s i n').
  Proof.
    intros [] Hi Hok Hd Hg.
    assert (i ∉ t_alloc t) as Hna. { intros Hin. rewrite (tr_excl0 i Hin) in Hi. done. }
    split; cbn [t_inc t_alloc with_inc ts_put ts_new ts_res ts_del ts_mut ts_upd ts_redir_all ts_redir]; try done.
    - intros j. rewrite Hg. case_decide; [subst; by rewrite lookup_insert|]. by rewrite lookup_insert_ne.
    - intros j. rewrite Hd. destruct (decide (j = i)) as [->|Hne].
      + rewrite lookup_delete. by rewrite decide_False.
      + by rewrite lookup_delete_ne, tr_res0 by done.
    - intros j Hj. rewrite Hg. case_decide; [congruence|]. by apply tr_excl0.
    - intros j. rewrite Hd, Hg. case_decide; [done|]. apply tr_stale0.
  Qed.

  Lemma tc_run_spec c cnt t s :
    trep t s -> call_ok s c -> (allocates c = true -> cnt + 1 < usize_mod)%N ->
    ts_new s !! (cnt + 1)%N = None -> ts_res s !! (cnt + 1)%N = None ->
    match tc_run c (cnt, t) with
    | Done (cnt', t') i => exists s', ts_call (cnt + 1) s c = Some s' /\ trep t' s' /\
        (if allocates c then i = (cnt + 1)%N /\ cnt' = (cnt + 1)%N else cnt' = cnt)
    | Panicked p (cnt', t') => ts_call (cnt + 1) s c = None /\ cnt' = cnt
    end.
  Proof.
    intros Ht Hc Hcnt Hfn Hfr. pose proof Ht as [].
    assert (arena_get (t_inc t) (cnt + 1)%N = None) as Hget by by rewrite <- tr_new0.
    assert ((cnt + 1)%N ∉ t_alloc t) as Hna. { intros Hin. rewrite tr_res0, decide_True in Hfr by done. done. }
    assert (arena_dispatch (t_inc t) (cnt + 1)%N = None) as Hdisp.
    { apply eq_None_not_Some. intros Hs. apply Hna. by apply tr_stale0. }
    destruct c as [n|v| |i n|i n|i|i f|i f|o z|o z]; cbn [tc_run ts_call allocates call_ok] in *; try specialize (Hcnt eq_refl).
    - unfold trans_insert.
      destruct (arena_insert_spec E cnt (t_inc t) n tr_ok0 Hc Hcnt Hdisp) as (a'&->&Hput).
      eexists. split; [done|]. split; [|done].
      pose proof (put_trep t s _ n a' Ht Hget Hput) as Hp.
      unfold with_alloc, with_inc in *. cbn in *. rewrite oset_del_notin in Hp; done.
    - unfold trans_alloc, arena_alloc. rewrite dist_alloc_ok by done. rewrite Hdisp.
      eexists. split; [done|]. split; [|done].
      destruct (set_disp_spec E (t_inc t) (cnt + 1)%N v tr_ok0 Hget) as (Hok&Hd&Hg&_).
      split; cbn [t_inc t_alloc with_alloc with_inc ts_reserve ts_new ts_res ts_del ts_mut ts_upd ts_redir_all ts_redir]; try done.
      + by apply oset_insert_NoDup.
      + intros j. by rewrite Hg.
      + intros j. rewrite Hd. destruct (decide (j = (cnt + 1)%N)) as [->|Hne].
        * rewrite lookup_insert, decide_True; [done|]. apply oset_insert_elem. by left.
        * rewrite lookup_insert_ne, tr_res0 by done. apply decide_ext. rewrite oset_insert_elem. naive_solver.
      + intros j. rewrite Hg, oset_insert_elem. intros [->|?]; [done|by apply tr_excl0].
      + intros j. rewrite Hg, Hd, oset_insert_elem. case_decide; [by left|]. right. by apply tr_stale0.
    - unfold trans_alloc_untyped, arena_alloc_untyped. rewrite dist_alloc_ok by done.
      eexists. split; [done|]. split; [|done].
      split; cbn [t_inc t_alloc with_alloc with_inc ts_reserve ts_new ts_res ts_del ts_mut ts_upd ts_redir_all ts_redir]; try done.
      + by apply oset_insert_NoDup.
      + intros j. destruct (decide (j = (cnt + 1)%N)) as [->|Hne].
        * rewrite lookup_insert, decide_True; [by rewrite Hdisp|]. apply oset_insert_elem. by left.
        * rewrite lookup_insert_ne, tr_res0 by done. apply decide_ext. rewrite oset_insert_elem. naive_solver.
      + intros j. rewrite oset_insert_elem. intros [->|?]; [done|by apply tr_excl0].
      + intros j. rewrite oset_insert_elem. right. by apply tr_stale0.
    - unfold trans_fill_back. pose proof (arena_fill_back_spec E (t_inc t) i n tr_ok0 Hc) as Hs.
      destruct (arena_fill_back i n (t_inc t)) as [a' []|p a'].
      + destruct Hs as (Hd&Hg&Hput). assert (i ∈ t_alloc t) as Hin by (apply tr_stale0; [rewrite Hd; eauto|done]).
        rewrite tr_res0, decide_True, Hd by done. rewrite decide_True by done.
        eexists. split; [done|]. split; [|done]. by apply put_trep.
      + split; [|done]. rewrite tr_res0. case_decide as Hin; [|done].
        destruct Hs as [(->&_)|[(d&->&Hne&_)|(_&[? Hg]&_)]]; [done|by rewrite decide_False|].
        rewrite (tr_excl0 i Hin) in Hg. done.
    - destruct Hc as [Hn Hi]. rewrite tr_res0 in Hi. case_decide as Hin; [|by destruct Hi].
      unfold trans_fill_back_untyped.
      destruct (arena_fill_back_untyped_spec E (t_inc t) i n tr_ok0 Hn (tr_excl0 i Hin)) as (a'&->&Hput).
      eexists. split; [done|]. split; [|done]. apply put_trep; try done. by apply tr_excl0.
    - rewrite trans_remove_cases, tr_new0, tr_res0.
      pose proof (fun j => arena_remove_dispatch E (t_inc t) i j tr_ok0) as Hd.
      pose proof (fun j => arena_remove_get E (t_inc t) i j tr_ok0) as Hg.
      pose proof (arena_remove_ok E (t_inc t) i tr_ok0) as Hok.
      destruct (arena_get (t_inc t) i) as [n|] eqn:Hi; [|case_decide as Hin].
      + assert (i ∉ t_alloc t) as Hni. { intros Hin. rewrite (tr_excl0 i Hin) in Hi. done. }
        eexists. split; [done|]. split; [|done].
        split; cbn [t_inc t_alloc with_alloc with_inc with_dec ts_new ts_res ts_del ts_mut ts_upd ts_redir_all ts_redir]; try done.
        * intros j. rewrite Hg. case_decide; [subst; by rewrite lookup_delete|]. by rewrite lookup_delete_ne.
        * intros j. rewrite Hd, tr_res0. destruct (decide (j = i)) as [->|]; [|done]. by case_decide.
        * intros j Hj. rewrite Hg. case_decide; [done|]. by apply tr_excl0.
        * intros j. rewrite Hd, Hg. case_decide; [by intros [? ?]|]. apply tr_stale0.
      + eexists. split; [done|]. split; [|done].
        split; cbn [t_inc t_alloc with_alloc with_inc with_dec ts_new ts_res ts_del ts_mut ts_upd ts_redir_all ts_redir]; try done.
        * by apply oset_del_NoDup.
        * intros j. rewrite Hg. case_decide; [subst; by rewrite tr_new0|]. done.
        * intros j. rewrite Hd. destruct (decide (j = i)) as [->|Hne].
          -- rewrite lookup_delete, decide_False; [done|]. rewrite oset_del_elem by done. naive_solver.
          -- rewrite lookup_delete_ne, tr_res0 by done. apply decide_ext. rewrite oset_del_elem by done. naive_solver.
        * intros j. rewrite oset_del_elem by done. intros [Hj Hne]. rewrite Hg. case_decide; [done|]. by apply tr_excl0.
        * intros j. rewrite Hd, Hg, oset_del_elem by done. case_decide; [by intros [? ?]|].
          intros H1 H2. split; [done|by apply tr_stale0].
      + eexists. split; [done|]. split; [|done].
        split; cbn [t_inc t_alloc with_alloc with_inc with_dec t_dec ts_new ts_res ts_del ts_mut ts_upd ts_redir_all ts_redir]; try done.
        * intros j. rewrite Hg. case_decide; [subst; by rewrite tr_new0|]. done.
        * intros j. rewrite Hd, tr_res0. destruct (decide (j = i)) as [->|]; [|done]. by case_decide.
        * intros j Hj. rewrite Hg. case_decide; [done|]. by apply tr_excl0.
        * intros j. rewrite Hd, Hg. case_decide; [by intros [? ?]|]. apply tr_stale0.
        * unfold oset_insert. by rewrite tr_del0.
    - unfold trans_mutate. rewrite tr_new0. destruct (arena_get (t_inc t) i) as [n|] eqn:Hi.
      + rewrite (proj2 (arena_contains_get _ _)) by by rewrite Hi.
        destruct (f n) as [n' []|p n'] eqn:Hf; [|done].
        eexists. split; [done|]. split; [|done]. eapply replace_trep; [done|done|by apply arena_set_ok|..].
        * intros j. apply arena_set_dispatch.
        * intros j. by eapply arena_set_get.
      + rewrite (proj2 (arena_contains_false _ _)) by done. eexists. split; [done|]. split; [|done].
        split; cbn; try done. by rewrite tr_mut0.
    - unfold trans_update. rewrite tr_new0. destruct (arena_get (t_inc t) i) as [n|] eqn:Hi.
      + rewrite (proj2 (arena_contains_get _ _)) by by rewrite Hi.
        assert (wp (arena_update_with i f) (t_inc t)
          (fun _ a' => exists n', f n = Ok n' /\ trep (with_inc t a') (ts_put s i n'))
          (fun p _ => exists p, f n = Err p)) as Hwp.
        { apply (arena_update_wp E); [done|..].
          - intros n0 n' a' Hi' Hf Hok Hd Hg. rewrite Hi in Hi'. injection Hi' as <-. exists n'. split; [done|].
            by eapply replace_trep.
          - intros p _ [?|(n0&Hi'&Hf)]; [congruence|]. rewrite Hi in Hi'. injection Hi' as <-. eauto. }
        unfold wp in Hwp. destruct (arena_update_with i f (t_inc t)) as [a' []|p a'].
        * destruct Hwp as (n'&->&Hr). eexists. split; [done|]. by split.
        * by destruct Hwp as [p' ->].
      + rewrite (proj2 (arena_contains_false _ _)) by done. eexists. split; [done|]. split; [|done].
        split; cbn; try done. by rewrite tr_upd0.
    - eexists. split; [done|]. split; [|done]. split; cbn; try done. by rewrite tr_redir0.
    - eexists. split; [done|]. split; [|done]. split; cbn; try done. by rewrite tr_redir_all0.
  Qed.

  (** is_empty *)
  Lemma trans_is_empty_spec t s : trep t s -> trans_is_empty t = true <-> ts_is_empty s.
  Proof.
    intros []. unfold trans_is_empty, ts_is_empty.
    rewrite !andb_true_iff, !bool_decide_eq_true, !Nat.eqb_eq, arena_len_items.
    rewrite tr_del0, tr_mut0, tr_upd0, tr_redir0, tr_redir_all0.
    assert (t_alloc t = [] <-> ts_res s = ∅) as ->.
    { split.
      - intros Hn. apply map_eq. intros i. by rewrite tr_res0, Hn, decide_False, lookup_empty by apply not_elem_of_nil.
      - intros Hn. destruct (t_alloc t) as [|i l] eqn:Hl; [done|]. specialize (tr_res0 i).
        rewrite Hn, lookup_empty, decide_True in tr_res0 by left. done. }
    assert (length (arena_items (t_inc t)) = 0 <-> ts_new s = ∅) as ->.
    { rewrite length_zero_iff_nil. split.
      - intros Hn. apply map_eq. intros i. rewrite tr_new0, lookup_empty.
        destruct (arena_get (t_inc t) i) as [n|] eqn:Hi; [|done]. apply (arena_get_items E) in Hi; [|done].
        rewrite Hn in Hi. by apply elem_of_nil in Hi.
      - intros Hn. destruct (arena_items (t_inc t)) as [|[i n] l] eqn:Hl; [done|].
        assert ((i, n) ∈ arena_items (t_inc t)) as Hin by (rewrite Hl; left).
        apply (arena_get_items E) in Hin; [|done]. rewrite <- tr_new0, Hn, lookup_empty in Hin. done. }
    rewrite !length_zero_iff_nil. tauto.
  Qed.
End trans.
