(** * Programs using the library: histories of API calls

    A world holds any number of contexts, graphs and transactions.  [step] is one
    API call that returns normally, or a commit whose panic is caught by the caller
    ([st_commit_panic]).  Its premises say (a) what Rust's type checker
    guarantees (nodes and closures are well-typed), (b) the usage rules a theorem
    relies on: a transaction is committed to / merges a graph of the context object
    it was created from, [fill_back_untyped] is called on an index this transaction
    reserved and has not filled, nothing is redirected from the empty index, the
    context still has an index to hand out, and a caught panic of a commit was not
    caused by the closure of a mutate or update.  What happens without (b) is shown by the
    [_refuted] theorems. *)
From Verif Require Export Switch.

Section world.
  Context {D : Type} (E : env).

  (** contexts are (uuid, counter); graphs and transactions carry the position of
      the context they were created from *)
  Record world := World {
    w_ctx : list (N * idx);
    w_graphs : gmap nat (nat * graph D);
    w_trans : gmap nat (nat * trans D) }.

  Inductive op : Type :=
  | ONewCtx (u : N)
  | ONewGraph (k c : nat)
  | ONewTrans (k c : nat)
  | OInsert (k : nat) (n : node D) (i : idx)          (* [i]: the index returned *)
  | OAlloc (k : nat) (d : nat) (i : idx)
  | OAllocUntyped (k : nat) (i : idx)
  | OFill (k : nat) (i : idx) (n : node D)
  | OFillUntyped (k : nat) (i : idx) (n : node D)
  | ORemove (k : nat) (i : idx)
  | OMutate (k : nat) (i : idx) (f : mut_fn D)
  | OUpdate (k : nat) (i : idx) (f : upd_fn D)
  | ORedirect (k : nat) (o w : idx)
  | ORedirectAll (k : nat) (o w : idx)
  | OMerge (k kg : nat)
  | OGiveUp (k : nat)
  | ODropGraph (kg : nat)
  | OCommit (kg k : nat)
  | OCommitChecked (kg k : nat) (c : graph_check D)
  | OCommitPanic (kg k : nat) (p : panic)             (* the commit panics with [p] *)
  | OSwitch (kg c : nat)
  | ODeser (kg : nat) (s : gserial D).

  Definition set_t (w : world) k (ct : nat * trans D) : world := World (w_ctx w) (w_graphs w) (<[k := ct]> (w_trans w)).
  Definition del_t (w : world) k : world := World (w_ctx w) (w_graphs w) (delete k (w_trans w)).
  Definition set_g (w : world) k (cg : nat * graph D) : world := World (w_ctx w) (<[k := cg]> (w_graphs w)) (w_trans w).
  Definition del_g (w : world) k : world := World (w_ctx w) (delete k (w_graphs w)) (w_trans w).
  Definition set_cnt (w : world) c (u : N) (cnt : idx) : world := World (<[c := (u, cnt)]> (w_ctx w)) (w_graphs w) (w_trans w).

  Definition world_new : world := World [] ∅ ∅.

  (** [T]: closures passed to mutate/update keep the variant of the node *)
  Inductive step (T : Prop) (w : world) : op -> world -> Prop :=
  | st_new_ctx u :
      step T w (ONewCtx u) (World (w_ctx w ++ [(u, dist_new)]) (w_graphs w) (w_trans w))
  | st_new_graph k c u cnt : w_ctx w !! c = Some (u, cnt) ->
      step T w (ONewGraph k c) (set_g w k (c, graph_new E u))
  | st_new_trans k c u cnt : w_ctx w !! c = Some (u, cnt) ->
      step T w (ONewTrans k c) (set_t w k (c, trans_new E u))
  | st_insert k n c u cnt t cnt' t' i : w_trans w !! k = Some (c, t) -> w_ctx w !! c = Some (u, cnt) ->
      node_ok E n -> (cnt + 1 < usize_mod)%N ->
      trans_insert E n (cnt, t) = Done (cnt', t') i ->
      step T w (OInsert k n i) (set_cnt (set_t w k (c, t')) c u cnt')
  | st_alloc k d c u cnt t cnt' t' i : w_trans w !! k = Some (c, t) -> w_ctx w !! c = Some (u, cnt) ->
      (cnt + 1 < usize_mod)%N ->
      trans_alloc E d (cnt, t) = Done (cnt', t') i ->
      step T w (OAlloc k d i) (set_cnt (set_t w k (c, t')) c u cnt')
  | st_alloc_untyped k c u cnt t cnt' t' i : w_trans w !! k = Some (c, t) -> w_ctx w !! c = Some (u, cnt) ->
      (cnt + 1 < usize_mod)%N ->
      trans_alloc_untyped E (cnt, t) = Done (cnt', t') i ->
      step T w (OAllocUntyped k i) (set_cnt (set_t w k (c, t')) c u cnt')
  | st_fill k i n c t t' : w_trans w !! k = Some (c, t) -> node_ok E n ->
      trans_fill_back i n t = Done t' tt ->
      step T w (OFill k i n) (set_t w k (c, t'))
  | st_fill_untyped k i n c t t' : w_trans w !! k = Some (c, t) -> node_ok E n -> i ∈ t_alloc t ->
      trans_fill_back_untyped i n t = Done t' tt ->
      step T w (OFillUntyped k i n) (set_t w k (c, t'))
  | st_remove k i c t : w_trans w !! k = Some (c, t) ->
      step T w (ORemove k i) (set_t w k (c, trans_remove i t))
  | st_mutate k i f c t t' : w_trans w !! k = Some (c, t) -> mut_ok E T f ->
      trans_mutate i f t = Done t' tt ->
      step T w (OMutate k i f) (set_t w k (c, t'))
  | st_update k i f c t t' : w_trans w !! k = Some (c, t) -> upd_ok E T f ->
      trans_update i f t = Done t' tt ->
      step T w (OUpdate k i f) (set_t w k (c, t'))
  | st_redirect k o z c t : w_trans w !! k = Some (c, t) -> o <> 0%N ->
      step T w (ORedirect k o z) (set_t w k (c, trans_redirect o z t))
  | st_redirect_all k o z c t : w_trans w !! k = Some (c, t) -> o <> 0%N ->
      step T w (ORedirectAll k o z) (set_t w k (c, trans_redirect_all o z t))
  | st_merge k kg c t g t' : w_trans w !! k = Some (c, t) -> w_graphs w !! kg = Some (c, g) ->
      trans_merge g t = Done t' tt ->
      step T w (OMerge k kg) (del_g (set_t w k (c, t')) kg)
  | st_give_up k : step T w (OGiveUp k) (del_t w k)
  | st_drop_graph kg : step T w (ODropGraph kg) (del_g w kg)
  | st_commit kg k c t g g' : w_trans w !! k = Some (c, t) -> w_graphs w !! kg = Some (c, g) ->
      commit E t g = Done g' tt ->
      step T w (OCommit kg k) (set_g (del_t w k) kg (c, g'))
  | st_commit_checked kg k chk c t g g' : w_trans w !! k = Some (c, t) -> w_graphs w !! kg = Some (c, g) ->
      commit_checked E t chk g = Done g' tt ->
      step T w (OCommitChecked kg k chk) (set_g (del_t w k) kg (c, g'))
  (** The transaction is consumed, the graph is what the panicking commit left.  A panic
      of the entry checks ([guard_fails]) leaves the graph as it was, so such a call is an
      [OGiveUp]; a commit_checked whose check fails leaves the graph of the commit
      ([commit_checked_fails]), so such a call is an [OCommit]. *)
  | st_commit_panic kg k p c t g g' : w_trans w !! k = Some (c, t) -> w_graphs w !! kg = Some (c, g) ->
      commit E t g = Panicked p g' -> ~ guard_fails E g t -> ~ commit_fault t p (gmap_of g) ->
      step T w (OCommitPanic kg k p) (set_g (del_t w k) kg (c, g'))
  | st_switch kg c0 g c u cnt cnt' g' : w_graphs w !! kg = Some (c0, g) -> w_ctx w !! c = Some (u, cnt) ->
      (cnt + N.of_nat (length (graph_iter g)) < usize_mod)%N ->
      switch_context E g u cnt = Done cnt' g' ->
      step T w (OSwitch kg c) (set_cnt (set_g w kg (c, g')) c u cnt')
  | st_deser kg s cnt g : (forall i n, (i, n) ∈ gs_nodes s -> node_ok E n /\ (0 < i < usize_mod)%N) ->
      deserialize_graph E s = Ok (cnt, g) ->
      step T w (ODeser kg s)
        (World (w_ctx w ++ [(gs_ctx s, cnt)]) (<[kg := (length (w_ctx w), g)]> (w_graphs w)) (w_trans w)).

  Inductive reachable (T : Prop) : world -> Prop :=
  | reach_new : reachable T world_new
  | reach_step w o w' : reachable T w -> step T w o w' -> reachable T w'.

  (** a graph and a transaction of the same context in some history *)
  Definition pair_of (T : Prop) (g : graph D) (t : trans D) : Prop :=
    exists w kg k c, reachable T w /\ w_graphs w !! kg = Some (c, g) /\ w_trans w !! k = Some (c, t).
  Definition graph_of (T : Prop) (g : graph D) : Prop :=
    exists w kg c, reachable T w /\ w_graphs w !! kg = Some (c, g).
  Definition trans_of (T : Prop) (t : trans D) : Prop :=
    exists w k c, reachable T w /\ w_trans w !! k = Some (c, t).

  (** ** Ownership of indices *)
  Definition gowned (g : graph D) (i : idx) : Prop := is_Some (arena_dispatch (g_nodes g) i).
  Definition towned (t : trans D) (i : idx) : Prop := is_Some (arena_dispatch (t_inc t) i) \/ i ∈ t_alloc t.
  (** holder [inl k] is graph [k], holder [inr k] is transaction [k] *)
  Definition owns (w : world) (h : nat + nat) (c : nat) (i : idx) : Prop :=
    match h with
    | inl k => exists g, w_graphs w !! k = Some (c, g) /\ gowned g i
    | inr k => exists t, w_trans w !! k = Some (c, t) /\ towned t i
    end.

  Record trans_wf (T : Prop) (t : trans D) : Prop := {
    tw_inc : arena_ok E (t_inc t);
    tw_nodes : forall x n, arena_get (t_inc t) x = Some n -> node_ok E n;
    tw_typed : T -> atyped (t_inc t);
    tw_mut : forall i f, (i, f) ∈ t_mut t -> mut_ok E T f;
    tw_upd : forall i f, (i, f) ∈ t_upd t -> upd_ok E T f;
    tw_redir : forall o, o ∈ (t_redir t).*1 -> o <> 0%N;
    tw_redir_all : forall o, o ∈ (t_redir_all t).*1 -> o <> 0%N;
    tw_alloc_nd : NoDup (t_alloc t);
    tw_alloc : forall i, i ∈ t_alloc t -> arena_get (t_inc t) i = None }.

  Record inv (T : Prop) (w : world) : Prop := {
    iv_cnt : forall c u cnt, w_ctx w !! c = Some (u, cnt) -> (cnt < usize_mod)%N;
    iv_graph : forall k c g, w_graphs w !! k = Some (c, g) ->
      WF E g /\ (T -> gtyped g) /\ exists cnt, w_ctx w !! c = Some (g_ctx g, cnt);
    iv_trans : forall k c t, w_trans w !! k = Some (c, t) ->
      trans_wf T t /\ exists cnt, w_ctx w !! c = Some (t_ctx t, cnt);
    iv_owns : forall h c i, owns w h c i -> exists u cnt, w_ctx w !! c = Some (u, cnt) /\ (0 < i <= cnt)%N;
    iv_disj : forall h h' c i, owns w h c i -> owns w h' c i -> h = h' }.

  (** contexts only gain entries and advance their counters *)
  Definition ctx_le (l l' : list (N * idx)) : Prop :=
    forall c u cnt, l !! c = Some (u, cnt) -> exists cnt', l' !! c = Some (u, cnt') /\ (cnt <= cnt')%N.
  Lemma ctx_le_refl l : ctx_le l l.
  Proof. intros c u cnt H. exists cnt. split; [done|lia]. Qed.
  Lemma ctx_le_app l x : ctx_le l (l ++ [x]).
  Proof. intros c u cnt H. exists cnt. split; [by apply lookup_app_l_Some|lia]. Qed.
  Lemma ctx_le_insert l c u cnt cnt' : l !! c = Some (u, cnt) -> (cnt <= cnt')%N -> ctx_le l (<[c := (u, cnt')]> l).
  Proof.
    intros Hc Hle c1 u1 cnt1 H1. destruct (decide (c1 = c)) as [->|Hne].
    - rewrite list_lookup_insert by by eapply lookup_lt_Some. assert (u1 = u) as -> by congruence.
      assert (cnt1 = cnt) as -> by congruence. eauto.
    - rewrite list_lookup_insert_ne by done. exists cnt1. split; [done|lia].
  Qed.

  (** the general preservation argument: every index owned afterwards was owned by
      the holder it comes from, or is new and given to one holder *)
  (** [wstep w w' phi hn]: [w'] is a well-formed continuation of [w]; holder [h] of an
      index passes it on to [phi h], and [hn] gets the new indices *)
  Record wstep (T : Prop) (w w' : world) (phi : nat + nat -> nat + nat) (hn : nat + nat) : Prop := {
    ws_ctx : ctx_le (w_ctx w) (w_ctx w');
    ws_cnt : forall c u cnt, w_ctx w' !! c = Some (u, cnt) -> (cnt < usize_mod)%N;
    ws_graph : forall k c g, w_graphs w' !! k = Some (c, g) -> w_graphs w !! k = Some (c, g) \/
      (WF E g /\ (T -> gtyped g) /\ exists cnt, w_ctx w' !! c = Some (g_ctx g, cnt));
    ws_trans : forall k c t, w_trans w' !! k = Some (c, t) -> w_trans w !! k = Some (c, t) \/
      (trans_wf T t /\ exists cnt, w_ctx w' !! c = Some (t_ctx t, cnt));
    ws_owns : forall h c i, owns w' h c i ->
       (exists h0, owns w h0 c i /\ phi h0 = h) \/
       (h = hn /\ (exists u cnt, w_ctx w' !! c = Some (u, cnt) /\ (0 < i <= cnt)%N) /\
         forall u cnt, w_ctx w !! c = Some (u, cnt) -> (cnt < i)%N) }.

  Lemma inv_step T w w' phi hn : inv T w -> wstep T w w' phi hn -> inv T w'.
  Proof.
    intros Hinv [Hle Hcnt Hg Ht Ho0].
    assert (forall h c i, owns w' h c i ->
       (exists h0, owns w h0 c i /\ phi h0 = h) \/
       (h = hn /\ (exists u cnt, w_ctx w' !! c = Some (u, cnt) /\ (0 < i <= cnt)%N) /\ forall h0, ~ owns w h0 c i)) as Ho.
    { intros h c i Hi. destruct (Ho0 h c i Hi) as [?|(->&?&Hf)]; [by left|right]. split; [done|]. split; [done|].
      intros h0 Hh0. destruct (iv_owns _ _ Hinv h0 c i Hh0) as (u&cnt&Hc&Hb). apply Hf in Hc. lia. }
    split; [done|..].
    - intros k c g Hk. destruct (Hg k c g Hk) as [Hk'|?]; [|done].
      destruct (iv_graph _ _ Hinv k c g Hk') as (Hwf&Hty&cnt&Hc). destruct (Hle _ _ _ Hc) as (cnt'&Hc'&_). eauto.
    - intros k c t Hk. destruct (Ht k c t Hk) as [Hk'|?]; [|done].
      destruct (iv_trans _ _ Hinv k c t Hk') as (Hwf&cnt&Hc). destruct (Hle _ _ _ Hc) as (cnt'&Hc'&_). eauto.
    - intros h c i Hi. destruct (Ho h c i Hi) as [(h0&Hi0&_)|(_&?&_)]; [|done].
      destruct (iv_owns _ _ Hinv h0 c i Hi0) as (u&cnt&Hc&Hb). destruct (Hle _ _ _ Hc) as (cnt'&Hc'&Hle').
      exists u, cnt'. split; [done|lia].
    - intros h h' c i Hi Hi'.
      destruct (Ho h c i Hi) as [(h0&Hi0&<-)|(->&_&Hn)], (Ho h' c i Hi') as [(h0'&Hi0'&<-)|(->&_&Hn')].
      + f_equal. by apply (iv_disj _ _ Hinv h0 h0' c i).
      + by apply Hn' in Hi0.
      + by apply Hn in Hi0'.
      + done.
  Qed.

  (** ** Transaction operations *)
  Lemma trans_new_wf T u : trans_wf T (trans_new E u).
  Proof.
    split; cbn; try done.
    - apply arena_new_ok.
    - by intros i f Hin%elem_of_nil.
    - by intros i f Hin%elem_of_nil.
    - by intros i Hin%elem_of_nil.
    - by intros i Hin%elem_of_nil.
    - constructor.
  Qed.

  (** [t'] belongs to the same context as [t] and owns nothing new except [N] *)
  Definition tstep (T : Prop) (t t' : trans D) (N : idx -> Prop) : Prop :=
    trans_wf T t' /\ t_ctx t' = t_ctx t /\ forall i, towned t' i -> towned t i \/ N i.

  Lemma arena_put_towned (a : arena D) i n a' j : arena_put E a i n a' -> is_Some (arena_dispatch a' j) ->
    is_Some (arena_dispatch a j) \/ j = i.
  Proof. intros Hp. rewrite (ap_disp _ _ _ _ _ Hp). case_decide; auto. Qed.

  Lemma trans_insert_step T t n cnt cnt' t' i :
    trans_wf T t -> node_ok E n -> (cnt + 1 < usize_mod)%N -> (forall j, towned t j -> (j <= cnt)%N) ->
    trans_insert E n (cnt, t) = Done (cnt', t') i ->
    cnt' = (cnt + 1)%N /\ i = (cnt + 1)%N /\ tstep T t t' (fun j => j = (cnt + 1)%N).
  Proof.
    intros Hwf Hn Hc Hb. unfold trans_insert.
    assert (arena_dispatch (t_inc t) (cnt + 1)%N = None) as Hd.
    { apply eq_None_not_Some. intros Hs. assert (cnt + 1 <= cnt)%N; [|lia]. apply Hb. by left. }
    destruct (arena_insert_spec E cnt (t_inc t) n (tw_inc _ _ Hwf) Hn Hc Hd) as (a'&->&Hput).
    intros [= <- <- <-]. split; [done|]. split; [done|]. destruct Hwf.
    split; [split; try done; cbn|split; [done|]].
    - apply Hput.
    - intros x m. rewrite (ap_get _ _ _ _ _ Hput). case_decide; [by intros [= <-]|apply tw_nodes0].
    - intros HT. exact (arena_put_typed E _ _ _ _ Hput (tw_typed0 HT)).
    - intros j Hj. rewrite (ap_get _ _ _ _ _ Hput). rewrite decide_False; [by apply tw_alloc0|].
      intros ->. assert (cnt + 1 <= cnt)%N; [|lia]. apply Hb. by right.
    - intros j [Hj|Hj]; cbn [t_inc t_alloc with_alloc with_inc with_dec] in Hj.
      + destruct (arena_put_towned _ _ _ _ _ Hput Hj); [left; by left|by right].
      + left. by right.
  Qed.

  Lemma trans_alloc_step T t d cnt cnt' t' i :
    trans_wf T t -> (cnt + 1 < usize_mod)%N -> (forall j, towned t j -> (j <= cnt)%N) ->
    trans_alloc E d (cnt, t) = Done (cnt', t') i ->
    cnt' = (cnt + 1)%N /\ i = (cnt + 1)%N /\ tstep T t t' (fun j => j = (cnt + 1)%N).
  Proof.
    intros Hwf Hc Hb. unfold trans_alloc, arena_alloc. rewrite dist_alloc_ok by done.
    assert (arena_dispatch (t_inc t) (cnt + 1)%N = None) as Hd.
    { apply eq_None_not_Some. intros Hs. assert (cnt + 1 <= cnt)%N; [|lia]. apply Hb. by left. }
    rewrite Hd. intros [= <- <- <-]. split; [done|]. split; [done|]. destruct Hwf.
    assert (arena_get (t_inc t) (cnt + 1)%N = None) as Hg by (unfold arena_get; by rewrite Hd).
    destruct (set_disp_spec E (t_inc t) (cnt + 1)%N d tw_inc0 Hg) as (Hok&Hdisp&Hget&_).
    split; [split; try done; cbn|split; [done|]].
    - intros x m. rewrite Hget. apply tw_nodes0.
    - intros HT x m d'. rewrite Hget, Hdisp. case_decide; [subst; congruence|]. by apply tw_typed0.
    - by apply oset_insert_NoDup.
    - intros j. rewrite oset_insert_elem, Hget. intros [->|Hj]; [done|by apply tw_alloc0].
    - intros j [Hj|Hj]; cbn [t_inc t_alloc with_alloc with_inc with_dec] in Hj.
      + rewrite Hdisp in Hj. case_decide; [by right|]. left. by left.
      + apply oset_insert_elem in Hj as [->|Hj]; [by right|]. left. by right.
  Qed.

  Lemma trans_alloc_untyped_step T t cnt cnt' t' i :
    trans_wf T t -> (cnt + 1 < usize_mod)%N -> (forall j, towned t j -> (j <= cnt)%N) ->
    trans_alloc_untyped E (cnt, t) = Done (cnt', t') i ->
    cnt' = (cnt + 1)%N /\ i = (cnt + 1)%N /\ tstep T t t' (fun j => j = (cnt + 1)%N).
  Proof.
    intros Hwf Hc Hb. unfold trans_alloc_untyped, arena_alloc_untyped. rewrite dist_alloc_ok by done.
    intros [= <- <- <-]. split; [done|]. split; [done|].
    assert (arena_get (t_inc t) (cnt + 1)%N = None) as Hg.
    { destruct (arena_get (t_inc t) (cnt + 1)%N) eqn:Hg; [|done]. exfalso.
      assert (cnt + 1 <= cnt)%N; [|lia]. apply Hb. left. by eapply arena_get_dispatch. }
    destruct Hwf. split; [split; try done; cbn|split; [done|]].
    - by apply oset_insert_NoDup.
    - intros j. rewrite oset_insert_elem. intros [->|Hj]; [done|by apply tw_alloc0].
    - intros j [Hj|Hj]; cbn [t_inc t_alloc with_alloc with_inc with_dec] in Hj.
      + left. by left.
      + apply oset_insert_elem in Hj as [->|Hj]; [by right|]. left. by right.
  Qed.

  Lemma put_tstep T t i n a' :
    trans_wf T t -> node_ok E n -> towned t i -> arena_put E (t_inc t) i n a' ->
    tstep T t (with_alloc (with_inc t a') (oset_del i (t_alloc t))) (fun _ => False).
  Proof.
    intros [] Hn Hi Hput. split; [split; try done; cbn|split; [done|]].
    - apply Hput.
    - intros x m. rewrite (ap_get _ _ _ _ _ Hput). case_decide; [by intros [= <-]|apply tw_nodes0].
    - intros HT. exact (arena_put_typed E _ _ _ _ Hput (tw_typed0 HT)).
    - by apply oset_del_NoDup.
    - intros j. rewrite oset_del_elem by done. intros [Hne Hj]. rewrite (ap_get _ _ _ _ _ Hput).
      rewrite decide_False by done. by apply tw_alloc0.
    - intros j [Hj|Hj]; cbn [t_inc t_alloc with_alloc with_inc with_dec] in Hj; left.
      + destruct (arena_put_towned _ _ _ _ _ Hput Hj) as [?| ->]; [by left|done].
      + apply oset_del_elem in Hj; [|done]. right. apply Hj.
  Qed.

  Lemma trans_fill_step T t i n t' :
    trans_wf T t -> node_ok E n -> trans_fill_back i n t = Done t' tt -> tstep T t t' (fun _ => False).
  Proof.
    intros Hwf Hn. unfold trans_fill_back.
    pose proof (arena_fill_back_spec E (t_inc t) i n (tw_inc _ _ Hwf) Hn) as Hs.
    destruct (arena_fill_back i n (t_inc t)) as [a' []|]; [|done]. intros [= <-].
    destruct Hs as (Hd&Hg&Hput). apply (put_tstep T t i n a'); try done. left. rewrite Hd. by eexists.
  Qed.
  Lemma trans_fill_untyped_step T t i n t' :
    trans_wf T t -> node_ok E n -> i ∈ t_alloc t -> trans_fill_back_untyped i n t = Done t' tt ->
    tstep T t t' (fun _ => False).
  Proof.
    intros Hwf Hn Hi. unfold trans_fill_back_untyped.
    destruct (arena_fill_back_untyped_spec E (t_inc t) i n (tw_inc _ _ Hwf) Hn (tw_alloc _ _ Hwf i Hi)) as (a'&->&Hput).
    intros [= <-]. apply (put_tstep T t i n a'); try done. by right.
  Qed.

  Lemma trans_remove_cases i (t : trans D) :
    trans_remove i t =
      match arena_get (t_inc t) i with
      | Some _ => with_inc t (arena_remove (t_inc t) i).1
      | None =>
        if decide (i ∈ t_alloc t) then with_alloc (with_inc t (arena_remove (t_inc t) i).1) (oset_del i (t_alloc t))
        else with_dec (with_inc t (arena_remove (t_inc t) i).1) (oset_insert i (t_dec t))
      end.
  Proof.
    unfold trans_remove. rewrite <- arena_remove_result. by destruct (arena_remove (t_inc t) i) as [a' [n|]].
  Qed.
  Lemma trans_remove_step T t i : trans_wf T t -> tstep T t (trans_remove i t) (fun _ => False).
  Proof.
    intros [].
    pose proof (fun j => arena_remove_dispatch E (t_inc t) i j tw_inc0) as Hd.
    pose proof (fun j => arena_remove_get E (t_inc t) i j tw_inc0) as Hg.
    pose proof (arena_remove_ok E (t_inc t) i tw_inc0) as Hok.
    assert (forall j, is_Some (arena_dispatch (arena_remove (t_inc t) i).1 j) -> towned t j) as Hj1.
    { intros j. rewrite Hd. case_decide; [by intros [? ?]|]. by left. }
    rewrite trans_remove_cases. destruct (arena_get (t_inc t) i) eqn:Hgi; [|case_decide as Hin].
    all: split; [split; try done; cbn|split; [done|]].
    all: try (intros x m; rewrite Hg; case_decide; [done|apply tw_nodes0]).
    all: try (intros HT x m d; rewrite Hg, Hd; case_decide; [done|by apply tw_typed0]).
    - intros j Hj. rewrite Hg. case_decide; [done|by apply tw_alloc0].
    - intros j [Hj|Hj]; left; [by apply Hj1|by right].
    - by apply oset_del_NoDup.
    - intros j. rewrite oset_del_elem by done. intros [_ Hj]. rewrite Hg. case_decide; [done|by apply tw_alloc0].
    - intros j [Hj|Hj]; left; [by apply Hj1|]. cbn [t_inc t_alloc with_alloc with_inc with_dec] in Hj. apply oset_del_elem in Hj; [|done]. right. apply Hj.
    - intros j Hj. rewrite Hg. case_decide; [done|by apply tw_alloc0].
    - intros j [Hj|Hj]; left; [by apply Hj1|by right].
  Qed.

  Lemma trans_mutate_step T t i f t' :
    trans_wf T t -> mut_ok E T f -> trans_mutate i f t = Done t' tt -> tstep T t t' (fun _ => False).
  Proof.
    intros Hwf Hf. unfold trans_mutate. destruct (arena_contains (t_inc t) i).
    - destruct (arena_get (t_inc t) i) as [n|] eqn:Hg; [|done].
      destruct (f n) as [n' []|] eqn:Hfn; [|done]. intros [= <-]. destruct Hwf.
      destruct (Hf n n' (tw_nodes0 _ _ Hg) Hfn) as [Hok' Hv].
      pose proof (arena_set_get (t_inc t) i n n') as Hget.
      split; [split; try done; cbn|split; [done|]].
      + by apply arena_set_ok.
      + intros x m. rewrite Hget by done. case_decide; [by intros [= <-]|apply tw_nodes0].
      + intros HT x m d. rewrite Hget, arena_set_dispatch by done. case_decide; [|by apply tw_typed0].
        subst. intros [= <-] Hd. rewrite (Hv HT). by eapply tw_typed0.
      + intros j Hj. rewrite Hget by done. case_decide; [|by apply tw_alloc0]. subst.
        rewrite tw_alloc0 in Hg by done. done.
      + intros j [Hj|Hj]; left; [|by right]. left. cbn [t_inc t_alloc with_alloc with_inc with_dec] in Hj. by rewrite arena_set_dispatch in Hj.
    - intros [= <-]. destruct Hwf. split; [split; try done; cbn|split; [done|]].
      + intros j f' [Hin|Hin]%elem_of_app; [by eapply tw_mut0|].
        apply elem_of_list_singleton in Hin as [= -> ->]. done.
      + intros j Hj. by left.
  Qed.
  Lemma trans_update_step T t i f t' :
    trans_wf T t -> upd_ok E T f -> trans_update i f t = Done t' tt -> tstep T t t' (fun _ => False).
  Proof.
    intros Hwf Hf. unfold trans_update. destruct (arena_contains (t_inc t) i).
    - destruct Hwf.
      assert (wp (arena_update_with i f) (t_inc t)
        (fun _ a' => tstep T t (with_inc t a') (fun _ => False)) (fun _ _ => True)) as Hwp.
      { apply (arena_update_wp E); [done| |done]. intros n n' a' Hg Hfn Hok Hdisp Hget.
        destruct (Hf n n' (tw_nodes0 _ _ Hg) Hfn) as [Hok' Hv].
        split; [split; try done; cbn|split; [done|]].
        + intros x m. rewrite Hget by done. case_decide; [by intros [= <-]|apply tw_nodes0].
        + intros HT x m d. rewrite Hget, Hdisp by done. case_decide; [|by apply tw_typed0].
          subst. intros [= <-] Hd. rewrite (Hv HT). by eapply tw_typed0.
        + intros j Hj. rewrite Hget by done. case_decide; [|by apply tw_alloc0]. subst.
          rewrite tw_alloc0 in Hg by done. done.
        + intros j [Hj|Hj]; left; [|by right]. left. cbn [t_inc t_alloc with_alloc with_inc with_dec] in Hj. by rewrite Hdisp in Hj. }
      unfold wp in Hwp. destruct (arena_update_with i f (t_inc t)); [|done]. by intros [= <-].
    - intros [= <-]. destruct Hwf. split; [split; try done; cbn|split; [done|]].
      + intros j f' [Hin|Hin]%elem_of_app; [by eapply tw_upd0|].
        apply elem_of_list_singleton in Hin as [= -> ->]. done.
      + intros j Hj. by left.
  Qed.
  Lemma trans_redirect_step T t o z : trans_wf T t -> o <> 0%N -> tstep T t (trans_redirect o z t) (fun _ => False).
  Proof.
    intros [] Ho. split; [split; try done; cbn|split; [done|]].
    - intros j. rewrite fmap_app, elem_of_app. cbn. rewrite elem_of_list_singleton. naive_solver.
    - intros j Hj. by left.
  Qed.
  Lemma trans_redirect_all_step T t o z : trans_wf T t -> o <> 0%N -> tstep T t (trans_redirect_all o z t) (fun _ => False).
  Proof.
    intros [] Ho. split; [split; try done; cbn|split; [done|]].
    - intros j. rewrite fmap_app, elem_of_app. cbn. rewrite elem_of_list_singleton. naive_solver.
    - intros j Hj. by left.
  Qed.
  Lemma trans_merge_step T t g t' :
    trans_wf T t -> WF E g -> (T -> gtyped g) -> (forall i, gowned g i -> ~ towned t i) ->
    trans_merge g t = Done t' tt -> tstep T t t' (gowned g).
  Proof.
    intros [] Hg Hty Hdis. unfold trans_merge. destruct (t_ctx t =? g_ctx g)%N; [|done]. intros [= <-].
    assert (arena_disj (t_inc t) (g_nodes g)) as Hd.
    { intros i Hi. apply eq_None_not_Some. intros Hs. apply (Hdis i Hi). by left. }
    pose proof (fun i => arena_merge_get E (t_inc t) (g_nodes g) i tw_inc0 (wf_arena _ _ Hg) Hd) as Hget.
    pose proof (fun i => arena_merge_dispatch E (t_inc t) (g_nodes g) i (wf_arena _ _ Hg)) as Hdisp.
    split; [split; try done; cbn|split; [done|]].
    - apply (arena_merge_ok E); [done|apply Hg|done].
    - intros x m. rewrite Hget. destruct (arena_get (g_nodes g) x) eqn:Hx; [|apply tw_nodes0].
      intros [= <-]. by apply (wf_nodes _ _ Hg x).
    - intros HT x m d. rewrite Hget, Hdisp. destruct (arena_get (g_nodes g) x) as [n|] eqn:Hx.
      + intros [= <-]. destruct (arena_get_dispatch _ _ _ Hx) as [d' Hd']. rewrite Hd'. intros [= <-].
        by apply (Hty HT x).
      + intros Hx' Hd'. destruct (arena_dispatch (g_nodes g) x) as [d0|] eqn:Hdx; [|by eapply tw_typed0].
        assert (arena_dispatch (t_inc t) x = None) as Hn by (apply Hd; eauto). unfold arena_get in Hx'. rewrite Hn in Hx'. done.
    - intros i Hi. rewrite Hget, tw_alloc0 by done. destruct (arena_get (g_nodes g) i) eqn:Hx; [|done].
      exfalso. apply (Hdis i); [by eapply arena_get_dispatch|by right].
    - intros j [Hj|Hj]; cbn [t_inc t_alloc with_alloc with_inc with_dec] in Hj; [|left; by right]. rewrite Hdisp in Hj.
      destruct (arena_dispatch (g_nodes g) j) eqn:Hx; [right; by eexists|left; by left].
  Qed.
End world.
