(** * Threads sharing one index distributer

    [IdDistributer::alloc] (/repo/src/id_distributer.rs:14-17) is two instructions: an
    atomic [fetch_add] and then, on the thread's own copy of the old value, [c + 1].
    Any number of threads may be anywhere in between.  [Ordering::Relaxed] still
    gives one total order of the [fetch_add]s on the one counter, which is all the
    model uses. *)
From stdpp Require Import gmap.
From Verif Require Export Ids.

(** the shared counter, and the value each thread inside [alloc] has fetched *)
Record dstate := DState { d_cnt : N; d_pend : gmap nat N }.
(** what the call then returns or panics with *)
Inductive devent := DFetch (th : nat) | DReturn (th : nat) (i : N) | DPanic (th : nat).

Inductive dstep (dbg : bool) : dstate -> devent -> dstate -> Prop :=
| ds_fetch s th : d_pend s !! th = None ->
    dstep dbg s (DFetch th) (DState ((d_cnt s + 1) mod usize_mod)%N (<[th := d_cnt s]> (d_pend s)))
| ds_return s th c : d_pend s !! th = Some c -> (dbg = true -> c <> usize_mod - 1)%N ->
    dstep dbg s (DReturn th ((c + 1) mod usize_mod)%N) (DState (d_cnt s) (delete th (d_pend s)))
| ds_panic s th c : d_pend s !! th = Some c -> dbg = true -> c = (usize_mod - 1)%N ->
    dstep dbg s (DPanic th) (DState (d_cnt s) (delete th (d_pend s))).
Inductive dsteps (dbg : bool) : dstate -> list devent -> dstate -> Prop :=
| dss_nil s : dsteps dbg s [] s
| dss_snoc s es s1 e s2 : dsteps dbg s es s1 -> dstep dbg s1 e s2 -> dsteps dbg s (es ++ [e]) s2.

Global Instance fetch_dec (e : devent) : Decision (match e with DFetch _ => True | _ => False end).
Proof. destruct e; apply _. Defined.
Definition fetches (es : list devent) : N := N.of_nat (length (filter (fun e => match e with DFetch _ => True | _ => False end) es)).
Definition returned (es : list devent) : list N := omap (fun e => match e with DReturn _ i => Some i | _ => None end) es.


Lemma usize_mod_pos : (0 < usize_mod)%N.
Proof. done. Qed.
Lemma usize_mod_big : (1 < usize_mod)%N.
Proof. done. Qed.
Local Opaque usize_mod.

Lemma fetches_app es es' : fetches (es ++ es') = (fetches es + fetches es')%N.
Proof. unfold fetches. rewrite filter_app, app_length. lia. Qed.

(** The calls in a run, below the limit: everything fetched or returned is distinct. *)
Lemma threads_inv dbg c0 es s : dsteps dbg (DState c0 ∅) es s -> (c0 + fetches es < usize_mod)%N ->
  d_cnt s = (c0 + fetches es)%N /\
  (forall th c, d_pend s !! th = Some c -> (c0 <= c < d_cnt s)%N /\ (c + 1)%N ∉ returned es) /\
  (forall th th' c, d_pend s !! th = Some c -> d_pend s !! th' = Some c -> th = th') /\
  NoDup (returned es) /\ (forall i, i ∈ returned es -> (c0 < i <= d_cnt s)%N) /\
  (forall th, DPanic th ∉ es).
Proof.
  remember (DState c0 ∅) as s0 eqn:Hs0. intros Hd. induction Hd as [s|s es s1 e s2 Hd IH Hst]; intros Hb; subst.
  { cbn. rewrite N.add_0_r. split; [done|]. split; [by intros ? ? ?|]. split; [by intros ? ? ? ?|]. split; [constructor|].
    split; intros ? H; by apply elem_of_nil in H. }
  rewrite fetches_app in Hb. destruct (IH eq_refl ltac:(lia)) as (Hc&Hp&Hi&Hn&Hr&Hpa). clear IH.
  unfold returned in *. rewrite omap_app. rewrite fetches_app.
  inversion Hst as [s' th Hth|s' th c Hth Hdb|s' th c Hth Hdb Hcm]; subst; cbn [d_cnt d_pend].
  - change (fetches [DFetch th]) with 1%N in *. cbn [omap list_omap]. rewrite app_nil_r.
    rewrite N.mod_small by lia. split; [lia|]. split.
    { intros th' c. destruct (decide (th' = th)) as [->|Hne].
      - rewrite lookup_insert. intros [= <-]. split; [lia|]. intros Hin%Hr. lia.
      - rewrite lookup_insert_ne by done. intros Hq%Hp. naive_solver lia. }
    split.
    { intros th1 th2 c H1 H2. destruct (decide (th1 = th)) as [->|?], (decide (th2 = th)) as [->|?]; [done| | |].
      - rewrite lookup_insert in H1. injection H1 as <-. rewrite lookup_insert_ne in H2 by done. apply Hp in H2. lia.
      - rewrite lookup_insert in H2. injection H2 as <-. rewrite lookup_insert_ne in H1 by done. apply Hp in H1. lia.
      - rewrite lookup_insert_ne in H1, H2 by done. by eapply Hi. }
    split; [done|]. split; [intros i Hin%Hr; lia|]. intros th' [Hin|Hin%elem_of_list_singleton]%elem_of_app; [by eapply Hpa|done].
  - change (fetches [DReturn th ((c + 1) mod usize_mod)]%N) with 0%N in *. rewrite N.add_0_r. destruct (Hp th c Hth) as [Hcb Hcn].
    rewrite N.mod_small by lia. cbn [omap list_omap]. split; [done|]. split.
    { intros th' c'. destruct (decide (th' = th)) as [->|Hne]; [by rewrite lookup_delete|]. rewrite lookup_delete_ne by done.
      intros Hc'. destruct (Hp th' c' Hc') as [? Hcn']. split; [done|]. rewrite elem_of_app, elem_of_list_singleton. intros [?|?]; [done|].
      assert (c' = c) as -> by lia. destruct Hne. by eapply Hi. }
    split.
    { intros th1 th2 c' H1%lookup_delete_Some H2%lookup_delete_Some. eapply Hi; [apply H1|apply H2]. }
    split.
    { apply NoDup_app. split; [done|]. split; [|apply NoDup_singleton].
      intros x Hx ->%elem_of_list_singleton. done. }
    split.
    { intros i [Hin|Hin]%elem_of_app; [by apply Hr|]. apply elem_of_list_singleton in Hin. lia. }
    intros th' [Hin|Hin%elem_of_list_singleton]%elem_of_app; [by eapply Hpa|done].
  - destruct (Hp th _ Hth) as [Hcb _]. lia.
Qed.

Lemma threads_unique dbg c0 es s : dsteps dbg (DState c0 ∅) es s -> (c0 + fetches es < usize_mod)%N ->
  NoDup (returned es) /\ (forall i, i ∈ returned es -> i <> 0%N /\ (c0 < i)%N) /\ (forall th, DPanic th ∉ es).
Proof.
  intros Hd Hb. destruct (threads_inv dbg c0 es s Hd Hb) as (_&_&_&Hn&Hr&Hp). split; [done|]. split; [|done].
  intros i Hi%Hr. lia.
Qed.

(** ** Calls one after the other, beyond the limit *)
Lemma dist_alloc_cases dbg c : (c < usize_mod)%N ->
  dist_alloc dbg c =
    (if decide (c = usize_mod - 1)%N then (if dbg then Panicked POverflow 0%N else Done 0%N 0%N)
     else Done (c + 1)%N (c + 1)%N).
Proof.
  intros Hc. pose proof usize_mod_big. unfold dist_alloc. destruct (N.eqb_spec c (usize_mod - 1)) as [->|Hne].
  - rewrite decide_True by done. by rewrite N.sub_add, N.mod_same by lia.
  - rewrite decide_False by done. by rewrite N.mod_small by lia.
Qed.
(** results of [n] calls; a panicking call leaves the counter moved on *)
Fixpoint alloc_results (dbg : bool) (n : nat) (c : N) : list (option N) :=
  match n with
  | O => []
  | S n' => match dist_alloc dbg c with
            | Done c' i => Some i :: alloc_results dbg n' c'
            | Panicked _ c' => None :: alloc_results dbg n' c'
            end
  end.
(** a thread running alone performs [dist_alloc] *)
Lemma dstep_alone dbg c th : (c < usize_mod)%N ->
  match dist_alloc dbg c with
  | Done c' i => dsteps dbg (DState c ∅) [DFetch th; DReturn th i] (DState c' ∅)
  | Panicked _ c' => dsteps dbg (DState c ∅) [DFetch th; DPanic th] (DState c' ∅)
  end.
Proof.
  intros Hc. unfold dist_alloc. pose proof (ds_fetch dbg (DState c ∅) th eq_refl) as H1. cbn [d_cnt d_pend] in H1.
  assert (d_pend (DState ((c + 1) mod usize_mod)%N {[th := c]}) !! th = Some c) as Hl by (cbn; apply lookup_singleton).
  assert (DState ((c + 1) mod usize_mod)%N ∅ = DState (d_cnt (DState ((c + 1) mod usize_mod)%N {[th := c]})) (delete th (d_pend (DState ((c + 1) mod usize_mod)%N {[th := c]})))) as He.
  { cbn. by rewrite delete_singleton. }
  destruct (N.eqb_spec c (usize_mod - 1)) as [Hm|Hm]; [destruct dbg|].
  - apply (dss_snoc _ _ [DFetch th] _ (DPanic th) _ (dss_snoc _ _ [] _ _ _ (dss_nil _ _) H1)). rewrite He. by eapply ds_panic.
  - apply (dss_snoc _ _ [DFetch th] _ (DReturn th 0%N) _ (dss_snoc _ _ [] _ _ _ (dss_nil _ _) H1)). rewrite He.
    assert (((c + 1) mod usize_mod)%N = 0%N) as Hz.
    { subst c. rewrite N.sub_add by (pose proof usize_mod_pos; lia). apply N.mod_same. pose proof usize_mod_pos; lia. }
    rewrite <- Hz at 1. by apply ds_return.
  - apply (dss_snoc _ _ [DFetch th] _ (DReturn th (c + 1)%N) _ (dss_snoc _ _ [] _ _ _ (dss_nil _ _) H1)). rewrite He.
    replace (DReturn th (c + 1)%N) with (DReturn th ((c + 1) mod usize_mod)%N) by (by rewrite N.mod_small by lia).
    by apply ds_return.
Qed.

Lemma alloc_results_at dbg n c i : (c < usize_mod)%N -> i < n ->
  alloc_results dbg n c !! i = Some (let x := ((c + 1 + N.of_nat i) mod usize_mod)%N in
    if decide (x = 0%N) then (if dbg then None else Some 0%N) else Some x).
Proof.
  revert c i. induction n as [|n IH]; intros c i Hc Hi; [lia|]. pose proof usize_mod_big as Hpos.
  assert ((c + 1) mod usize_mod < usize_mod)%N as Hc' by (apply N.mod_lt; lia).
  destruct i as [|i].
  - cbn [alloc_results]. cbv zeta. rewrite N.add_0_r. unfold dist_alloc. destruct (N.eqb_spec c (usize_mod - 1)) as [->|Hne].
    + rewrite N.sub_add, N.mod_same by lia. rewrite decide_True by done. by destruct dbg.
    + rewrite N.mod_small by lia. rewrite decide_False by lia. done.
  - assert (alloc_results dbg (S n) c !! S i = alloc_results dbg n ((c + 1) mod usize_mod)%N !! i) as ->.
    { cbn [alloc_results]. unfold dist_alloc. destruct (c =? usize_mod - 1)%N; [by destruct dbg|done]. }
    rewrite IH by (done || lia). cbv zeta.
    assert (((c + 1) mod usize_mod + 1 + N.of_nat i) mod usize_mod = (c + 1 + N.of_nat (S i)) mod usize_mod)%N as ->; [|done].
    rewrite <- N.add_assoc, N.add_mod_idemp_l by lia. f_equal. lia.
Qed.
(** equal results are a multiple of the whole range apart *)
Lemma alloc_results_repeat dbg n c i j x : (c < usize_mod)%N -> i < j ->
  alloc_results dbg n c !! i = Some (Some x) -> alloc_results dbg n c !! j = Some (Some x) -> (usize_mod <= N.of_nat (j - i))%N.
Proof.
  intros Hc Hij H1 H2. pose proof usize_mod_big as Hpos.
  assert (forall m c, length (alloc_results dbg m c) = m) as Hlen.
  { clear. induction m as [|m IH]; intros c; [done|]. cbn [alloc_results]. destruct (dist_alloc dbg c); cbn; by rewrite IH. }
  assert (j < n) as Hj. { apply lookup_lt_Some in H2. by rewrite Hlen in H2. }
  rewrite alloc_results_at in H1, H2 by (done || lia). cbv zeta in H1, H2.
  assert (forall k, Some (let x := ((c + 1 + N.of_nat k) mod usize_mod)%N in
    if decide (x = 0%N) then (if dbg then None else Some 0%N) else Some x) = Some (Some x) -> ((c + 1 + N.of_nat k) mod usize_mod)%N = x) as Hx.
  { clear. intros k. cbv zeta. case_decide as Hz; [|congruence]. destruct dbg; [done|]. congruence. }
  apply Hx in H1, H2. pose proof (N.div_mod (c + 1 + N.of_nat i) usize_mod) as Hd1. pose proof (N.div_mod (c + 1 + N.of_nat j) usize_mod) as Hd2.
  rewrite H1 in Hd1. rewrite H2 in Hd2. specialize (Hd1 ltac:(lia)). specialize (Hd2 ltac:(lia)).
  set (q1 := ((c + 1 + N.of_nat i) / usize_mod)%N) in *. set (q2 := ((c + 1 + N.of_nat j) / usize_mod)%N) in *.
  assert (q1 < q2)%N as Hq by nia. nia.
Qed.

(** ** Threads, beyond the limit *)
(** [k] numbers the [fetch_add]s of a run *)
Definition fetched (c0 k : N) : N := ((c0 + k) mod usize_mod)%N.
Lemma threads_ghost dbg c0 es s : (c0 < usize_mod)%N -> dsteps dbg (DState c0 ∅) es s ->
  d_cnt s = fetched c0 (fetches es) /\
  exists (pk : gmap nat N) (rk : list N),
    d_pend s = fetched c0 <$> pk /\ returned es = (fun k => (fetched c0 k + 1) mod usize_mod)%N <$> rk /\
    (forall th k, pk !! th = Some k -> (k < fetches es)%N /\ k ∉ rk) /\
    (forall th th' k, pk !! th = Some k -> pk !! th' = Some k -> th = th') /\
    NoDup rk /\ (forall k, k ∈ rk -> (k < fetches es)%N /\ (dbg = true -> fetched c0 k <> usize_mod - 1)%N).
Proof.
  intros Hc0. remember (DState c0 ∅) as s0 eqn:Hs0. intros Hd. pose proof usize_mod_big as Hpos.
  induction Hd as [s|s es s1 e s2 Hd IH Hst]; subst.
  { cbn. split; [unfold fetched; by rewrite N.add_0_r, N.mod_small|]. exists ∅, [].
    split; [by rewrite fmap_empty|]. split; [done|]. split; [by intros ? ? ?|]. split; [by intros ? ? ? ?|].
    split; [constructor|]. intros ? H; by apply elem_of_nil in H. }
  destruct (IH eq_refl) as (Hc&pk&rk&Hpe&Hre&Hp&Hi&Hn&Hr). clear IH. rewrite fetches_app.
  unfold returned in *. rewrite omap_app, Hre.
  inversion Hst as [s' th Hth|s' th c Hth Hdb|s' th c Hth Hdb Hcm]; subst; cbn [d_cnt d_pend omap list_omap].
  - change (fetches [DFetch th]) with 1%N. split.
    { rewrite Hc. unfold fetched. rewrite N.add_mod_idemp_l by lia. f_equal. lia. }
    exists (<[th := fetches es]> pk), rk. split; [by rewrite fmap_insert, Hpe, Hc|]. split; [by rewrite app_nil_r|]. split.
    { intros th' k. destruct (decide (th' = th)) as [->|Hne].
      - rewrite lookup_insert. intros [= <-]. split; [lia|]. intros Hk%Hr. lia.
      - rewrite lookup_insert_ne by done. intros [? ?]%Hp. split; [lia|done]. }
    split.
    { intros th1 th2 k H1 H2. destruct (decide (th1 = th)) as [->|?], (decide (th2 = th)) as [->|?]; [done| | |].
      - rewrite lookup_insert in H1. injection H1 as <-. rewrite lookup_insert_ne in H2 by done. apply Hp in H2. lia.
      - rewrite lookup_insert in H2. injection H2 as <-. rewrite lookup_insert_ne in H1 by done. apply Hp in H1. lia.
      - rewrite lookup_insert_ne in H1, H2 by done. by eapply Hi. }
    split; [done|]. intros k [? ?]%Hr. split; [lia|done].
  - change (fetches [DReturn th ((c + 1) mod usize_mod)]%N) with 0%N. rewrite N.add_0_r. split; [done|].
    rewrite Hpe, lookup_fmap in Hth. destruct (pk !! th) as [k|] eqn:Hk; [|done]. injection Hth as <-.
    destruct (Hp th k Hk) as [Hkb Hkn]. exists (delete th pk), (rk ++ [k]).
    split; [by rewrite fmap_delete, Hpe|]. split; [by rewrite fmap_app|]. split.
    { intros th' k' [Hne Hk']%lookup_delete_Some. destruct (Hp th' k' Hk') as [? ?]. split; [done|].
      rewrite elem_of_app, elem_of_list_singleton. intros [?|Heq]; [done|]. subst k'. destruct Hne. by eapply Hi. }
    split. { intros th1 th2 k' H1%lookup_delete_Some H2%lookup_delete_Some. eapply Hi; [apply H1|apply H2]. }
    split. { apply NoDup_app. split; [done|]. split; [|apply NoDup_singleton]. intros x Hx ->%elem_of_list_singleton. done. }
    intros k' [Hk'|Hk'%elem_of_list_singleton]%elem_of_app; [by apply Hr|]. subst k'. done.
  - change (fetches [DPanic th]) with 0%N. rewrite N.add_0_r. split; [done|]. exists (delete th pk), rk.
    split; [by rewrite fmap_delete, Hpe|]. split; [by rewrite app_nil_r|]. split.
    { intros th' k' [Hne Hk']%lookup_delete_Some. by eapply Hp. }
    split. { intros th1 th2 k' H1%lookup_delete_Some H2%lookup_delete_Some. eapply Hi; [apply H1|apply H2]. }
    done.
Qed.

Lemma mod_inj a b i j : (i < usize_mod)%N -> (j < usize_mod)%N ->
  ((a + i + b) mod usize_mod = (a + j + b) mod usize_mod)%N -> i = j.
Proof.
  intros Hi Hj H. pose proof usize_mod_big as Hpos.
  pose proof (N.div_mod (a + i + b) usize_mod ltac:(lia)) as Hd1. pose proof (N.div_mod (a + j + b) usize_mod ltac:(lia)) as Hd2.
  rewrite H in Hd1. set (q1 := ((a + i + b) / usize_mod)%N) in *. set (q2 := ((a + j + b) / usize_mod)%N) in *.
  destruct (N.lt_trichotomy q1 q2) as [Hq|[Hq|Hq]]; [nia|lia|nia].
Qed.
Lemma threads_limit dbg c0 es s : (c0 < usize_mod)%N -> dsteps dbg (DState c0 ∅) es s ->
  ((fetches es <= usize_mod)%N -> NoDup (returned es)) /\
  (dbg = true -> 0%N ∉ returned es) /\
  ((exists th, DPanic th ∈ es) \/ 0%N ∈ returned es -> (usize_mod <= c0 + fetches es)%N).
Proof.
  intros Hc0 Hd. pose proof usize_mod_big as Hpos. destruct (threads_ghost dbg c0 es s Hc0 Hd) as (_&pk&rk&_&Hre&_&_&Hn&Hr).
  assert (forall k, ((fetched c0 k + 1) mod usize_mod = (c0 + k + 1) mod usize_mod)%N) as Hf.
  { intros k. unfold fetched. by rewrite N.add_mod_idemp_l by lia. }
  split; [|split].
  - intros Hb. rewrite Hre. apply NoDup_fmap_2_strong; [|done]. intros i j Hi%Hr Hj%Hr. rewrite !Hf. apply mod_inj; lia.
  - intros Hdb. rewrite Hre. intros (k&Hk&Hin)%elem_of_list_fmap. apply Hr in Hin as [_ Hin]. specialize (Hin Hdb).
    assert (fetched c0 k < usize_mod)%N by (apply N.mod_lt; lia). rewrite N.mod_small in Hk by lia. lia.
  - intros Hor. destruct (decide (usize_mod <= c0 + fetches es)%N) as [|Hlt]; [done|].
    destruct (threads_unique dbg c0 es s Hd ltac:(lia)) as (_&Hu&Hp). destruct Hor as [[th Hth]|H0]; [by destruct (Hp th)|].
    apply Hu in H0. naive_solver.
Qed.
