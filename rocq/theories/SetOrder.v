(** * The order of the members of a set link

    What [insert] and [remove] of the four set types do to the order in which a set lists
    its members, described without the functions of the model, and what that makes of the
    set links of a node when a transaction is committed.  Used by PropsSets.v (C75). *)
From stdpp Require Export gmap.
From Verif Require Export CommitFinal TransFinal.

(** [l'] is the set [l] after [remove(x)].  An IndexSet fills the gap with its last member,
    the other sets close it. *)
Inductive removed_from : setkind -> idx -> list idx -> list idx -> Prop :=
| rf_absent k x l : x ∉ l -> removed_from k x l l
| rf_close k x a b : k <> SIndex -> removed_from k x (a ++ x :: b) (a ++ b)
| rf_last x a : removed_from SIndex x (a ++ [x]) a
| rf_swap x a b z : removed_from SIndex x (a ++ x :: b ++ [z]) (a ++ z :: b).
(** [l'] is the set [l] after [insert(x)].  A BTreeSet puts it between the smaller and the
    larger members, the other sets at the end. *)
Inductive added_to : setkind -> idx -> list idx -> list idx -> Prop :=
| at_present k x l : x ∈ l -> added_to k x l l
| at_end k x l : k <> SBTree -> x ∉ l -> added_to k x l (l ++ [x])
| at_between x a b : (forall y, y ∈ a -> (y < x)%N) -> (forall y, y ∈ b -> (x < y)%N) -> added_to SBTree x (a ++ b) (a ++ x :: b).
(** [old] is taken out and [new] put in, if [old] is a member; the empty index is not put in *)
Definition set_moved (k : setkind) (old new : idx) (l l' : list idx) : Prop :=
  (old ∉ l /\ l' = l) \/
  (old ∈ l /\ exists l1, removed_from k old l l1 /\ (if decide (new = 0%N) then l' = l1 else added_to k new l1 l')).
(** one after the other *)
Inductive set_moves (k : setkind) : list (idx * idx) -> list idx -> list idx -> Prop :=
| moves_nil l : set_moves k [] l l
| moves_cons o z r l l1 l2 : set_moved k o z l l1 -> set_moves k r l1 l2 -> set_moves k ((o, z) :: r) l l2.

Lemma filter_ne_absent (x : idx) (l : list idx) : x ∉ l -> filter (fun y => y <> x) l = l.
Proof.
  induction l as [|y r IH]; [done|]. intros [Hy Hr]%not_elem_of_cons. rewrite filter_cons, decide_True by done. by rewrite IH.
Qed.
Lemma filter_ne_split (x : idx) (a b : list idx) : NoDup (a ++ x :: b) -> filter (fun y => y <> x) (a ++ x :: b) = a ++ b.
Proof.
  intros (_&Ha&Hb)%NoDup_app. apply NoDup_cons in Hb as [Hb _]. rewrite filter_app, filter_cons, decide_False by naive_solver.
  rewrite !filter_ne_absent; [done|done|]. intros Hx. by apply (Ha x Hx); left.
Qed.
Lemma swap_del_split (x : idx) (a b : list idx) : x ∉ a ->
  swap_del (fun y => y = x) (a ++ x :: b) = a ++ match last b with None => [] | Some z => z :: removelast b end.
Proof.
  induction a as [|y r IH]; cbn; [by rewrite decide_True|]. intros [Hy Hr]%not_elem_of_cons. rewrite decide_False by naive_solver.
  by rewrite IH.
Qed.
Lemma last_None_nil' {A} (l : list A) : last l = None -> l = [].
Proof. apply last_None. Qed.

Lemma set_remove_removed k x l : NoDup l -> removed_from (st_kind k) x l (set_remove k x l).
Proof.
  intros Hnd. destruct (decide (x ∈ l)) as [Hx|Hx].
  - apply elem_of_list_split in Hx as (a&b&->). assert (x ∉ a) as Ha.
    { apply NoDup_app in Hnd as (_&Ha&_). intros Hx. apply (Ha x Hx). left. }
    assert (st_kind k <> SIndex -> removed_from (st_kind k) x (a ++ x :: b) (oset_shift x (a ++ x :: b))) as Hs.
    { intros Hk. unfold oset_shift. rewrite filter_ne_split by done. by constructor. }
    unfold set_remove. destruct (st_kind k) eqn:Hk; [by apply Hs..|]. unfold oset_del. rewrite swap_del_split by done.
    destruct (last b) as [z|] eqn:Hb.
    + apply last_removelast in Hb. rewrite Hb at 1. constructor.
    + apply last_None_nil' in Hb as ->. rewrite app_nil_r. constructor.
  - assert (set_remove k x l = l) as ->; [|by constructor]. unfold set_remove, oset_del, oset_shift.
    destruct (st_kind k); try by apply filter_ne_absent. apply swap_del_none. intros y Hy ->. done.
Qed.
Lemma sorted_insert_split x l : x ∉ l -> StronglySorted N.lt l ->
  exists a b, l = a ++ b /\ sorted_insert x l = a ++ x :: b /\ (forall y, y ∈ a -> (y < x)%N) /\ (forall y, y ∈ b -> (x < y)%N).
Proof.
  intros Hx Hs. induction Hs as [|y r Hs IH HF]; cbn.
  - exists [], []. repeat split; intros ? H; by inversion H.
  - apply not_elem_of_cons in Hx as [Hxy Hx]. rewrite Forall_forall in HF. destruct (N.ltb_spec x y) as [Hlt|Hlt].
    + exists [], (y :: r). split; [done|]. split; [done|]. split; [by intros ? H; inversion H|].
      intros z [->|Hz]%elem_of_cons; [done|]. apply HF in Hz. lia.
    + destruct (IH Hx) as (a&b&->&->&Ha&Hb). exists (y :: a), b. split; [done|]. split; [done|]. split; [|done].
      intros z [->|Hz]%elem_of_cons; [lia|by apply Ha].
Qed.
Lemma set_insert_added k x l : set_rep k l -> added_to (st_kind k) x l (set_insert k x l).
Proof.
  intros [Hnd Hs]. unfold set_insert. case_decide as Hx; [by constructor|].
  destruct (st_kind k) eqn:Hk; try by constructor. destruct (sorted_insert_split x l Hx (Hs eq_refl)) as (a&b&->&->&Ha&Hb).
  by constructor.
Qed.

(** the descriptions leave one result *)
Lemma app_mid_inj (x : idx) (a b a' b' : list idx) : x ∉ a -> x ∉ a' -> a ++ x :: b = a' ++ x :: b' -> a = a' /\ b = b'.
Proof.
  revert a'. induction a as [|y r IH]; intros [|y' r']; cbn; intros Ha Ha' Heq; simplify_eq; [done| | |].
  - destruct Ha'. left.
  - destruct Ha. left.
  - apply not_elem_of_cons in Ha as [_ Ha]. apply not_elem_of_cons in Ha' as [_ Ha']. by destruct (IH r' Ha Ha') as [-> ->].
Qed.
Lemma nodup_mid (x : idx) (a b : list idx) : NoDup (a ++ x :: b) -> x ∉ a.
Proof. intros (_&Ha&_)%NoDup_app Hx. apply (Ha x Hx). left. Qed.
Lemma removed_is k x l l' : NoDup l -> removed_from (st_kind k) x l l' -> l' = set_remove k x l.
Proof.
  intros Hnd Hr. unfold set_remove, oset_del, oset_shift.
  inversion Hr as [k' x' l0 Hx|k' x' a b Hk|x' a Hk|x' a b z Hk]; subst.
  - destruct (st_kind k); try by rewrite filter_ne_absent. symmetry. apply swap_del_none. intros y Hy ->. done.
  - destruct (st_kind k); try done; by rewrite filter_ne_split.
  - rewrite swap_del_split by by eapply nodup_mid. by rewrite app_nil_r.
  - rewrite swap_del_split by by eapply nodup_mid. rewrite last_snoc. by rewrite removelast_last.
Qed.
Lemma between_inj (x : idx) (a b a' b' : list idx) : (forall y, y ∈ a -> (y < x)%N) -> (forall y, y ∈ b -> (x < y)%N) ->
  (forall y, y ∈ a' -> (y < x)%N) -> (forall y, y ∈ b' -> (x < y)%N) -> a ++ b = a' ++ b' -> a = a' /\ b = b'.
Proof.
  revert a'. induction a as [|y r IH]; intros [|y' r'] Ha Hb Ha' Hb' Heq; cbn in Heq.
  - done.
  - subst b. pose proof (Ha' y' ltac:(left)). pose proof (Hb y' ltac:(left)). lia.
  - subst b'. pose proof (Ha y ltac:(left)). pose proof (Hb' y ltac:(left)). lia.
  - injection Heq as -> Heq. destruct (IH r') as [-> ->]; try done; intros z Hz; [apply Ha|apply Ha']; by right.
Qed.
Lemma added_is k x l l' : set_rep k l -> added_to (st_kind k) x l l' -> l' = set_insert k x l.
Proof.
  intros [Hnd Hs] Ha. unfold set_insert. inversion Ha as [k' x' l0 Hx|k' x' l0 Hk Hx|x' a b H1 H2 Hk]; subst.
  - by rewrite decide_True.
  - rewrite decide_False by done. by destruct (st_kind k).
  - assert (x ∉ a ++ b) as Hx. { intros [Hx|Hx]%elem_of_app; [apply H1 in Hx|apply H2 in Hx]; lia. }
    rewrite decide_False by done. destruct (sorted_insert_split x (a ++ b) Hx) as (a'&b'&Heq&->&H1'&H2'); [by apply Hs|].
    by destruct (between_inj x a b a' b') as [-> ->].
Qed.
Lemma moved_is k o z l l' : set_rep k l -> set_moved (st_kind k) o z l l' -> LSet k l' = lv_redirect o z (LSet k l) /\ set_rep k l'.
Proof.
  intros Hr. cbn. intros [[Ho ->]|(Ho&l1&H1&H2)].
  - by rewrite decide_False.
  - rewrite (decide_True _ _ Ho). apply removed_is in H1 as ->; [|by apply set_rep_nd in Hr].
    pose proof (set_remove_rep k o l Hr). case_decide; [subst; by split|].
    apply added_is in H2 as ->; [|done]. split; [done|]. by apply set_insert_rep.
Qed.
Lemma lv_redirect_moved k o z l : set_rep k l ->
  exists l', lv_redirect o z (LSet k l) = LSet k l' /\ set_moved (st_kind k) o z l l' /\ set_rep k l'.
Proof.
  intros Hr. cbn. destruct (decide (o ∈ l)) as [Ho|Ho]; [|exists l; split; [done|]; split; [by left|done]].
  pose proof (set_remove_removed k o l (set_rep_nd _ _ Hr)) as H1. pose proof (set_remove_rep k o l Hr) as H2.
  case_decide as Hz; eexists; (split; [reflexivity|]); (split; [right; split; [done|]; eexists; split; [done|]|]).
  - by rewrite decide_True.
  - done.
  - rewrite decide_False by done. by apply set_insert_added.
  - by apply set_insert_rep.
Qed.
Lemma lvs_redirect_moves k res l : set_rep k l ->
  exists l', lvs_redirect res (LSet k l) = LSet k l' /\ set_moves (st_kind k) res l l' /\ set_rep k l'.
Proof.
  unfold lvs_redirect. revert l. induction res as [|[o z] res IH]; intros l Hr; cbn [fold_left]; [exists l; split; [done|]; split; [constructor|done]|].
  destruct (lv_redirect_moved k o z l Hr) as (l1&Heq&Hm&Hr1). rewrite Heq. destruct (IH l1 Hr1) as (l'&Heq'&Hm'&Hr').
  exists l'. split; [done|]. split; [by econstructor|done].
Qed.
Lemma moves_det k ms l l1 l2 : set_rep k l -> set_moves (st_kind k) ms l l1 -> set_moves (st_kind k) ms l l2 -> l1 = l2.
Proof.
  intros Hr H1. revert Hr l2. induction H1 as [|o z r l la lb Ha Hb IH]; intros Hr l2 H2; inversion H2 as [|? ? ? ? lc ? Hc Hd]; subst; [done|].
  apply (moved_is k) in Ha as [Ha Hra]; [|done]. apply (moved_is k) in Hc as [Hc _]; [|done]. rewrite <- Ha in Hc. injection Hc as ->.
  by apply IH.
Qed.
Lemma moves_app k ms1 ms2 l l1 l2 : set_moves k ms1 l l1 -> set_moves k ms2 l1 l2 -> set_moves k (ms1 ++ ms2) l l2.
Proof. induction 1; [done|]. intros. cbn. econstructor; [done|by auto]. Qed.

(** ** An OrderSet *)
Lemma moved_order o z (l l' : list idx) : NoDup l -> set_moved SOrder o z l l' ->
  NoDup l' /\ exists tail, sublist tail [z] /\ l' = filter (fun y => y <> o) l ++ tail /\ (z = 0%N -> tail = []).
Proof.
  intros Hnd [[Ho ->]|(Ho&l1&H1&H2)].
  - split; [done|]. exists []. rewrite filter_ne_absent, app_nil_r by done. split; [apply sublist_nil_l|done].
  - apply (removed_is SOrder) in H1 as ->; [|done]. pose proof (set_remove_NoDup SOrder o l Hnd) as Hn1.
    change (set_remove SOrder o l) with (filter (fun y => y <> o) l) in *. case_decide as Hz.
    + subst. split; [done|]. exists []. rewrite app_nil_r. split; [apply sublist_nil_l|done].
    + apply (added_is SOrder) in H2 as ->; [|by split]. split; [by apply set_insert_NoDup|]. unfold set_insert. cbn. case_decide.
      * exists []. rewrite app_nil_r. split; [apply sublist_nil_l|done].
      * exists [z]. done.
Qed.
Lemma filter_twice o (r l : list idx) : filter (fun y => y ∉ r) (filter (fun y => y <> o) l) = filter (fun y => y ∉ o :: r) l.
Proof.
  rewrite list_filter_filter. apply list_filter_iff. intros y. rewrite not_elem_of_cons. naive_solver.
Qed.
Lemma filter_sublist (P : idx -> Prop) `{forall x, Decision (P x)} (l : list idx) : sublist (filter P l) l.
Proof. induction l as [|y r IH]; [constructor|]. rewrite filter_cons. case_decide; by constructor. Qed.
Lemma moves_order ms (l l' : list idx) : NoDup l -> set_moves SOrder ms l l' ->
  NoDup l' /\ exists tail, sublist tail ms.*2 /\ l' = filter (fun y => y ∉ ms.*1) l ++ tail /\ 0%N ∉ tail.
Proof.
  intros Hnd H. revert Hnd. induction H as [|o z r l l1 l2 H1 H2 IH]; intros Hnd.
  - split; [done|]. exists []. split; [done|]. split; [|by apply not_elem_of_nil].
    rewrite app_nil_r. cbn. clear. induction l as [|y r IH]; [done|]. rewrite filter_cons, decide_True by apply not_elem_of_nil. by f_equal.
  - destruct (moved_order _ _ _ _ Hnd H1) as (Hn1&t1&Ht1&->&Hz). destruct (IH Hn1) as (Hn2&t2&Ht2&->&H0). split; [done|].
    exists (filter (fun y => y ∉ r.*1) t1 ++ t2). cbn. split; [|split].
    + change (z :: r.*2) with ([z] ++ r.*2). apply sublist_app; [|done]. etransitivity; [apply filter_sublist|done].
    + rewrite filter_app, filter_twice, <- app_assoc. done.
    + rewrite not_elem_of_app. split; [|done]. intros [_ Hin]%elem_of_list_filter. pose proof (sublist_submseteq _ _ Ht1) as Hss. pose proof (elem_of_submseteq _ _ _ Hin Hss) as Hz'.
      apply elem_of_list_singleton in Hz'. rewrite Hz in Hin by done. by apply elem_of_nil in Hin.
Qed.

(** ** Commits *)
Section order.
  Context {D : Type} (E : env) (T : Prop) (g : graph D) (t : trans D) (s : tspec D).
  Implicit Types (n : node D) (m : gmap N (node D)) (f : nat) (i : idx).
  Context (Hh : history E T g t s).

  Lemma redirects_moves res n f k l : node_ok E n -> nlinks n !! f = Some (LSet k l) ->
    exists l', nlinks (node_redirects res n) !! f = Some (LSet k l') /\ set_moves (st_kind k) res l l' /\ set_rep k l'.
  Proof using.
    intros Hok Hf. rewrite node_redirects_links. cbn. rewrite list_lookup_fmap, Hf. cbn.
    destruct (lvs_redirect_moves k res l) as (l'&->&Hm&Hr); [by eapply node_ok_rep|]. by exists l'.
  Qed.
  Lemma redirects_ok res n : node_ok E n -> node_ok E (node_redirects res n).
  Proof using.
    unfold node_redirects. revert n. induction res as [|[o z] res IH]; intros n Hok; cbn; [done|]. by apply IH, node_redirect_ok.
  Qed.
  Lemma late_moves (m m2 m3 m4 m' : gmap N (node D)) (i : idx) n (f : nat) k l :
    sp_mutates (ts_mut s) m = Some m2 -> sp_updates (ts_upd s) m2 = Some m3 ->
    sp_redirect (ts_redir_all s) m3 m4 -> sp_removes (ts_del s) m4 = Some m' ->
    untouched s i -> m !! i = Some n -> node_ok E n -> nlinks n !! f = Some (LSet k l) ->
    exists n' l' res, m' !! i = Some n' /\ nvar n' = nvar n /\ nlinks n' !! f = Some (LSet k l') /\
      redir_resolved (ts_redir_all s) res /\ set_moves (st_kind k) (res ++ ((fun x => (x, 0%N)) <$> ts_del s)) l l'.
  Proof using.
    intros H2 H3 (res&Hres&->) H5 (Hm&Hu&Hd) Hi Hok Hf.
    rewrite (sp_removes_closed _ _ _ H5), decide_False by done. rewrite lookup_fmap.
    rewrite (sp_updates_other _ _ _ _ H3 Hu), (sp_mutates_other _ _ _ _ H2 Hm), Hi. cbn.
    destruct (redirects_moves res n f k l Hok Hf) as (l1&Hf1&Hm1&_).
    destruct (redirects_moves ((fun x => (x, 0%N)) <$> ts_del s) _ f k l1 (redirects_ok res n Hok) Hf1) as (l2&Hf2&Hm2&_).
    do 3 eexists. split; [done|]. split; [by rewrite !node_redirects_links|]. split; [done|]. split; [done|]. by eapply moves_app.
  Qed.
  Lemma final_moves_new g' i n f k l : commit E t g = Done g' tt -> ts_new s !! i = Some n -> untouched s i ->
    nlinks n !! f = Some (LSet k l) -> ~ declared E (Link (nvar n) f) ->
    exists n' l' res, graph_get g' i = Some n' /\ nlinks n' !! f = Some (LSet k l') /\
      redir_resolved (ts_redir_all s) res /\ set_moves (st_kind k) (res ++ ((fun x => (x, 0%N)) <$> ts_del s)) l l'.
  Proof using Hh.
    intros Hc Hi Hu Hf Hb. destruct (final_refines _ _ _ _ _ Hh g' Hc) as (m&m'&Hm&(m1&m2&m3&m4&H1&H2&H3&H4&H5)&Hho).
    pose proof (history_ok _ _ _ _ _ Hh) as (Hwf&Hty&Ht&_&Hr&_). cbn [ts_txn x_redir x_redir_all x_mut x_upd x_new x_del] in *.
    assert (node_ok E n) as Hok. { eapply (ok_map_inc E T g t Ht i). rewrite (amap_get E) by apply Ht. rewrite <- (history_own _ _ _ _ _ Hh). done. }
    destruct (late_moves _ _ _ _ _ i n f k l H2 H3 H4 H5 Hu) as (n'&l'&res&Hn'&Hv&Hf'&Hres&Hmo); [by apply lookup_union_Some_l|done|done|].
    specialize (Hho i). rewrite Hn' in Hho. destruct (graph_get g' i) as [n2|] eqn:Hg'; [|by inversion Hho].
    assert (agree_nonbidi E n' n2) as (_&_&Ha) by by inversion Hho.
    exists n2, l', res. split; [done|]. split; [|done]. rewrite Ha; [done|by rewrite Hv].
  Qed.
  Lemma final_moves_old g' i n f k l : commit E t g = Done g' tt -> graph_get g i = Some n -> untouched s i ->
    nlinks n !! f = Some (LSet k l) -> ~ declared E (Link (nvar n) f) ->
    exists n' l' res1 res2, graph_get g' i = Some n' /\ nlinks n' !! f = Some (LSet k l') /\
      redir_resolved (ts_redir s) res1 /\ redir_resolved (ts_redir_all s) res2 /\
      set_moves (st_kind k) (res1 ++ res2 ++ ((fun x => (x, 0%N)) <$> ts_del s)) l l'.
  Proof using Hh.
    intros Hc Hi Hu Hf Hb. destruct (final_refines _ _ _ _ _ Hh g' Hc) as (m&m'&Hm&(m1&m2&m3&m4&(res1&Hres1&->)&H2&H3&H4&H5)&Hho).
    pose proof (history_ok _ _ _ _ _ Hh) as (Hwf&Hty&Ht&_&Hr&_). cbn [ts_txn x_redir x_redir_all x_mut x_upd x_new x_del] in *.
    pose proof (wf_nodes _ _ Hwf i n Hi) as Hok.
    destruct (redirects_moves res1 n f k l Hok Hf) as (l1&Hf1&Hm1&_).
    destruct (late_moves _ _ _ _ _ i (node_redirects res1 n) f k l1 H2 H3 H4 H5 Hu) as (n'&l'&res&Hn'&Hv&Hf'&Hres&Hmo).
    - rewrite lookup_union_r; [by rewrite lookup_fmap, (Hm i), Hi|]. rewrite (history_own _ _ _ _ _ Hh). by eapply (own_not_old E T).
    - by apply redirects_ok.
    - done.
    - specialize (Hho i). rewrite Hn' in Hho. destruct (graph_get g' i) as [n2|] eqn:Hg'; [|by inversion Hho].
      assert (agree_nonbidi E n' n2) as (_&_&Ha) by by inversion Hho.
      exists n2, l', res1, res. split; [done|]. split; [|split; [done|]; split; [done|]; by eapply moves_app].
      rewrite Ha; [done|]. by rewrite Hv, node_redirects_links.
  Qed.
End order.
