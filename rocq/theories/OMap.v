(** * Ordered maps and sets

    Model of the library types [ordermap::OrderMap] / [ordermap::OrderSet]
    (Cargo.toml: ordermap 0.5.3) used by /repo/src/typed_graph.rs,
    /repo/src/cate_arena.rs and the generated arenas: a map is the list of its
    entries in iteration order.  Documented behaviour of the library:
    - [insert] of an existing key replaces the value and keeps the position,
      of a new key appends at the end;
    - [swap_remove] fills the hole with the last entry;
    - [append] inserts every entry of the other map in order.
    Simplification: hashing and capacity are not modelled. *)
From Verif Require Export Base.

Section omap.
  Context {K V : Type} `{EqK : EqDecision K}.
  Implicit Types (m : list (K * V)) (k : K) (v : V).

  Fixpoint omap_get k m : option V :=
    match m with
    | [] => None
    | (k', v) :: m' => if decide (k = k') then Some v else omap_get k m'
    end.

  Fixpoint omap_insert k v m : list (K * V) :=
    match m with
    | [] => [(k, v)]
    | (k', v') :: m' => if decide (k = k') then (k', v) :: m' else (k', v') :: omap_insert k v m'
    end.

  Definition omap_append m1 m2 : list (K * V) :=
    fold_left (fun m '(k, v) => omap_insert k v m) m2 m1.

End omap.

Section swap.
  Context {A : Type} (P : A -> Prop) `{Pdec : forall a, Decision (P a)}.
  (** [swap_remove] of the first entry satisfying [P]. *)
  Fixpoint swap_del (l : list A) : list A :=
    match l with
    | [] => []
    | a :: r =>
      if decide (P a) then match last r with None => [] | Some z => z :: removelast r end
      else a :: swap_del r
    end.
End swap.

Definition omap_del {K V} `{EqK : EqDecision K} (k : K) (m : list (K * V)) : list (K * V) :=
  swap_del (fun kv => kv.1 = k) m.

(** [entry(k).or_default()] / [entry(k).or_insert(v)] *)
Definition omap_entry {K V} `{EqK : EqDecision K} (k : K) (v : V) (m : list (K * V)) : list (K * V) :=
  match omap_get k m with Some _ => m | None => omap_insert k v m end.

Section oset.
  Context {A : Type} `{EqA : EqDecision A}.
  Definition oset_insert (x : A) (l : list A) : list A :=
    if decide (x ∈ l) then l else l ++ [x].
  (** [OrderSet::swap_remove], [IndexSet::remove] *)
  Definition oset_del (x : A) (l : list A) : list A := swap_del (fun y => y = x) l.
  (** order-preserving removal: [OrderSet::remove], [BTreeSet::remove] *)
  Definition oset_shift (x : A) (l : list A) : list A := filter (fun y => y <> x) l.
End oset.

(** ** Lemmas *)
Section omap_lemmas.
  Context {K V : Type} `{EqK : EqDecision K}.
  Implicit Types (m : list (K * V)) (k : K) (v : V).

  Lemma omap_get_elem m k v : omap_get k m = Some v -> (k, v) ∈ m.
  Proof.
    induction m as [|[k' v'] m IH]; cbn; [done|].
    case_decide as Hk; [intros [= ->]; subst; left|intros ?; right; auto].
  Qed.
  Lemma omap_get_None m k : omap_get k m = None <-> k ∉ m.*1.
  Proof.
    induction m as [|[k' v'] m IH]; cbn; [split; [inversion 2|done]|].
    rewrite not_elem_of_cons. case_decide; [naive_solver|naive_solver].
  Qed.
  Lemma omap_get_Some_key m k v : omap_get k m = Some v -> k ∈ m.*1.
  Proof. intros H. apply omap_get_elem in H. apply elem_of_list_fmap. by exists (k, v). Qed.
  Lemma omap_key_get m k : k ∈ m.*1 -> is_Some (omap_get k m).
  Proof.
    intros H. destruct (omap_get k m) eqn:E; [by eexists|].
    by apply omap_get_None in E.
  Qed.
  Lemma omap_get_NoDup m k v : NoDup m.*1 -> (k, v) ∈ m -> omap_get k m = Some v.
  Proof.
    induction m as [|[k' v'] m IH]; cbn; [inversion 2|].
    rewrite NoDup_cons, elem_of_cons. intros [Hn Hnd] [[= -> ->]|Hin].
    - by rewrite decide_True.
    - rewrite decide_False; [auto|]. intros ->. apply Hn, elem_of_list_fmap.
      by exists (k', v).
  Qed.
  Lemma omap_get_iff m k v : NoDup m.*1 -> omap_get k m = Some v <-> (k, v) ∈ m.
  Proof. split; [apply omap_get_elem|by apply omap_get_NoDup]. Qed.
  Lemma omap_get_perm m1 m2 k : NoDup m1.*1 -> m1 ≡ₚ m2 -> omap_get k m1 = omap_get k m2.
  Proof.
    intros Hnd Hp. apply option_eq. intros v.
    rewrite !omap_get_iff; [by rewrite Hp| |done]. by rewrite <- Hp.
  Qed.

  Lemma omap_get_insert m k v k' :
    omap_get k' (omap_insert k v m) = if decide (k' = k) then Some v else omap_get k' m.
  Proof.
    induction m as [|[k0 v0] m IH]; cbn; [done|].
    destruct (decide (k = k0)) as [<-|Hne]; cbn.
    - repeat case_decide; congruence.
    - rewrite IH. repeat case_decide; congruence.
  Qed.
  Lemma omap_get_insert_eq m k v : omap_get k (omap_insert k v m) = Some v.
  Proof. by rewrite omap_get_insert, decide_True. Qed.
  Lemma omap_get_insert_ne m k v k' : k' <> k -> omap_get k' (omap_insert k v m) = omap_get k' m.
  Proof. intros. by rewrite omap_get_insert, decide_False. Qed.
  Lemma omap_insert_keys m k v k' : k' ∈ (omap_insert k v m).*1 <-> k' = k \/ k' ∈ m.*1.
  Proof.
    induction m as [|[k0 v0] m IH]; cbn.
    - rewrite elem_of_list_singleton. split; [auto|]. intros [?|H]; [done|inversion H].
    - case_decide; cbn; rewrite ?elem_of_cons; [naive_solver|]. rewrite IH. naive_solver.
  Qed.
  Lemma omap_insert_NoDup m k v : NoDup m.*1 -> NoDup (omap_insert k v m).*1.
  Proof.
    induction m as [|[k0 v0] m IH]; cbn.
    - intros _. apply NoDup_singleton.
    - rewrite NoDup_cons. intros [H1 H2]. case_decide; cbn; apply NoDup_cons; [done|].
      rewrite omap_insert_keys. split; [|auto]. intros [?|?]; [congruence|done].
  Qed.
  Lemma omap_insert_fresh m k v : k ∉ m.*1 -> omap_insert k v m = m ++ [(k, v)].
  Proof.
    induction m as [|[k0 v0] m IH]; cbn; [done|].
    rewrite not_elem_of_cons. intros [H1 H2]. rewrite decide_False by done. by rewrite IH.
  Qed.
  Lemma omap_insert_length_in m k v : k ∈ m.*1 -> length (omap_insert k v m) = length m.
  Proof.
    induction m as [|[k0 v0] m IH]; cbn; [inversion 1|].
    rewrite elem_of_cons. case_decide; cbn; [done|].
    intros [?|?]; [congruence|]. by rewrite IH.
  Qed.
  Lemma omap_insert_elem m k v k' v' :
    NoDup m.*1 -> (k', v') ∈ omap_insert k v m <->
      (k' = k /\ v' = v) \/ (k' <> k /\ (k', v') ∈ m).
  Proof.
    intros Hnd. rewrite <- !omap_get_iff by auto using omap_insert_NoDup.
    rewrite omap_get_insert. case_decide; naive_solver.
  Qed.

  Lemma omap_get_append m1 m2 k :
    NoDup m2.*1 ->
    omap_get k (omap_append m1 m2) =
      match omap_get k m2 with Some v => Some v | None => omap_get k m1 end.
  Proof.
    unfold omap_append. revert m1.
    induction m2 as [|[k0 v0] m2 IH]; intros m1; cbn; [done|].
    rewrite NoDup_cons. intros [H1 H2]. rewrite IH by done.
    rewrite omap_get_insert. case_decide as Hk; [subst|done].
    assert (omap_get k0 m2 = None) as -> by by apply omap_get_None. done.
  Qed.
  Lemma omap_append_keys m1 m2 k : k ∈ (omap_append m1 m2).*1 <-> k ∈ m1.*1 \/ k ∈ m2.*1.
  Proof.
    unfold omap_append. revert m1.
    induction m2 as [|[k0 v0] m2 IH]; intros m1; cbn.
    - split; [auto|]. intros [?|H]; [done|inversion H].
    - rewrite IH, omap_insert_keys, elem_of_cons. naive_solver.
  Qed.
  Lemma omap_append_NoDup m1 m2 : NoDup m1.*1 -> NoDup (omap_append m1 m2).*1.
  Proof.
    unfold omap_append. revert m1.
    induction m2 as [|[k0 v0] m2 IH]; intros m1 Hm; cbn; [done|].
    by apply IH, omap_insert_NoDup.
  Qed.
  Lemma omap_append_disjoint m1 m2 :
    NoDup m2.*1 -> (forall k, k ∈ m2.*1 -> k ∉ m1.*1) -> omap_append m1 m2 = m1 ++ m2.
  Proof.
    unfold omap_append. revert m1.
    induction m2 as [|[k0 v0] m2 IH]; intros m1; cbn; [by rewrite app_nil_r|].
    rewrite NoDup_cons. intros [Hk Hnd] Hd.
    rewrite omap_insert_fresh by (apply Hd; left).
    rewrite IH; [by rewrite <- app_assoc|done|].
    intros k Hin. rewrite fmap_app, elem_of_app. cbn. rewrite elem_of_list_singleton.
    intros [?| ->]; [|done]. eapply Hd; [by right|done].
  Qed.

  Lemma omap_get_entry m k v k' :
    omap_get k' (omap_entry k v m) =
      if decide (k' = k) then Some (default v (omap_get k m)) else omap_get k' m.
  Proof.
    unfold omap_entry. destruct (omap_get k m) as [v0|] eqn:E.
    - case_decide; [by subst|done].
    - rewrite omap_get_insert. by case_decide.
  Qed.
  Lemma omap_entry_NoDup m k v : NoDup m.*1 -> NoDup (omap_entry k v m).*1.
  Proof. unfold omap_entry. destruct (omap_get k m); auto using omap_insert_NoDup. Qed.
  Lemma omap_entry_keys m k v k' : k' ∈ (omap_entry k v m).*1 <-> k' = k \/ k' ∈ m.*1.
  Proof.
    unfold omap_entry. destruct (omap_get k m) eqn:E.
    - apply omap_get_Some_key in E. naive_solver.
    - apply omap_insert_keys.
  Qed.
End omap_lemmas.

Section swap_lemmas.
  Context {A : Type} (P : A -> Prop) `{Pdec : forall a, Decision (P a)}.

  Lemma last_removelast (l : list A) z : last l = Some z -> l = removelast l ++ [z].
  Proof.
    induction l as [|a l IH]; [done|]. destruct l as [|b l].
    - cbn. by intros [= ->].
    - intros H. change (last (b :: l) = Some z) in H.
      change (removelast (a :: b :: l)) with (a :: removelast (b :: l)).
      cbn [app]. f_equal. by apply IH.
  Qed.
  Lemma last_None_nil (l : list A) : last l = None -> l = [].
  Proof. by rewrite last_None. Qed.

  Lemma swap_del_none l : (forall a, a ∈ l -> ¬ P a) -> swap_del P l = l.
  Proof.
    induction l as [|a r IH]; cbn; [done|]. intros H.
    rewrite decide_False by (apply H; left). f_equal. apply IH. intros b Hb. apply H. by right.
  Qed.
  Lemma swap_del_perm l :
    (exists a, a ∈ l /\ P a) -> exists a, P a /\ a ∈ l /\ l ≡ₚ a :: swap_del P l.
  Proof.
    induction l as [|a r IH]; cbn; [intros (?&H&_); inversion H|].
    intros (b&Hb&HP). destruct (decide (P a)) as [Ha|Ha].
    - exists a. split; [done|]. split; [left|].
      destruct (last r) as [z|] eqn:E.
      + apply last_removelast in E. rewrite E at 1.
        apply Permutation_skip. rewrite Permutation_app_comm. done.
      + apply last_None_nil in E. by subst.
    - apply elem_of_cons in Hb as [->|Hb]; [done|].
      destruct IH as (c&Hc&Hin&Hp); [by exists b|].
      exists c. split; [done|]. split; [by right|].
      rewrite Hp at 1. apply Permutation_swap.
  Qed.
  Lemma swap_del_sub l a : a ∈ swap_del P l -> a ∈ l.
  Proof.
    intros Hin. destruct (decide (Exists P l)) as [H|H].
    - apply Exists_exists in H. apply swap_del_perm in H as (b&_&_&->). by right.
    - rewrite swap_del_none in Hin; [done|].
      intros b Hb HP. apply H, Exists_exists. eauto.
  Qed.
End swap_lemmas.

Section omap_del_lemmas.
  Context {K V : Type} `{EqK : EqDecision K}.
  Implicit Types (m : list (K * V)) (k : K) (v : V).

  Lemma omap_del_notin m k : k ∉ m.*1 -> omap_del k m = m.
  Proof.
    intros Hk. apply swap_del_none. intros [k' v'] Hin. cbn. intros ->.
    apply Hk, elem_of_list_fmap. by exists (k, v').
  Qed.
  Lemma omap_del_perm m k v :
    NoDup m.*1 -> omap_get k m = Some v -> m ≡ₚ (k, v) :: omap_del k m.
  Proof.
    intros Hnd Hg. pose proof (omap_get_elem _ _ _ Hg) as Hin.
    destruct (swap_del_perm (fun kv : K * V => kv.1 = k) m) as ([k' v']&Hk&Hin'&Hp).
    { by exists (k, v). }
    cbn in Hk. subst k'.
    assert (v' = v) as -> by (apply (omap_get_NoDup _ _ _ Hnd) in Hin'; congruence).
    done.
  Qed.
  Lemma omap_del_NoDup m k : NoDup m.*1 -> NoDup (omap_del k m).*1.
  Proof.
    intros Hnd. destruct (omap_get k m) as [v|] eqn:E.
    - pose proof (omap_del_perm _ _ _ Hnd E) as Hp.
      rewrite Hp in Hnd. cbn in Hnd. by apply NoDup_cons in Hnd as [_ ?].
    - rewrite omap_del_notin; [done|]. by apply omap_get_None.
  Qed.
  Lemma omap_get_del m k k' :
    NoDup m.*1 -> omap_get k' (omap_del k m) = if decide (k' = k) then None else omap_get k' m.
  Proof.
    intros Hnd. destruct (omap_get k m) as [v|] eqn:E.
    - pose proof (omap_del_perm _ _ _ Hnd E) as Hp.
      assert (NoDup ((k, v) :: omap_del k m).*1) as Hnd' by by rewrite <- Hp.
      rewrite (omap_get_perm _ _ k' Hnd Hp). cbn.
      case_decide as Hk; [subst|done].
      apply omap_get_None. cbn in Hnd'. by apply NoDup_cons in Hnd' as [? _].
    - rewrite omap_del_notin by by apply omap_get_None.
      case_decide; [by subst|done].
  Qed.
  Lemma omap_del_keys m k k' : NoDup m.*1 -> k' ∈ (omap_del k m).*1 <-> k' <> k /\ k' ∈ m.*1.
  Proof.
    intros Hnd. split.
    - intros Hin. apply omap_key_get in Hin as [v Hv]. rewrite omap_get_del in Hv by done.
      case_decide; [done|]. split; [done|]. by eapply omap_get_Some_key.
    - intros [Hne Hin]. apply omap_key_get in Hin as [v Hv].
      eapply omap_get_Some_key. rewrite omap_get_del by done. by rewrite decide_False.
  Qed.
  Lemma omap_del_length m k : NoDup m.*1 -> k ∈ m.*1 -> length m = S (length (omap_del k m)).
  Proof.
    intros Hnd Hin. apply omap_key_get in Hin as [v Hv].
    by rewrite (omap_del_perm _ _ _ Hnd Hv) at 1.
  Qed.
End omap_del_lemmas.

Section oset_lemmas.
  Context {A : Type} `{EqA : EqDecision A}.
  Implicit Types (x y : A) (l : list A).
  Lemma oset_insert_elem x y l : y ∈ oset_insert x l <-> y = x \/ y ∈ l.
  Proof.
    unfold oset_insert. case_decide; [naive_solver|].
    rewrite elem_of_app, elem_of_list_singleton. naive_solver.
  Qed.
  Lemma oset_insert_NoDup x l : NoDup l -> NoDup (oset_insert x l).
  Proof.
    unfold oset_insert. intros. case_decide; [done|].
    apply NoDup_app. split; [done|]. split; [|apply NoDup_singleton].
    intros z Hz ->%elem_of_list_singleton. done.
  Qed.
  Lemma oset_del_perm x l : x ∈ l -> l ≡ₚ x :: oset_del x l.
  Proof.
    intros Hin. destruct (swap_del_perm (fun y => y = x) l) as (z&->&_&Hp); [by exists x|done].
  Qed.
  Lemma oset_del_notin x l : x ∉ l -> oset_del x l = l.
  Proof. intros H. apply swap_del_none. intros a Ha ->. done. Qed.
  Lemma oset_del_NoDup x l : NoDup l -> NoDup (oset_del x l).
  Proof.
    intros Hnd. destruct (decide (x ∈ l)) as [H|H].
    - rewrite (oset_del_perm _ _ H) in Hnd. by apply NoDup_cons in Hnd as [_ ?].
    - by rewrite oset_del_notin.
  Qed.
  Lemma oset_del_elem x y l : NoDup l -> y ∈ oset_del x l <-> y <> x /\ y ∈ l.
  Proof.
    intros Hnd. destruct (decide (x ∈ l)) as [H|H].
    - pose proof (oset_del_perm _ _ H) as Hp. rewrite Hp in Hnd.
      apply NoDup_cons in Hnd as [Hx _]. rewrite Hp at 2. rewrite elem_of_cons. naive_solver.
    - rewrite oset_del_notin by done. naive_solver.
  Qed.
  Lemma oset_shift_elem x y l : y ∈ oset_shift x l <-> y <> x /\ y ∈ l.
  Proof. unfold oset_shift. by rewrite elem_of_list_filter. Qed.
  Lemma oset_shift_NoDup x l : NoDup l -> NoDup (oset_shift x l).
  Proof. apply NoDup_filter. Qed.
End oset_lemmas.
