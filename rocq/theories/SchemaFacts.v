(** * What the generated tables contain *)
From Verif Require Export Schema GraphFinal.

(** ** Library maps *)
Section btree.
  Context {K V : Type} `{EqK : EqDecision K} (ltb : K -> K -> bool).
  Implicit Types (m : list (K * V)) (k : K).

  Lemma bplace_perm x (l : list K) : bplace ltb x l ≡ₚ x :: l.
  Proof.
    induction l as [|y l IH]; [done|]. cbn. destruct (ltb x y); [done|]. rewrite IH. apply Permutation_swap.
  Qed.
  Lemma elem_of_bset_insert x y (l : list K) : y ∈ bset_insert ltb x l <-> y = x \/ y ∈ l.
  Proof. unfold bset_insert. case_decide; [naive_solver|]. rewrite bplace_perm, elem_of_cons. done. Qed.
  Lemma bset_insert_NoDup x (l : list K) : NoDup l -> NoDup (bset_insert ltb x l).
  Proof. intros Hl. unfold bset_insert. case_decide; [done|]. rewrite bplace_perm. by constructor. Qed.

  Lemma bmap_place_perm k v m : bmap_place ltb k v m ≡ₚ (k, v) :: m.
  Proof.
    induction m as [|[k' v'] m IH]; [done|]. cbn. destruct (ltb k k'); [done|]. rewrite IH. apply Permutation_swap.
  Qed.
  Lemma bmap_place_get k v m k' : k ∉ m.*1 ->
    omap_get k' (bmap_place ltb k v m) = if decide (k' = k) then Some v else omap_get k' m.
  Proof.
    induction m as [|[k1 v1] m IH]; cbn; [done|]. intros Hk. apply not_elem_of_cons in Hk as [Hne Hk].
    destruct (ltb k k1); cbn; [done|]. rewrite IH by done. case_decide; [|done]. subst. by rewrite decide_False by congruence.
  Qed.
  Lemma bmap_entry_get k f m k' :
    omap_get k' (bmap_entry ltb k f m) = if decide (k' = k) then Some (f (omap_get k m)) else omap_get k' m.
  Proof.
    unfold bmap_entry. destruct (omap_get k m) as [v|] eqn:Hk.
    - case_decide; [subst; apply omap_get_insert_eq|by apply omap_get_insert_ne].
    - apply bmap_place_get. by apply omap_get_None.
  Qed.
  Lemma bmap_entry_NoDup k f m : NoDup m.*1 -> NoDup (bmap_entry ltb k f m).*1.
  Proof.
    intros Hm. unfold bmap_entry. destruct (omap_get k m) as [v|] eqn:Hk; [by apply omap_insert_NoDup|].
    rewrite bmap_place_perm. cbn. constructor; [by apply omap_get_None|done].
  Qed.
End btree.

(** ** Finding by an injective name *)
Lemma list_find_unique {A B} `{EqDecision B} (f : A -> B) (l : list A) i x c :
  NoDup (f <$> l) -> l !! i = Some x -> f x = c -> list_find (fun y => f y = c) l = Some (i, x).
Proof.
  intros Hnd Hi <-. apply list_find_Some. split; [done|]. split; [done|]. intros j y Hj Hlt Heq.
  assert (i = j); [|lia]. eapply NoDup_lookup; [exact Hnd| |]; rewrite list_lookup_fmap.
  - by rewrite Hi.
  - by rewrite Hj, <- Heq.
Qed.
Lemma NoDup_fmap_in {A B} (f : A -> B) (l : list A) x y : NoDup (f <$> l) -> x ∈ l -> y ∈ l -> f x = f y -> x = y.
Proof.
  intros Hnd (i&Hi)%elem_of_list_lookup (j&Hj)%elem_of_list_lookup Heq.
  assert (i = j); [|congruence]. eapply NoDup_lookup; [exact Hnd| |]; rewrite list_lookup_fmap.
  - by rewrite Hi.
  - by rewrite Hj, Heq.
Qed.
Lemma omap_filter_fmap {A B} (P : A -> Prop) `{forall x, Decision (P x)} (f : A -> option B) (g : A -> B) (l : list A) :
  (forall x, P x -> f x = Some (g x)) -> (forall x, ~ P x -> f x = None) -> omap f l = g <$> filter P l.
Proof.
  intros H1 H2. induction l as [|x l IH]; [done|]. rewrite filter_cons. cbn. case_decide as Hx.
  - by rewrite H1, IH.
  - by rewrite H2, IH.
Qed.
Lemma list_find_cases {A} (P : A -> Prop) `{forall x, Decision (P x)} (l : list A) :
  (exists i x, list_find P l = Some (i, x) /\ l !! i = Some x /\ P x) \/ (list_find P l = None /\ forall x, x ∈ l -> ~ P x).
Proof.
  destruct (list_find P l) as [[i x]|] eqn:Hf.
  - apply list_find_Some in Hf as (?&?&?). left. by exists i, x.
  - right. split; [done|]. apply list_find_None in Hf. intros x Hx. rewrite Forall_forall in Hf. by apply Hf.
Qed.

Lemma elem_of_concat {A} (x : A) (ls : list (list A)) : x ∈ concat ls <-> exists l, x ∈ l /\ l ∈ ls.
Proof.
  induction ls as [|l ls IH]; cbn; [rewrite elem_of_nil; split; [done|]; intros (l&_&?%elem_of_nil); done|].
  rewrite elem_of_app, IH. setoid_rewrite elem_of_cons. naive_solver.
Qed.

Lemma insert_elem_1 {K V} `{EqDecision K} (m : list (K * V)) k v k' v' :
  (k', v') ∈ omap_insert k v m -> v' = v \/ (k', v') ∈ m.
Proof.
  induction m as [|[k1 v1] m IH]; cbn; [intros ?%elem_of_list_singleton; left; congruence|].
  case_decide; rewrite !elem_of_cons; intros [?|?]; [left; congruence|tauto|tauto|]. destruct (IH H0); tauto.
Qed.

(** ** The declared meaning *)
(** [fd] is the [f]-th link field of the struct *)
Definition is_link (fd : fdecl) : Prop := match f_ty fd with FLink _ => True | _ => False end.
Global Instance is_link_dec fd : Decision (is_link fd).
Proof. unfold is_link. destruct (f_ty fd); apply _. Defined.
Definition link_decls (sd : sdecl) : list fdecl := filter is_link (sd_fields sd).
(** the name [x] stands for the [f]-th link field: it is its name or one of its groups *)
Definition covers_link (sd : sdecl) (x : string) (f : nat) : Prop :=
  exists fd, link_decls sd !! f = Some fd /\ (x = f_name fd \/ exists a, a ∈ f_attrs fd /\ x ∈ a).
(** the name [x] stands for the [v]-th variant: it is its name or a group listing it *)
Definition covers_var (s : schema) (x : string) (v : nat) : Prop :=
  exists A sd, sc_vars s !! v = Some (A, sd) /\ (x = A \/ exists ms, (x, ms) ∈ sc_groups s /\ A ∈ ms).
(** [A.x] stands for the link [l] *)
Definition denotes (s : schema) (A x : string) (l : link) : Prop :=
  covers_var s A (l_var l) /\ covers_link (struct_of s (l_var l)) x (l_fld l).

(** Group names are distinct and differ from the names of variants (README.md:399). *)
Definition groups_apart (s : schema) : Prop :=
  NoDup (sc_groups s).*1 /\ forall x, x ∈ (sc_groups s).*1 -> x ∉ (sc_vars s).*1.
(** a link field carries at most one [#[group(..)]] attribute *)
Definition one_attribute (sd : sdecl) : Prop := forall fd, fd ∈ sd_fields sd -> length (f_attrs fd) <= 1.
(** no attribute lists a group twice *)
Definition attrs_distinct (sd : sdecl) : Prop := forall fd a, fd ∈ sd_fields sd -> a ∈ f_attrs fd -> NoDup a.
(** a name of the struct: a link field, a group of one, or a phantom group *)
Definition struct_name (sd : sdecl) (x : string) : Prop := (exists f, covers_link sd x f) \/ x ∈ sd_phantom sd.
(** a declaration spells the link or group as the struct does *)
Definition spelled (s : schema) (A x : string) : Prop :=
  forall v, covers_var s A v -> struct_name (struct_of s v) x.

Definition bidi_spelled (s : schema) : Prop := forall d, d ∈ sc_bidi s -> spelled s (b_var1 d) (b_link1 d) /\ spelled s (b_var2 d) (b_link2 d).
Definition anns_spelled (s : schema) : Prop := forall d, d ∈ sc_anns s -> spelled s (an_var d) (an_link d).
(** at most one annotation for a variant and a name *)
Definition anns_single (s : schema) : Prop :=
  forall d d' v, d ∈ sc_anns s -> d' ∈ sc_anns s -> covers_var s (an_var d) v -> covers_var s (an_var d') v -> an_link d = an_link d' -> d = d'.

Section struct_facts.
  Context (camel : string -> string) (sd : sdecl).

  Lemma links_decls : links sd = (fun fd => (f_name fd, match f_ty fd with FLink k => k | _ => KDirect end)) <$> link_decls sd.
  Proof.
    unfold links, link_decls. apply omap_filter_fmap; intros fd; unfold is_link, field_link; by destruct (f_ty fd).
  Qed.
  Lemma link_names_decls : link_names sd = f_name <$> link_decls sd.
  Proof. unfold link_names. rewrite links_decls, <- list_fmap_compose. done. Qed.
  Lemma link_names_lookup f : link_names sd !! f = f_name <$> link_decls sd !! f.
  Proof. rewrite link_names_decls, list_lookup_fmap. done. Qed.

  (** [groups] lines up with [links] if there is at most one attribute per field *)
  Lemma groups_decls : one_attribute sd -> groups sd = (fun fd => concat (f_attrs fd)) <$> link_decls sd.
  Proof.
    unfold groups, link_decls, one_attribute. destruct sd as [fs ph]. cbn. clear. intros Hone.
    induction fs as [|fd fs IH]; [done|]. rewrite filter_cons. cbn. rewrite IH by (intros ??; apply Hone; by right).
    specialize (Hone fd (elem_of_list_here _ _)). case_decide as Hl; unfold field_groups; unfold is_link in Hl; destruct (f_ty fd); try done.
    cbn.
    destruct (f_attrs fd) as [|a [|]]; cbn in *; [done|by rewrite app_nil_r|lia].
  Qed.
  Lemma to_logs_decl f fd : one_attribute sd -> link_decls sd !! f = Some fd ->
    to_logs camel sd f = camel (f_name fd) :: (camel <$> concat (f_attrs fd)).
  Proof.
    intros Hone Hf. unfold to_logs. rewrite links_decls, groups_decls by done.
    rewrite lookup_zip_with, !list_lookup_fmap, Hf. done.
  Qed.
  Lemma to_logs_none f : link_decls sd !! f = None -> to_logs camel sd f = [].
  Proof.
    intros Hf. unfold to_logs. rewrite links_decls, lookup_zip_with, list_lookup_fmap, Hf. done.
  Qed.
  Lemma elem_to_logs f c : one_attribute sd -> c ∈ to_logs camel sd f <-> exists x, covers_link sd x f /\ c = camel x.
  Proof.
    intros Hone. destruct (link_decls sd !! f) as [fd|] eqn:Hf.
    - rewrite (to_logs_decl f fd Hone Hf), elem_of_cons, elem_of_list_fmap. split.
      + intros [->|(x&->&(a&Hx&Ha)%elem_of_concat)].
        * exists (f_name fd). split; [|done]. exists fd. by split; [|left].
        * exists x. split; [|done]. exists fd. split; [done|]. right. by exists a.
      + intros (x&(fd'&Hfd&Hx)&->). assert (fd' = fd) as -> by congruence. destruct Hx as [->|(a&Ha&Hx)]; [by left|right].
        exists x. split; [done|]. apply elem_of_concat. by exists a.
    - rewrite (to_logs_none f Hf). split; [by intros ?%elem_of_nil|]. intros (x&(fd&Hfd&_)&_). congruence.
  Qed.

  (** ** The group map *)
  Lemma map_push_get g x m g' :
    omap_get g' (map_push g x m) = if decide (g' = g) then Some (default [] (omap_get g m) ++ [x]) else omap_get g' m.
  Proof. unfold map_push. by rewrite bmap_entry_get. Qed.

  Definition gm_ok (m : list (string * list string)) (R : string -> string -> Prop) : Prop :=
    NoDup m.*1 /\ forall g, (forall x, x ∈ default [] (omap_get g m) <-> R g x).
  Lemma pushes_get gs y m g :
    let m' := fold_left (fun m g => map_push g y m) gs m in
    (NoDup m.*1 -> NoDup m'.*1) /\
    (forall x, x ∈ default [] (omap_get g m') <-> x ∈ default [] (omap_get g m) \/ (g ∈ gs /\ x = y)) /\
    (g ∈ m'.*1 <-> g ∈ m.*1 \/ g ∈ gs).
  Proof.
    cbn. revert m. induction gs as [|g0 gs IH]; cbn; intros m.
    - split; [done|]. split; [intros x|]; split; try tauto; [intros [?|[?%elem_of_nil _]]|intros [?|?%elem_of_nil]]; done.
    - destruct (IH (map_push g0 y m)) as (IH1&IH2&IH3). split; [|split].
      + intros Hm. by apply IH1, bmap_entry_NoDup.
      + intros x. rewrite IH2, map_push_get, elem_of_cons. case_decide as Hg; [subst|tauto]. cbn.
        rewrite elem_of_app, elem_of_list_singleton. naive_solver.
      + rewrite IH3, elem_of_cons. assert (g ∈ (map_push g0 y m).*1 <-> g = g0 \/ g ∈ m.*1) as ->; [|tauto].
        split.
        * intros (xs&Hxs)%omap_key_get. rewrite map_push_get in Hxs. case_decide; [by left|right]. by eapply omap_get_Some_key.
        * intros Hg. destruct (omap_get g (map_push g0 y m)) as [xs|] eqn:Hxs; [by eapply omap_get_Some_key|].
          rewrite map_push_get in Hxs. case_decide; [done|]. apply omap_get_None in Hxs. tauto.
  Qed.
  Definition in_attrs (fd : fdecl) (g : string) : Prop := exists a, a ∈ f_attrs fd /\ g ∈ a.
  Lemma in_attrs_concat fd g : in_attrs fd g <-> g ∈ concat (f_attrs fd).
  Proof. unfold in_attrs. rewrite elem_of_concat. naive_solver. Qed.
  Lemma fields_get fs m g :
    let m' := fold_left map_field fs m in
    (NoDup m.*1 -> NoDup m'.*1) /\
    (forall x, x ∈ default [] (omap_get g m') <-> x ∈ default [] (omap_get g m) \/
       exists fd, fd ∈ fs /\ is_link fd /\ in_attrs fd g /\ x = f_name fd) /\
    (g ∈ m'.*1 <-> g ∈ m.*1 \/ exists fd, fd ∈ fs /\ is_link fd /\ in_attrs fd g).
  Proof.
    cbn. revert m. induction fs as [|fd fs IH]; cbn; intros m.
    - split; [done|]. split; [intros x|]; split; try tauto; intros [?|(fd&?%elem_of_nil&_)]; done.
    - destruct (IH (map_field m fd)) as (IH1&IH2&IH3). unfold map_field in *.
      destruct (decide (is_link fd)) as [Hl|Hl].
      + assert (exists k, f_ty fd = FLink k) as [k Hk] by (unfold is_link in Hl; destruct (f_ty fd); naive_solver).
        rewrite Hk in *. destruct (pushes_get (concat (f_attrs fd)) (f_name fd) m g) as (P1&P2&P3).
        split; [naive_solver|]. split.
        * intros x. rewrite IH2, P2, <- in_attrs_concat. setoid_rewrite elem_of_cons. naive_solver.
        * rewrite IH3, P3, <- in_attrs_concat. setoid_rewrite elem_of_cons. naive_solver.
      + assert (match f_ty fd with FLink _ => fold_left (fun m g => map_push g (f_name fd) m) (concat (f_attrs fd)) m | _ => m end = m) as Hm
          by (unfold is_link in Hl; destruct (f_ty fd); naive_solver).
        rewrite Hm in *. split; [naive_solver|]. split.
        * intros x. rewrite IH2. setoid_rewrite elem_of_cons. naive_solver.
        * rewrite IH3. setoid_rewrite elem_of_cons. naive_solver.
  Qed.
  Lemma phantoms_get ps m g :
    let m' := fold_left (fun m g => bmap_entry String.ltb g (default []) m) ps m in
    (NoDup m.*1 -> NoDup m'.*1) /\
    (forall x : string, x ∈ default [] (omap_get g m') <-> x ∈ default [] (omap_get g m)) /\
    (g ∈ m'.*1 <-> g ∈ m.*1 \/ g ∈ ps).
  Proof.
    cbn. revert m. induction ps as [|p ps IH]; cbn; intros m.
    - split; [done|]. split; [done|]. split; [tauto|]. by intros [?|?%elem_of_nil].
    - destruct (IH (bmap_entry String.ltb p (default []) m)) as (IH1&IH2&IH3). split; [|split].
      + intros Hm. by apply IH1, bmap_entry_NoDup.
      + intros x. rewrite IH2, bmap_entry_get. case_decide; [by subst|done].
      + rewrite IH3, elem_of_cons. assert (g ∈ (bmap_entry String.ltb p (default []) m).*1 <-> g = p \/ g ∈ m.*1) as ->; [|tauto].
        split.
        * intros (xs&Hxs)%omap_key_get. rewrite bmap_entry_get in Hxs. case_decide; [by left|right]. by eapply omap_get_Some_key.
        * intros Hg. destruct (omap_get g (bmap_entry String.ltb p (default []) m)) as [xs|] eqn:Hxs; [by eapply omap_get_Some_key|].
          rewrite bmap_entry_get in Hxs. case_decide; [done|]. apply omap_get_None in Hxs. tauto.
  Qed.
  Lemma elem_link_decls fd : fd ∈ link_decls sd <-> fd ∈ sd_fields sd /\ is_link fd.
  Proof. unfold link_decls. rewrite elem_of_list_filter. tauto. Qed.
  Lemma group_map_NoDup : NoDup (group_map sd).*1.
  Proof.
    apply (phantoms_get (sd_phantom sd) _ ""), (fields_get (sd_fields sd) [] ""). constructor.
  Qed.
  Lemma group_map_keys g : g ∈ (group_map sd).*1 <-> (exists fd, fd ∈ link_decls sd /\ in_attrs fd g) \/ g ∈ sd_phantom sd.
  Proof.
    unfold group_map. rewrite (proj2 (proj2 (phantoms_get _ _ g))), (proj2 (proj2 (fields_get _ _ g))).
    setoid_rewrite elem_link_decls. rewrite elem_of_nil. naive_solver.
  Qed.
  Lemma group_map_elem g xs x : (g, xs) ∈ group_map sd -> x ∈ xs <-> exists fd, fd ∈ link_decls sd /\ in_attrs fd g /\ x = f_name fd.
  Proof.
    intros Hg. apply omap_get_NoDup in Hg; [|apply group_map_NoDup].
    pose proof (proj1 (proj2 (phantoms_get (sd_phantom sd) (fold_left map_field (sd_fields sd) []) g)) x) as H1.
    rewrite (proj1 (proj2 (fields_get (sd_fields sd) [] g))) in H1. fold (group_map sd) in H1. rewrite Hg in H1. cbn in H1.
    rewrite H1. setoid_rewrite elem_link_decls. rewrite elem_of_nil. naive_solver.
  Qed.

  Lemma struct_name_iff x : struct_name sd x <-> x ∈ link_names sd \/ x ∈ (group_map sd).*1.
  Proof.
    unfold struct_name, covers_link. rewrite group_map_keys, link_names_decls, elem_of_list_fmap. split.
    - intros [(f&fd&Hf&Hx)|Hx]; [|tauto]. apply elem_of_list_lookup_2 in Hf. destruct Hx as [->|Hx]; [left|right; left]; by exists fd.
    - intros [(fd&->&(f&Hf)%elem_of_list_lookup)|[(fd&(f&Hf)%elem_of_list_lookup&Hx)|?]]; [left|left|tauto].
      + exists f, fd. tauto.
      + exists f, fd. tauto.
  Qed.

  (** ** Mirrors *)
  Context (Hacc : struct_accepted camel sd).

  Lemma log_names_inj x y : struct_name sd x -> struct_name sd y -> camel x = camel y -> x = y.
  Proof.
    intros Hx%struct_name_iff Hy%struct_name_iff. destruct Hacc as [_ Hm _]. unfold log_names in Hm.
    rewrite <- fmap_app in Hm. apply (NoDup_fmap_in camel _ x y Hm); by apply elem_of_app.
  Qed.
  Lemma link_names_NoDup : NoDup (link_names sd).
  Proof. destruct Hacc as [_ Hm _]. apply NoDup_app in Hm as (Hm&_). by apply NoDup_fmap_1 in Hm. Qed.
  Lemma group_not_link x : x ∈ link_names sd -> x ∉ (group_map sd).*1.
  Proof.
    intros Hx Hg. destruct Hacc as [_ Hm _]. apply NoDup_app in Hm as (_&Hm&_).
    eapply Hm; apply elem_of_list_fmap; by exists x.
  Qed.
  Lemma mirror_named_iff x f : struct_name sd x -> mirror_named camel sd (camel x) = Some f <-> exists fd, link_decls sd !! f = Some fd /\ f_name fd = x.
  Proof.
    intros Hx. unfold mirror_named. split.
    - intros ((i&[y k])&Hi&Heq)%fmap_Some. cbn in *. subst i. apply list_find_Some in Hi as (Hi&Hc&_). cbn in Hc.
      rewrite links_decls, list_lookup_fmap in Hi. apply fmap_Some in Hi as (fd&Hfd&[= -> ->]). exists fd. split; [done|].
      apply log_names_inj; [|done|done]. apply struct_name_iff. left. rewrite link_names_decls. apply elem_of_list_fmap.
      exists fd. split; [done|]. by eapply elem_of_list_lookup_2.
    - intros (fd&Hfd&<-).
      rewrite (list_find_unique (fun p => camel p.1) (links sd) f (f_name fd, match f_ty fd with FLink k => k | _ => KDirect end) (camel (f_name fd))); [done|..|done].
      + destruct Hacc as [_ Hm _]. apply NoDup_app in Hm as (Hm&_). unfold link_names in Hm. rewrite <- list_fmap_compose in Hm. done.
      + by rewrite links_decls, list_lookup_fmap, Hfd.
  Qed.

  (** [to_links] of a name gives exactly the fields it stands for *)
  Lemma elem_to_links x f : struct_name sd x -> f ∈ to_links camel sd (camel x) <-> covers_link sd x f.
  Proof.
    intros Hx. unfold to_links. destruct (mirror_named camel sd (camel x)) as [f0|] eqn:Hm.
    - rewrite elem_of_list_singleton. pose proof Hm as Hm'. apply mirror_named_iff in Hm' as (fd&Hfd&Heq); [|done]. split.
      + intros ->. exists fd. split; [done|]. by left.
      + intros (fd'&Hfd'&[Hn|Hat]).
        * assert (mirror_named camel sd (camel x) = Some f) by (apply mirror_named_iff; [done|by exists fd']). congruence.
        * exfalso. apply (group_not_link x).
          -- rewrite link_names_decls, <- Heq. apply elem_of_list_fmap_1. by eapply elem_of_list_lookup_2.
          -- apply group_map_keys. left. exists fd'. split; [by eapply elem_of_list_lookup_2|done].
    - assert (x ∉ link_names sd) as Hnl.
      { intros Hl. rewrite link_names_decls in Hl. apply elem_of_list_fmap in Hl as (fd&->&(f1&Hfd)%elem_of_list_lookup).
        assert (mirror_named camel sd (camel (f_name fd)) = Some f1) by (apply mirror_named_iff; [done|by exists fd]). congruence. }
      assert (x ∈ (group_map sd).*1) as Hg by (apply struct_name_iff in Hx; tauto).
      apply elem_of_list_fmap in Hg as ([x' xs]&Heq&(i&Hi)%elem_of_list_lookup). cbn in Heq. subst x'.
      rewrite (list_find_unique (fun p => camel p.1) (group_map sd) i (x, xs) (camel x)); [|..|done]; [|..|done].
      2: { destruct Hacc as [_ Hm' _]. apply NoDup_app in Hm' as (_&_&Hm'). by rewrite <- list_fmap_compose in Hm'. }
      apply elem_of_list_lookup_2 in Hi. rewrite elem_of_list_omap. split.
      + intros (y&Hy&Hf). pose proof (proj1 (group_map_elem _ _ y Hi) Hy) as (fd&Hfd&Hat&->).
        apply mirror_named_iff in Hf as (fd'&Hfd'&Heq).
        2: { apply struct_name_iff. left. rewrite link_names_decls. by apply elem_of_list_fmap_1. }
        assert (fd' = fd) as ->.
        { pose proof link_names_NoDup as Hnd. rewrite link_names_decls in Hnd.
          eapply (NoDup_fmap_in f_name); [exact Hnd|by eapply elem_of_list_lookup_2|done|done]. }
        exists fd. split; [done|]. by right.
      + intros (fd&Hfd&[->|Hat]).
        * exfalso. apply Hnl. rewrite link_names_decls. apply elem_of_list_fmap_1. by eapply elem_of_list_lookup_2.
        * exists (f_name fd). split.
          -- apply (group_map_elem _ _ _ Hi). exists fd. split; [by eapply elem_of_list_lookup_2|done].
          -- apply mirror_named_iff; [|by exists fd]. apply struct_name_iff. left. rewrite link_names_decls.
             apply elem_of_list_fmap_1. by eapply elem_of_list_lookup_2.
  Qed.
End struct_facts.

Section schema_facts.
  Context (camel : string -> string) (s : schema).
  Context (Hacc : accepted camel s).

  Lemma var_lookup v A sd : sc_vars s !! v = Some (A, sd) -> var_name s v = Some A /\ struct_of s v = sd /\ var_no s A = Some v.
  Proof.
    intros Hv. unfold var_name, struct_of, var_no. rewrite Hv. split_and!; [done|done|].
    rewrite (list_find_unique fst (sc_vars s) v (A, sd) A); [done|apply Hacc|done|done].
  Qed.
  Lemma var_name_inv v A : var_name s v = Some A -> exists sd, sc_vars s !! v = Some (A, sd).
  Proof. unfold var_name. intros ([A' sd]&Hv&->)%fmap_Some. by exists sd. Qed.
  Lemma var_no_inv v A : var_no s A = Some v -> exists sd, sc_vars s !! v = Some (A, sd).
  Proof.
    unfold var_no. intros ((i&[A' sd])&Hi&->)%fmap_Some. apply list_find_Some in Hi as (Hi&Heq&_). cbn in *. subst. by exists sd.
  Qed.
  Lemma var_elem A : A ∈ (sc_vars s).*1 <-> exists v sd, sc_vars s !! v = Some (A, sd).
  Proof.
    rewrite elem_of_list_fmap. split.
    - intros ([A' sd]&->&(v&Hv)%elem_of_list_lookup). by exists v, sd.
    - intros (v&sd&Hv). exists (A, sd). split; [done|]. by eapply elem_of_list_lookup_2.
  Qed.
  Lemma struct_ok v A sd : sc_vars s !! v = Some (A, sd) -> struct_accepted camel sd.
  Proof. intros Hv. eapply (ac_structs _ _ Hacc A sd). by eapply elem_of_list_lookup_2. Qed.

  (** ** Variant groups *)
  Context (Hgr : groups_apart s).

  Lemma var_groups_get x : omap_get x (var_groups s) = omap_get x (sc_groups s).
  Proof.
    unfold var_groups. destruct Hgr as [Hnd _]. revert Hnd. generalize (sc_groups s). intros gs Hnd.
    assert (forall m, omap_get x (fold_left (fun m (p : string * list string) => bmap_entry String.ltb p.1 (fun _ => p.2) m) gs m) =
      match omap_get x gs with Some ms => Some ms | None => omap_get x m end) as H; [|rewrite H; by destruct (omap_get x gs)].
    induction gs as [|[y ms] gs IH]; cbn; intros m; [done|]. apply NoDup_cons in Hnd as [Hy Hnd]. rewrite (IH Hnd).
    rewrite bmap_entry_get. case_decide as Hx; [subst x|done]. by rewrite (proj2 (omap_get_None gs y) Hy).
  Qed.
  Lemma elem_expand_var x A v sd : sc_vars s !! v = Some (A, sd) -> A ∈ expand_var s x <-> covers_var s x v.
  Proof.
    intros Hv. destruct Hgr as [Hnd Hap]. unfold expand_var, covers_var. rewrite var_groups_get.
    assert (A ∈ (sc_vars s).*1) as HA by (apply var_elem; by exists v, sd).
    destruct (omap_get x (sc_groups s)) as [ms|] eqn:Hx.
    - apply omap_get_elem in Hx. split.
      + intros Hms. exists A, sd. split; [done|]. right. by exists ms.
      + intros (A'&sd'&Hv'&Hcase). assert (A' = A) as -> by congruence. destruct Hcase as [->|(ms'&Hms'&Hin)].
        * exfalso. eapply Hap; [|exact HA]. apply elem_of_list_fmap. by exists (A, ms).
        * apply omap_get_NoDup in Hms'; [|done]. apply omap_get_NoDup in Hx; [|done]. congruence.
    - rewrite elem_of_list_singleton. apply omap_get_None in Hx. split.
      + intros ->. exists x, sd. split; [done|]. by left.
      + intros (A'&sd'&Hv'&Hcase). assert (A' = A) as -> by congruence. destruct Hcase as [->|(ms'&Hms'&Hin)]; [done|].
        exfalso. apply Hx. apply elem_of_list_fmap. by exists (x, ms').
  Qed.
  (** the expansion of a name consists of variants *)
  Lemma expand_var_variants x A : A ∈ expand_var s x -> A ∈ (sc_vars s).*1 \/ A = x.
  Proof.
    unfold expand_var. rewrite var_groups_get. destruct (omap_get x (sc_groups s)) as [ms|] eqn:Hx; [|intros ?%elem_of_list_singleton; tauto].
    apply omap_get_elem in Hx. intros HA. left. by apply (proj2 (ac_groups _ _ Hacc x ms Hx)).
  Qed.

  (** ** Bidirectional declarations *)
  Lemma elem_expand_bidi d : d ∈ expand_bidi s <->
    exists d0, d0 ∈ sc_bidi s /\ b_var1 d ∈ expand_var s (b_var1 d0) /\ b_var2 d ∈ expand_var s (b_var2 d0) /\
      b_link1 d = b_link1 d0 /\ b_link2 d = b_link2 d0.
  Proof.
    unfold expand_bidi. rewrite elem_of_list_bind. split.
    - intros (d0&(A&(B&Hd&HB)%elem_of_list_bind&HA)%elem_of_list_bind&Hd0). apply elem_of_list_singleton in Hd as ->.
      exists d0. done.
    - intros (d0&Hd0&HA&HB&H1&H2). exists d0. split; [|done]. apply elem_of_list_bind. exists (b_var1 d). split; [|done].
      apply elem_of_list_bind. exists (b_var2 d). split; [|done]. apply elem_of_list_singleton. destruct d. cbn in *. by subst.
  Qed.
  Definition to_of (m : bmap) (A x : string) : list (string * string) :=
    default [] (omap_get x (default [] (omap_get A m))).
  Lemma add_half_to A x B y m A' x' p :
    p ∈ to_of (add_half A x B y m) A' x' <-> p ∈ to_of m A' x' \/ (A' = A /\ x' = x /\ p = (B, y)).
  Proof.
    unfold to_of, add_half. rewrite bmap_entry_get. case_decide as HA; cbn; [subst A'|naive_solver].
    rewrite bmap_entry_get. case_decide as Hx; cbn; [subst x'|naive_solver].
    rewrite elem_of_bset_insert. naive_solver.
  Qed.
  Lemma add_half_NoDup A x B y m : (forall xs, (forall A', omap_get A' m = Some xs -> NoDup xs.*1)) ->
    forall A' xs, omap_get A' (add_half A x B y m) = Some xs -> NoDup xs.*1.
  Proof.
    intros Hm A' xs. unfold add_half. rewrite bmap_entry_get. case_decide as HA; [subst A'|by intros; eapply Hm].
    intros [= <-]. apply bmap_entry_NoDup. destruct (omap_get A m) as [xs|] eqn:Hxs; cbn; [by eapply Hm|constructor].
  Qed.
  Lemma b_links_facts :
    (forall A x p, p ∈ to_of (b_links s) A x <-> Bidi A x p.1 p.2 ∈ expand_bidi s \/ Bidi p.1 p.2 A x ∈ expand_bidi s) /\
    (forall A xs, omap_get A (b_links s) = Some xs -> NoDup xs.*1).
  Proof.
    unfold b_links. generalize (expand_bidi s) as ds. intros ds.
    assert (forall m, (forall A xs, omap_get A m = Some xs -> NoDup xs.*1) ->
      (forall A x p, p ∈ to_of (fold_left add_bidi ds m) A x <->
         p ∈ to_of m A x \/ Bidi A x p.1 p.2 ∈ ds \/ Bidi p.1 p.2 A x ∈ ds) /\
      (forall A xs, omap_get A (fold_left add_bidi ds m) = Some xs -> NoDup xs.*1)) as H.
    { induction ds as [|d ds IH]; cbn [fold_left]; intros m Hm.
      - split; [|done]. intros A x p. rewrite !elem_of_nil. tauto.
      - destruct (IH (add_bidi m d)) as [IH1 IH2].
        { intros A xs. unfold add_bidi. intros Hxs. eapply add_half_NoDup; [|exact Hxs]. clear A xs Hxs. intros xs A Hxs.
          eapply add_half_NoDup; [|exact Hxs]. intros ???. by eapply Hm. }
        split; [|done]. intros A x p. rewrite IH1. unfold add_bidi. rewrite !add_half_to, !elem_of_cons.
        destruct d as [A1 x1 A2 x2], p as [B y]. cbn. naive_solver. }
    destruct (H []) as [H1 H2]; [done|]. split; [|done]. intros A x p. rewrite H1. unfold to_of. cbn. rewrite elem_of_nil. tauto.
  Qed.

  (** ** The opposite relation *)
  Context (Hone : forall A sd, (A, sd) ∈ sc_vars s -> one_attribute sd).
  Context (Hsp : forall d, d ∈ sc_bidi s -> spelled s (b_var1 d) (b_link1 d) /\ spelled s (b_var2 d) (b_link2 d)).

  Definition declares (l m : link) : Prop :=
    exists d, d ∈ sc_bidi s /\ denotes s (b_var1 d) (b_link1 d) l /\ denotes s (b_var2 d) (b_link2 d) m.

  Lemma expanded_vars d : d ∈ expand_bidi s -> b_var1 d ∈ (sc_vars s).*1 /\ b_var2 d ∈ (sc_vars s).*1.
  Proof.
    intros Hd. destruct (ac_bidi _ _ Hacc d Hd) as [(v&sd&Hv&_) (w&sd'&Hw&_)]. split; apply var_elem; eauto.
  Qed.
  Lemma expanded_iff A x B y v sd w sd' : sc_vars s !! v = Some (A, sd) -> sc_vars s !! w = Some (B, sd') ->
    Bidi A x B y ∈ expand_bidi s <->
    exists d, d ∈ sc_bidi s /\ covers_var s (b_var1 d) v /\ covers_var s (b_var2 d) w /\ x = b_link1 d /\ y = b_link2 d.
  Proof.
    intros Hv Hw. rewrite elem_expand_bidi. cbn. setoid_rewrite (elem_expand_var _ A v sd Hv).
    setoid_rewrite (elem_expand_var _ B w sd' Hw). done.
  Qed.
  Lemma expanded_spelled A x B y v sd : sc_vars s !! v = Some (A, sd) ->
    Bidi A x B y ∈ expand_bidi s \/ Bidi B y A x ∈ expand_bidi s -> struct_name sd x.
  Proof.
    intros Hv Hin. destruct (var_lookup v A sd Hv) as (_&Hsd&_).
    assert (B ∈ (sc_vars s).*1) as (w&sd'&Hw)%var_elem by (destruct Hin as [H|H]; apply (expanded_vars _ H)).
    rewrite <- Hsd. destruct Hin as [Hin|Hin].
    - destruct (proj1 (expanded_iff A x B y v sd w sd' Hv Hw) Hin) as (d&Hd&H1&H2&->&->). by apply (Hsp d Hd).
    - destruct (proj1 (expanded_iff B y A x w sd' v sd Hw Hv) Hin) as (d&Hd&H1&H2&->&->). by apply (Hsp d Hd).
  Qed.

  Lemma elem_opp_log v A sd x m : sc_vars s !! v = Some (A, sd) -> struct_name sd x ->
    m ∈ opp_log camel s v (camel x) <-> exists p, p ∈ to_of (b_links s) A x /\ m ∈ expand_log camel s p.1 (camel p.2).
  Proof.
    intros Hv Hx. destruct (var_lookup v A sd Hv) as (Hn&Hsd&_). unfold opp_log. rewrite Hn. cbn. unfold to_of.
    destruct (omap_get A (b_links s)) as [xs|] eqn:Hxs; cbn; [|split; [by intros ?%elem_of_nil|intros (p&?%elem_of_nil&_); done]].
    assert (forall z to, (z, to) ∈ xs -> camel z = camel x -> to <> [] -> z = x) as Hz.
    { intros z to Hz Heq Hto. destruct to as [|[B y] to]; [done|]. apply (log_names_inj camel sd (struct_ok v A sd Hv)); [|done|done].
      eapply (expanded_spelled A z B y v sd Hv). apply (proj1 b_links_facts A z (B, y)). unfold to_of. rewrite Hxs. cbn.
      rewrite (omap_get_NoDup xs z _ (proj2 b_links_facts A xs Hxs) Hz). left. }
    assert (forall z to, (z, to) ∈ xs -> to <> []) as Hne.
    { revert Hxs. clear. unfold b_links. generalize (expand_bidi s). intros ds.
      assert (forall m, (forall A xs z to, omap_get A m = Some xs -> (z, to) ∈ xs -> to <> []) ->
        forall A xs z to, omap_get A (fold_left add_bidi ds m) = Some xs -> (z, to) ∈ xs -> to <> []) as H.
      2: { intros Hxs z to Hz. by eapply (H []). }
      assert (forall A x B y m, (forall A xs z to, omap_get A m = Some xs -> (z, to) ∈ xs -> to <> []) ->
        forall A' xs z to, omap_get A' (add_half A x B y m) = Some xs -> (z, to) ∈ xs -> to <> []) as Hh.
      { intros A1 x B y m Hm A' xs' z to. unfold add_half. rewrite bmap_entry_get. case_decide as HA; [subst A'|by apply Hm].
        intros [= <-]. unfold bmap_entry. 
        assert (forall p (l : list (string * string)), bset_insert pair_ltb p l <> []) as Hb.
        { intros p l Hl. assert (p ∈ bset_insert pair_ltb p l) as Hp by (apply elem_of_bset_insert; by left). rewrite Hl in Hp. by apply elem_of_nil in Hp. }
        destruct (omap_get x (default [] (omap_get A1 m))) as [v|] eqn:Hv.
        - intros [->|Hin]%insert_elem_1; [apply Hb|]. destruct (omap_get A1 m) as [ys|] eqn:Hys; [by eapply Hm|by apply elem_of_nil in Hin].
        - rewrite bmap_place_perm, elem_of_cons. intros [[= -> ->]|Hin]; [apply Hb|].
          destruct (omap_get A1 m) as [ys|] eqn:Hys; [by eapply Hm|by apply elem_of_nil in Hin]. }
      induction ds as [|d ds IH]; cbn [fold_left]; intros m Hm; [done|]. apply IH. unfold add_bidi. do 2 apply Hh. done. }
    destruct (list_find_cases (fun p : string * list (string * string) => camel p.1 = camel x) xs) as [(i&[z to]&Hf&Hi&Heq)|[Hf Hnone]];
      rewrite Hf; cbn in *.
    - apply elem_of_list_lookup_2 in Hi. assert (z = x) as -> by (eapply Hz; [exact Hi|done|by eapply Hne]).
      rewrite (omap_get_NoDup xs x to (proj2 b_links_facts A xs Hxs) Hi). cbn. rewrite elem_of_list_bind. naive_solver.
    - destruct (omap_get x xs) as [to|] eqn:Hto; cbn.
      + exfalso. apply (Hnone (x, to)); [|done]. by apply omap_get_elem.
      + split; [by intros ?%elem_of_nil|intros (p&?%elem_of_nil&_); done].
  Qed.

  Lemma elem_expand_log A v sd y m : sc_vars s !! v = Some (A, sd) -> struct_name sd y ->
    m ∈ expand_log camel s A (camel y) <-> l_var m = v /\ covers_link sd y (l_fld m).
  Proof.
    intros Hv Hy. destruct (var_lookup v A sd Hv) as (_&Hsd&Hno). unfold expand_log. rewrite Hno, Hsd, elem_of_list_fmap.
    setoid_rewrite (elem_to_links camel sd (struct_ok v A sd Hv) y _ Hy). destruct m as [v' f]. cbn. split.
    - intros (f'&[= -> ->]&?). done.
    - intros [-> ?]. by exists f.
  Qed.

  Lemma opp_declares l m : m ∈ opp camel s l <-> declares l m \/ declares m l.
  Proof.
    unfold opp. rewrite elem_of_list_bind.
    destruct (sc_vars s !! l_var l) as [[A sd]|] eqn:Hv.
    2: { split.
      - intros (c&_&Hc). exfalso. revert Hc. unfold struct_of. rewrite Hv. cbn. by intros ?%elem_of_nil.
      - intros Hd. exfalso. assert (exists X, covers_var s X (l_var l)) as (X&A&sd&Hv'&_); [|congruence].
        destruct Hd as [(d&_&[? _]&_)|(d&_&_&[? _])]; eauto. }
    destruct (var_lookup _ A sd Hv) as (_&Hsd&_). pose proof (Hone A sd (elem_of_list_lookup_2 _ _ _ Hv)) as Ho. rewrite Hsd.
    setoid_rewrite (elem_to_logs camel sd (l_fld l) _ Ho). split.
    - intros (c&Hm&x&Hx&->). apply (elem_opp_log _ A sd x m Hv) in Hm as ([B y]&Hp&Hm); [|left; by eexists].
      cbn in Hm. apply (proj1 b_links_facts) in Hp. cbn in Hp.
      assert (B ∈ (sc_vars s).*1) as (w&sd'&Hw)%var_elem by (destruct Hp as [H|H]; apply (expanded_vars _ H)).
      assert (struct_name sd' y) as Hy by (eapply (expanded_spelled B y A x w sd' Hw); tauto).
      apply (elem_expand_log B w sd' y m Hw Hy) in Hm as [Hlv Hm]. destruct (var_lookup w B sd' Hw) as (_&Hsd'&_).
      destruct Hp as [Hp|Hp]; [left|right].
      + destruct (proj1 (expanded_iff A x B y _ sd w sd' Hv Hw) Hp) as (d&Hd&H1&H2&->&->).
        exists d. unfold denotes. rewrite Hlv, Hsd, Hsd'. auto.
      + destruct (proj1 (expanded_iff B y A x w sd' _ sd Hw Hv) Hp) as (d&Hd&H1&H2&->&->).
        exists d. unfold denotes. rewrite Hlv, Hsd, Hsd'. auto.
    - intros Hd. assert (exists w, l_var m = w /\ exists B sd', sc_vars s !! w = Some (B, sd')) as (w&Hlm&B&sd'&Hw).
      { exists (l_var m). split; [done|]. destruct Hd as [(d&_&_&[(B&sd'&?&_) _])|(d&_&[(B&sd'&?&_) _]&_)]; eauto. }
      destruct (var_lookup w B sd' Hw) as (_&Hsd'&_).
      assert (exists x y, covers_link sd x (l_fld l) /\ covers_link sd' y (l_fld m) /\ (Bidi A x B y ∈ expand_bidi s \/ Bidi B y A x ∈ expand_bidi s)) as (x&y&Hx&Hy&Hin).
      { unfold declares, denotes in Hd. rewrite Hlm, Hsd, Hsd' in Hd.
        destruct Hd as [(d&Hd&[H1 H2]&[H3 H4])|(d&Hd&[H1 H2]&[H3 H4])]; [exists (b_link1 d), (b_link2 d)|exists (b_link2 d), (b_link1 d)];
          (split; [done|]; split; [done|]).
        - left. eapply (expanded_iff A _ B _ _ _ _ _ Hv Hw). by exists d.
        - right. eapply (expanded_iff B _ A _ _ _ _ _ Hw Hv). by exists d. }
      exists (camel x). split; [|by exists x]. apply (elem_opp_log _ A sd x m Hv); [left; by eexists|].
      exists (B, y). split; [by apply (proj1 b_links_facts)|]. cbn.
      apply (elem_expand_log B w sd' y m Hw); [left; by eexists|]. done.
  Qed.
End schema_facts.

(** ** Link type annotations *)
Section anno_facts.
  Context (camel : string -> string) (s : schema).
  Context (Hacc : accepted camel s) (Hgr : groups_apart s).
  Context (Hone : forall A sd, (A, sd) ∈ sc_vars s -> one_attribute sd).
  Context (Hsp : forall d, d ∈ sc_anns s -> spelled s (an_var d) (an_link d)).

  Lemma elem_expand_anns d : d ∈ expand_anns s <->
    exists d0, d0 ∈ sc_anns s /\ an_var d ∈ expand_var s (an_var d0) /\ an_link d = an_link d0 /\
      an_targets d = (an_targets d0 ≫= expand_var s).
  Proof.
    unfold expand_anns. rewrite elem_of_list_bind. split.
    - intros (d0&(A&Hd&HA)%elem_of_list_bind&Hd0). apply elem_of_list_singleton in Hd as ->. by exists d0.
    - intros (d0&Hd0&HA&H1&H2). exists d0. split; [|done]. apply elem_of_list_bind. exists (an_var d). split; [|done].
      apply elem_of_list_singleton. destruct d. cbn in *. by subst.
  Qed.
  Lemma anno_map_get A c ws : (c, ws) ∈ default [] (omap_get A (anno_map camel s)) <->
    exists d, d ∈ expand_anns s /\ an_var d = A /\ c = camel (an_link d) /\ ws = an_targets d.
  Proof.
    unfold anno_map. generalize (expand_anns s) as ds. intros ds.
    assert (forall m, (c, ws) ∈ default [] (omap_get A (fold_left (fun m d => bmap_entry String.ltb (an_var d)
        (fun o => bset_insert ann_ltb (camel (an_link d), an_targets d) (default [] o)) m) ds m)) <->
      (c, ws) ∈ default [] (omap_get A m) \/ exists d, d ∈ ds /\ an_var d = A /\ c = camel (an_link d) /\ ws = an_targets d) as H.
    2: { rewrite H. cbn. rewrite elem_of_nil. tauto. }
    induction ds as [|d ds IH]; cbn [fold_left]; intros m.
    - split; [tauto|]. intros [?|(d&?%elem_of_nil&_)]; done.
    - rewrite IH, bmap_entry_get. setoid_rewrite elem_of_cons. case_decide as HA; cbn.
      + subst A. rewrite elem_of_bset_insert. naive_solver.
      + naive_solver.
  Qed.

  (** the annotations of the [v]-th variant that use the name [x] *)
  Definition annotates (d : adecl) (v : nat) (x : string) : Prop := d ∈ sc_anns s /\ covers_var s (an_var d) v /\ an_link d = x.
  Definition allows (d : adecl) (t : nat) : Prop := exists W, W ∈ an_targets d /\ covers_var s W t.

  (** exactly one of the annotations for the same name is looked at *)
  Lemma check_log_iff t v A sd x : sc_vars s !! v = Some (A, sd) -> struct_name sd x ->
    (forall d d', annotates d v x -> annotates d' v x -> d = d') ->
    check_log camel s t v (camel x) = true <-> forall d, annotates d v x -> allows d t.
  Proof.
    intros Hv Hx Huniq. destruct (var_lookup camel s Hacc v A sd Hv) as (Hn&Hsd&_). unfold check_log. rewrite Hn. cbn.
    assert (forall c ws, (c, ws) ∈ default [] (omap_get A (anno_map camel s)) <->
      exists d, d ∈ sc_anns s /\ covers_var s (an_var d) v /\ c = camel (an_link d) /\ ws = (an_targets d ≫= expand_var s)) as Hmap.
    { intros c ws. rewrite anno_map_get. setoid_rewrite elem_expand_anns. split.
      - intros (d&(d0&Hd0&HA&H1&H2)&<-&->&->). exists d0. split; [done|].
        split; [by eapply (elem_expand_var s Hgr)|]. by rewrite H1, H2.
      - intros (d0&Hd0&Hcov&->&->). exists (Anno A (an_link d0) (an_targets d0 ≫= expand_var s)). cbn.
        split; [|done]. exists d0. split; [done|]. split; [|done]. by eapply (elem_expand_var s Hgr). }
    assert (forall d ws, annotates d v x -> ws = (an_targets d ≫= expand_var s) ->
       (match var_name s t with Some W => bool_decide (W ∈ ws) | None => false end) = true <-> allows d t) as Hall.
    { intros d ws _ ->. unfold allows. destruct (var_name s t) as [W|] eqn:HW.
      - apply var_name_inv in HW as (sd'&Ht). rewrite bool_decide_eq_true, elem_of_list_bind.
        setoid_rewrite (elem_expand_var s Hgr _ W t sd' Ht). naive_solver.
      - split; [done|]. intros (W&_&(B&sd'&Ht&_)). unfold var_name in HW. by rewrite Ht in HW. }
    assert (forall c ws d, (c, ws) ∈ default [] (omap_get A (anno_map camel s)) -> d ∈ sc_anns s -> covers_var s (an_var d) v ->
      c = camel (an_link d) -> c = camel x -> an_link d = x) as Hlk.
    { intros c ws d _ Hd Hcov -> Heq. apply (log_names_inj camel sd (struct_ok camel s Hacc v A sd Hv)); [|done|done].
      rewrite <- Hsd. by apply (Hsp d Hd). }
    destruct (omap_get A (anno_map camel s)) as [xs|] eqn:Hxs; cbn in *.
    - destruct (list_find_cases (fun p : string * list string => p.1 = camel x) xs) as [(i&[c ws]&Hf&Hi&Heq)|[Hf Hnone]]; rewrite Hf; cbn in *.
      + apply elem_of_list_lookup_2 in Hi. destruct (proj1 (Hmap c ws) Hi) as (d&Hd&Hcov&Hc&Hws).
        assert (annotates d v x) as Had by (split; [done|]; split; [done|]; by eapply Hlk). rewrite (Hall d ws Had Hws). split.
        * intros Hal d' Hd'. by rewrite (Huniq d' d Hd' Had).
        * intros H. by apply H.
      + split; [|done]. intros _ d (Hd&Hcov&<-). exfalso.
        apply (Hnone (camel (an_link d), an_targets d ≫= expand_var s)); [|done]. apply Hmap. by exists d.
    - split; [|done]. intros _ d (Hd&Hcov&<-). exfalso.
      eapply elem_of_nil. apply (Hmap (camel (an_link d)) (an_targets d ≫= expand_var s)). by exists d.
  Qed.

  Lemma check_type_iff t l : (forall x d d', annotates d (l_var l) x -> annotates d' (l_var l) x -> d = d') ->
    check_type camel s t l = true <-> forall d, d ∈ sc_anns s -> denotes s (an_var d) (an_link d) l -> allows d t.
  Proof.
    intros Huniq. unfold check_type. rewrite <- Is_true_true, forallb_True, Forall_forall.
    destruct (sc_vars s !! l_var l) as [[A sd]|] eqn:Hv.
    - destruct (var_lookup camel s Hacc _ A sd Hv) as (_&Hsd&_). pose proof (Hone A sd (elem_of_list_lookup_2 _ _ _ Hv)) as Ho.
      unfold denotes. rewrite Hsd. setoid_rewrite (elem_to_logs camel sd (l_fld l) _ Ho). split.
      + intros H d Hd [Hcov Hlk]. assert (check_log camel s t (l_var l) (camel (an_link d)) = true) as Hc
          by (apply Is_true_true, H; by eexists).
        rewrite (check_log_iff t _ A sd _ Hv) in Hc; [|left; by eexists|apply Huniq]. by apply Hc.
      + intros H c (x&Hx&->). apply Is_true_true. apply (check_log_iff t _ A sd _ Hv); [left; by eexists|apply Huniq|].
        intros d (Hd&Hcov&<-). by apply H.
    - split.
      + intros _ d _ [(A&sd&Hv'&_) _]. congruence.
      + intros _ c. unfold struct_of. rewrite Hv. cbn. by intros ?%elem_of_nil.
  Qed.
End anno_facts.

(** ** Name based access to the links of a node *)
(** the non-empty targets of a link field *)
Definition targets (lv : linkval) : list idx := filter (fun i => i <> 0%N) (lv_elems lv).
Definition no_empties (lv : linkval) : Prop := match lv with LDirect _ => True | LSet _ l | LVec l => 0%N ∉ l end.

Section access.
  Context {D : Type}.
  Implicit Types (n : node D) (sd : sdecl).

  Lemma filter_all_ne (l : list idx) : 0%N ∉ l -> filter (fun i => i <> 0%N) l = l.
  Proof.
    induction l as [|i l IH]; [done|]. intros [Hi Hl]%not_elem_of_cons. rewrite filter_cons_True by done. by rewrite IH.
  Qed.
  Lemma field_links_targets E lv : (forall k l, lv = LSet k l -> 0%N ∉ l) -> field_links E lv ≡ₚ targets lv.
  Proof.
    intros Hne. unfold targets. destruct lv as [i|k l|l]; cbn.
    - destruct (N.eqb_spec i 0) as [->|Hi]; [done|]. by rewrite decide_True.
    - rewrite set_iter_perm, filter_all_ne by by eapply Hne. done.
    - done.
  Qed.
  Lemma all_links_targets E lv : no_empties lv -> all_links E lv ≡ₚ targets lv.
  Proof.
    intros Hne. unfold targets. destruct lv as [i|k l|l]; cbn in *.
    - destruct (N.eqb_spec i 0) as [->|Hi]; [done|]. by rewrite decide_True.
    - by rewrite set_iter_perm, filter_all_ne.
    - by rewrite filter_all_ne.
  Qed.

  Lemma by_name_iff camel sd E n x : struct_accepted camel sd -> length (nlinks n) = length (links sd) ->
    (forall f k l, nlinks n !! f = Some (LSet k l) -> 0%N ∉ l) ->
    (forall f fd lv, link_decls sd !! f = Some fd -> f_name fd = x -> nlinks n !! f = Some lv -> get_links_by_name sd E n x ≡ₚ targets lv) /\
    ((forall fd, fd ∈ link_decls sd -> f_name fd <> x) -> get_links_by_name sd E n x = []).
  Proof.
    intros Hacc Hlen Hne. unfold get_links_by_name. split.
    - intros f fd lv Hfd Hx Hlv.
      rewrite (list_find_unique fst (links sd) f (x, match f_ty fd with FLink k => k | _ => KDirect end) x); [|apply (link_names_NoDup camel sd Hacc)| |done].
      + rewrite Hlv. apply field_links_targets. intros k l ->. by eapply Hne.
      + by rewrite links_decls, list_lookup_fmap, Hfd, <- Hx.
    - intros Hno. destruct (list_find_cases (fun p : string * lkind => p.1 = x) (links sd)) as [(i&[y k]&Hf&Hi&Heq)|[Hf _]]; rewrite Hf; [|done].
      cbn in Heq. subst y. exfalso. rewrite links_decls, list_lookup_fmap in Hi. apply fmap_Some in Hi as (fd&Hfd&[= Hx _]).
      eapply Hno; [by eapply elem_of_list_lookup_2|done].
  Qed.

  (** the fields listed for a group, with repetitions *)
  Definition occ (g : string) (p : nat * list string) : list nat := (fun _ => p.1) <$> filter (fun y => y = g) p.2.
  Lemma pushes_occ g (f : nat) gs m :
    default [] (omap_get g (fold_left (fun m g => bmap_entry String.ltb g (fun o => default [] o ++ [f]) m) gs m)) =
    default [] (omap_get g m) ++ occ g (f, gs).
  Proof.
    revert m. induction gs as [|g0 gs IH]; cbn [fold_left]; intros m; [by rewrite app_nil_r|].
    rewrite IH, bmap_entry_get. unfold occ. cbn [fst snd]. rewrite filter_cons. destruct (decide (g = g0)) as [->|Hne].
    - rewrite decide_True by done. cbn. by rewrite <- app_assoc.
    - rewrite decide_False by done. done.
  Qed.
  Lemma by_group_occ g (ps : list (nat * list string)) m :
    default [] (omap_get g (fold_left (fun m (p : nat * list string) =>
        fold_left (fun m g => bmap_entry String.ltb g (fun o => default [] o ++ [p.1]) m) p.2 m) ps m)) =
    default [] (omap_get g m) ++ (ps ≫= occ g).
  Proof.
    revert m. induction ps as [|[f gs] ps IH]; cbn [fold_left]; intros m; [by rewrite app_nil_r|].
    rewrite IH. cbn [fst snd]. rewrite pushes_occ. by rewrite bind_cons, app_assoc.
  Qed.
  Lemma filter_eq_NoDup (g : string) gs : NoDup gs -> filter (fun y => y = g) gs = if decide (g ∈ gs) then [g] else [].
  Proof.
    induction gs as [|a gs IH]; [done|]. intros [Ha Hgs]%NoDup_cons. rewrite filter_cons, IH by done.
    repeat case_decide; subst; try done; try (exfalso; set_solver).
  Qed.
  (** the non-empty targets of the fields of a group, in declaration order *)
  Definition group_targets sd n (g : string) : list idx :=
    concat (zip_with (fun fd lv => if decide (g ∈ concat (f_attrs fd)) then targets lv else []) (link_decls sd) (nlinks n)).

  Lemma by_group_targets sd E n g : one_attribute sd -> attrs_distinct sd -> length (nlinks n) = length (links sd) ->
    (forall f fd lv, link_decls sd !! f = Some fd -> g ∈ concat (f_attrs fd) -> nlinks n !! f = Some lv -> no_empties lv) ->
    get_links_by_group sd E n g ≡ₚ group_targets sd n g.
  Proof.
    intros Hone Hdis Hlen Hne.
    assert (get_links_by_group sd E n g =
      concat ((fun f => match nlinks n !! f with Some lv => all_links E lv | None => [] end) <$> default [] (omap_get g (by_group_map sd)))) as ->.
    { unfold get_links_by_group. by destruct (omap_get g (by_group_map sd)). }
    unfold by_group_map. rewrite by_group_occ. cbn.
    assert (imap (fun f (q : (string * lkind) * list string) => (f, q.2)) (zip (links sd) (groups sd)) =
      imap (fun f fd => (f, concat (f_attrs fd))) (link_decls sd)) as ->.
    { apply list_eq. intros i. rewrite !list_lookup_imap, links_decls, groups_decls by done.
      rewrite lookup_zip_with, !list_lookup_fmap. by destruct (link_decls sd !! i). }
    assert (length (nlinks n) = length (link_decls sd)) as Hlen' by (by rewrite Hlen, links_decls, fmap_length).
    assert (forall fd, fd ∈ link_decls sd -> NoDup (concat (f_attrs fd))) as Hnd.
    { intros fd [Hfd Hl]%elem_link_decls. specialize (Hone fd Hfd). destruct (f_attrs fd) as [|a [|]] eqn:Ha; cbn in *; [constructor| |lia].
      rewrite app_nil_r. apply (Hdis fd); [done|]. rewrite Ha. left. }
    unfold group_targets. clear Hlen Hone Hdis.
    assert (forall (ls : list fdecl) (lvs : list linkval) b (N : nat -> option linkval), length lvs = length ls -> (forall i, N (b + i) = lvs !! i) ->
      (forall fd, fd ∈ ls -> NoDup (concat (f_attrs fd))) ->
      (forall f fd lv, ls !! f = Some fd -> g ∈ concat (f_attrs fd) -> lvs !! f = Some lv -> no_empties lv) ->
      concat ((fun f => match N f with Some lv => all_links E lv | None => [] end) <$> (imap (fun f fd => (b + f, concat (f_attrs fd))) ls ≫= occ g)) ≡ₚ
      concat (zip_with (fun fd lv => if decide (g ∈ concat (f_attrs fd)) then targets lv else []) ls lvs)) as H.
    2: { specialize (H (link_decls sd) (nlinks n) 0 (fun i => nlinks n !! i)). apply H; done. }
    clear. induction ls as [|fd ls IH]; intros [|lv lvs] b N Hlen HN Hnd Hne; try done.
    rewrite imap_cons, bind_cons, fmap_app. cbn [zip_with]. rewrite concat_app. cbn [concat]. apply Permutation_app.
    - unfold occ. cbn [fst snd]. rewrite filter_eq_NoDup by (apply Hnd; left). case_decide as Hg; [|done].
      cbn. rewrite app_nil_r. specialize (HN 0). cbn in HN. rewrite HN. apply all_links_targets. eapply (Hne 0); done.
    - specialize (IH lvs (S b) N). rewrite <- IH; [|by injection Hlen|..].
      + apply reflexive_eq. f_equal. f_equal. f_equal. apply imap_ext. intros i x Hx. cbn. by rewrite Nat.add_succ_r.
      + intros i. replace (S b + i) with (b + S i) by lia. apply (HN (S i)).
      + intros fd' ?. apply Hnd. by right.
      + intros f fd' lv' H1 H2 H3. by eapply (Hne (S f)).
  Qed.

  (** ** Data *)
  (** the fields that are no links *)
  Definition other_decls sd : list fdecl := filter (fun fd => ~ is_link fd) (sd_fields sd).
  Lemma others_decls sd : others sd = (fun fd => (f_name fd, match f_ty fd with FPath _ => true | _ => false end)) <$> other_decls sd.
  Proof.
    unfold others, other_decls. apply omap_filter_fmap; intros fd; unfold is_link, field_data; destruct (f_ty fd); tauto || done.
  Qed.
  Lemma other_names_NoDup sd : NoDup (f_name <$> sd_fields sd) -> NoDup (f_name <$> other_decls sd).
  Proof.
    unfold other_decls. induction (sd_fields sd) as [|fd fs IH]; [done|]. cbn [fmap list_fmap]. intros [Hn Hnd]%NoDup_cons.
    rewrite filter_cons. case_decide; [|by apply IH]. cbn. constructor; [|by apply IH].
    intros (fd'&Heq&[_ Hfd']%elem_of_list_filter)%elem_of_list_fmap. apply Hn. rewrite Heq. by apply elem_of_list_fmap_1.
  Qed.
  Lemma data_ref_iff camel sd n T x (d : D) : struct_accepted camel sd ->
    data_ref sd n T x = Some d <->
    exists i fd, other_decls sd !! i = Some fd /\ f_name fd = x /\ (exists ty, f_ty fd = FPath ty) /\ ndata n !! i = Some (T, d).
  Proof.
    intros [Hnd _ _]. apply other_names_NoDup in Hnd. unfold data_ref.
    assert (NoDup (others sd)) as Hnd'.
    { rewrite others_decls. apply (NoDup_fmap_1 fst). rewrite <- list_fmap_compose. done. }
    split.
    - destruct (list_find_cases (fun p : string * bool => p = (x, true)) (others sd)) as [(i&p&Hf&Hi&->)|[Hf _]]; rewrite Hf; [|done].
      rewrite others_decls, list_lookup_fmap in Hi. apply fmap_Some in Hi as (fd&Hfd&[= Hx Hty]).
      destruct (ndata n !! i) as [[ty d']|] eqn:Hd; [|done]. case_decide; [|done]. intros [= <-]. subst ty.
      exists i, fd. split; [done|]. split; [done|]. split; [|done]. destruct (f_ty fd); try done. by eexists.
    - intros (i&fd&Hfd&Hx&(ty&Hty)&Hd).
      rewrite (list_find_unique id (others sd) i (x, true) (x, true)); [|by rewrite list_fmap_id| |done].
      + by rewrite Hd, decide_True.
      + rewrite others_decls, list_lookup_fmap, Hfd. cbn. by rewrite Hx, Hty.
  Qed.

  (** ** Reflection tables *)
  Lemma link_types_decl sd f k : link_types sd !! f = Some k <-> exists fd, link_decls sd !! f = Some fd /\ f_ty fd = FLink k.
  Proof.
    unfold link_types. rewrite links_decls, <- list_fmap_compose, list_lookup_fmap, fmap_Some. cbn. split.
    - intros (fd&Hfd&->). exists fd. split; [done|]. apply elem_of_list_lookup_2, elem_link_decls in Hfd as [_ Hl].
      unfold is_link in Hl. by destruct (f_ty fd).
    - intros (fd&Hfd&Hk). exists fd. by rewrite Hk.
  Qed.
  Lemma filter_concat {A} (P : A -> Prop) `{forall x, Decision (P x)} (ls : list (list A)) :
    filter P (concat ls) = concat (filter P <$> ls).
  Proof. induction ls as [|l ls IH]; [done|]. cbn. by rewrite filter_app, IH. Qed.
  Lemma filter_none {A} (P : A -> Prop) `{forall x, Decision (P x)} (l : list A) : (forall x, x ∈ l -> ~ P x) -> filter P l = [].
  Proof.
    induction l as [|x l IH]; [done|]. intros Hn. rewrite filter_cons_False by (apply Hn; left). apply IH. intros y Hy. apply Hn. by right.
  Qed.
  Lemma filter_every {A} (P : A -> Prop) `{forall x, Decision (P x)} (l : list A) : (forall x, x ∈ l -> P x) -> filter P l = l.
  Proof.
    induction l as [|x l IH]; [done|]. intros Hn. rewrite filter_cons_True by (apply Hn; left). f_equal. apply IH. intros y Hy. apply Hn. by right.
  Qed.
  Lemma field_sources_link E v f lv p : p ∈ field_sources E v f lv -> src_link p.2 = Link v f.
  Proof.
    destruct lv as [i|k l|l]; cbn.
    - destruct (i =? 0)%N; [by intros ?%elem_of_nil|]. by intros ->%elem_of_list_singleton.
    - by intros (i&->&_)%elem_of_list_fmap.
    - intros (q&i&Hi&Hp)%elem_concat_imap. destruct (i =? 0)%N; [by apply elem_of_nil in Hp|]. by apply elem_of_list_singleton in Hp as ->.
  Qed.
  Lemma field_sources_fst E v f lv : (field_sources E v f lv).*1 = field_links E lv.
  Proof.
    destruct lv as [i|k l|l]; cbn.
    - by destruct (i =? 0)%N.
    - rewrite <- list_fmap_compose. cbn. by rewrite list_fmap_id.
    - assert (forall (h : nat -> nat), (concat (imap (fun p i => if (i =? 0)%N then [] else [(i, Src v f (Some (h p)))]) l)).*1 = filter (fun i => i <> 0%N) l) as H; [|apply (H id)].
      induction l as [|i l IH]; intros h; [done|]. rewrite imap_cons, filter_cons. cbn [concat]. rewrite fmap_app.
      unfold compose. rewrite (IH (fun p => h (S p))). destruct (N.eqb_spec i 0) as [->|Hi]; [done|]. by rewrite decide_True.
  Qed.
  Lemma sources_of_link E n l ys : iter_links E n l = Ok ys ->
    (filter (fun p => src_link p.2 = l) (iter_sources E n)).*1 = ys.
  Proof.
    unfold iter_links. case_decide as Hv; [|done]. destruct (nlinks n !! l_fld l) as [lv|] eqn:Hlv; [|done]. intros [= <-].
    unfold iter_sources. rewrite filter_concat.
    assert (forall (lvs : list linkval) b f0, l_fld l = b + f0 -> lvs !! f0 = Some lv ->
      (concat (filter (fun p => src_link p.2 = l) <$> imap (fun f => field_sources E (nvar n) (b + f)) lvs)).*1 = field_links E lv) as H.
    { assert (forall (lvs : list linkval) b, l_fld l < b ->
        concat (filter (fun p => src_link p.2 = l) <$> imap (fun f => field_sources E (nvar n) (b + f)) lvs) = []) as Hnil.
      { induction lvs as [|lv' lvs IH]; intros b Hb; [done|]. rewrite imap_cons. cbn [fmap list_fmap concat].
        rewrite filter_none; cbn.
        - etransitivity; [|apply (IH (S b)); lia]. f_equal. f_equal. apply imap_ext. intros i x Hx. cbn. by rewrite Nat.add_succ_r.
        - intros p Hp Heq. apply field_sources_link in Hp. rewrite Hp in Heq. destruct l. cbn in *. injection Heq. lia. }
      induction lvs as [|lv' lvs IH]; intros b f0 Hb Hf0; [done|]. rewrite imap_cons. cbn [fmap list_fmap concat].
      destruct f0 as [|f0]; cbn in Hf0.
      - injection Hf0 as ->. rewrite filter_every.
        + rewrite fmap_app, field_sources_fst. rewrite <- (app_nil_r (field_links E lv)) at 2. f_equal.
          change (@nil idx) with (fst <$> @nil (idx * source)). f_equal.
          etransitivity; [|apply (Hnil lvs (S b)); lia]. f_equal. f_equal. apply imap_ext. intros i x Hx. cbn. by rewrite Nat.add_succ_r.
        + intros p Hp. rewrite (field_sources_link _ _ _ _ _ Hp). destruct l. cbn in *. f_equal; lia.
      - rewrite filter_none; cbn.
        + etransitivity; [|apply (IH (S b) f0); [lia|done]]. f_equal. f_equal. f_equal. apply imap_ext. intros i x Hx. cbn. by rewrite Nat.add_succ_r.
        + intros p Hp Heq. apply field_sources_link in Hp. rewrite Hp in Heq. destruct l. cbn in *. injection Heq. lia. }
    apply (H (nlinks n) 0 (l_fld l)); done.
  Qed.
End access.
(** ** The bidirectional links of a node *)
Section bidi_links.
  Context {D : Type} (camel : string -> string) (s : schema).
  Lemma mirror_named_bound sd c f : mirror_named camel sd c = Some f -> f < length (link_decls sd).
  Proof.
    unfold mirror_named. intros ([i p]&Hi&->)%fmap_Some. apply list_find_Some in Hi as (Hi&_). cbn.
    apply lookup_lt_Some in Hi. by rewrite links_decls, fmap_length in Hi.
  Qed.
  Lemma to_links_bound sd c f : f ∈ to_links camel sd c -> f < length (link_decls sd).
  Proof.
    unfold to_links. destruct (mirror_named camel sd c) as [f0|] eqn:Hm.
    - intros ->%elem_of_list_singleton. by eapply mirror_named_bound.
    - destruct (list_find _ _) as [[? [? xs]]|]; [|by intros ?%elem_of_nil]. intros (x&_&Hx)%elem_of_list_omap. by eapply mirror_named_bound.
  Qed.
  Lemma node_ok_length ho dbg (n : node D) A sd : sc_vars s !! nvar n = Some (A, sd) -> node_ok (env_of camel s ho dbg) n ->
    length (nlinks n) = length (link_decls sd).
  Proof.
    intros Hv (ks&Hks&Hf). cbn in Hks. rewrite list_lookup_fmap, Hv in Hks. injection Hks as <-.
    apply Forall2_length in Hf. rewrite <- Hf. unfold link_types. by rewrite links_decls, !fmap_length.
  Qed.
  Lemma node_ok_var ho dbg (n : node D) : node_ok (env_of camel s ho dbg) n -> exists A sd, sc_vars s !! nvar n = Some (A, sd).
  Proof.
    intros (ks&Hks&_). cbn in Hks. rewrite list_lookup_fmap in Hks. apply fmap_Some in Hks as ([A sd]&Hv&_). eauto.
  Qed.
  Lemma get_bidi_links_sound ho dbg (n : node D) ys ms : node_ok (env_of camel s ho dbg) n ->
    (ys, ms) ∈ get_bidi_links camel s (env_of camel s ho dbg) n ->
    exists f lv, nlinks n !! f = Some lv /\ ys = field_links (env_of camel s ho dbg) lv /\ ms = opp camel s (Link (nvar n) f).
  Proof.
    intros Hok. destruct (node_ok_var ho dbg n Hok) as (A&sd&Hv). pose proof (node_ok_length ho dbg n A sd Hv Hok) as Hlen.
    unfold get_bidi_links. destruct (var_name s (nvar n) ≫= _) as [xs|]; [|by intros ?%elem_of_nil].
    intros (p&(f&Hin&Hf)%elem_of_list_bind&_)%elem_of_list_bind. apply elem_of_list_singleton in Hin as [= -> ->].
    unfold struct_of in Hf. rewrite Hv in Hf. cbn in Hf. apply to_links_bound in Hf.
    destruct (lookup_lt_is_Some_2 (nlinks n) f) as [lv Hlv]; [lia|]. exists f, lv. by rewrite Hlv.
  Qed.

  Context (Hacc : accepted camel s) (Hgr : groups_apart s).
  Context (Hone : forall A sd, (A, sd) ∈ sc_vars s -> one_attribute sd) (Hsp : bidi_spelled s).
  Lemma get_bidi_links_complete ho dbg (n : node D) f lv : node_ok (env_of camel s ho dbg) n ->
    nlinks n !! f = Some lv -> opp camel s (Link (nvar n) f) <> [] ->
    (field_links (env_of camel s ho dbg) lv, opp camel s (Link (nvar n) f)) ∈ get_bidi_links camel s (env_of camel s ho dbg) n.
  Proof.
    intros Hok Hlv Hne. destruct (node_ok_var ho dbg n Hok) as (A&sd&Hv).
    assert (exists m, m ∈ opp camel s (Link (nvar n) f)) as (m&Hm).
    { destruct (opp camel s (Link (nvar n) f)) as [|m ?]; [done|]. exists m. left. }
    destruct (var_lookup camel s Hacc _ A sd Hv) as (Hvn&Hsd&_).
    assert (exists x p, struct_name sd x /\ covers_link sd x f /\ p ∈ to_of (b_links s) A x) as (x&p&Hx&Hf&Hp).
    { apply (opp_declares camel s Hacc Hgr Hone Hsp) in Hm.
      destruct Hm as [(d&Hd&[H1 H2]&[(B&sd'&Hw&H3) H4])|(d&Hd&[(B&sd'&Hw&H3) H4]&[H1 H2])]; cbn in H1, H2; rewrite Hsd in H2.
      - exists (b_link1 d), (B, b_link2 d). split; [left; by exists f|]. split; [done|]. apply (proj1 (b_links_facts s)). cbn. left.
        eapply (expanded_iff s Hgr A _ B _ _ _ _ _ Hv Hw). exists d. split; [done|]. split; [done|]. split; [by exists B, sd'|done].
      - exists (b_link2 d), (B, b_link1 d). split; [left; by exists f|]. split; [done|]. apply (proj1 (b_links_facts s)). cbn. right.
        eapply (expanded_iff s Hgr B _ A _ _ _ _ _ Hw Hv). exists d. split; [done|]. split; [by exists B, sd'|done]. }
    unfold get_bidi_links. rewrite Hvn. cbn [mbind option_bind]. unfold to_of in Hp.
    destruct (omap_get A (b_links s)) as [xs|]; [|by apply elem_of_nil in Hp]. cbn in Hp.
    destruct (omap_get x xs) as [to|] eqn:Hto; [|by apply elem_of_nil in Hp]. apply omap_get_elem in Hto.
    apply elem_of_list_bind. exists (x, to). split; [|done]. apply elem_of_list_bind. exists f. split.
    - rewrite Hlv. apply elem_of_list_singleton. done.
    - rewrite Hsd. cbn. by apply (elem_to_links camel sd (struct_ok camel s Hacc _ _ _ Hv)).
  Qed.
End bidi_links.
