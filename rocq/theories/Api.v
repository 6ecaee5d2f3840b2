(** * extend, check registries, macro-only programs, and the link methods of nodes *)
From Coq Require Import Sorted.
From Verif Require Export SchemaFacts Grouped Exact TransFinal GraphFinal.

(** ** GraphCheck: /repo/src/typed_graph/check.rs *)
Section registry.
  Context {D : Type}.
  Implicit Types (c : graph_check D) (nm : string).
  (** [BTreeMap::insert] and [BTreeMap::remove] *)
  Definition bmap_put {V} nm (v : V) (m : list (string * V)) : list (string * V) := bmap_entry String.ltb nm (fun _ => v) m.
  Definition bmap_del {V} nm (m : list (string * V)) : list (string * V) := filter (fun p => p.1 <> nm) m.
  (** check.rs:21-27, 62-66 *)
  Definition gc_empty : graph_check D := GraphCheck [] [] [].
  (** the calls, check.rs:29-59 *)
  Inductive gc_call :=
  | GInsNode nm (f : node_check (D:=D)) | GDelNode nm
  | GInsAdd nm (f : link_check (D:=D)) | GDelAdd nm
  | GInsRem nm (f : link_check (D:=D)) | GDelRem nm.
  Definition gc_do c (o : gc_call) : graph_check D :=
    match o with
    | GInsNode nm f => GraphCheck (bmap_put nm f (gc_node c)) (gc_add c) (gc_rem c)
    | GDelNode nm => GraphCheck (bmap_del nm (gc_node c)) (gc_add c) (gc_rem c)
    | GInsAdd nm f => GraphCheck (gc_node c) (bmap_put nm f (gc_add c)) (gc_rem c)
    | GDelAdd nm => GraphCheck (gc_node c) (bmap_del nm (gc_add c)) (gc_rem c)
    | GInsRem nm f => GraphCheck (gc_node c) (gc_add c) (bmap_put nm f (gc_rem c))
    | GDelRem nm => GraphCheck (gc_node c) (gc_add c) (bmap_del nm (gc_rem c))
    end.
  Definition gc_of (os : list gc_call) : graph_check D := fold_left gc_do os gc_empty.

  (** the last call about a name decides *)
  Definition about_node nm (o : gc_call) : option (option (node_check (D:=D))) :=
    match o with
    | GInsNode nm' f => if decide (nm' = nm) then Some (Some f) else None
    | GDelNode nm' => if decide (nm' = nm) then Some None else None
    | _ => None
    end.
  Definition about_add nm (o : gc_call) : option (option (link_check (D:=D))) :=
    match o with
    | GInsAdd nm' f => if decide (nm' = nm) then Some (Some f) else None
    | GDelAdd nm' => if decide (nm' = nm) then Some None else None
    | _ => None
    end.
  Definition about_rem nm (o : gc_call) : option (option (link_check (D:=D))) :=
    match o with
    | GInsRem nm' f => if decide (nm' = nm) then Some (Some f) else None
    | GDelRem nm' => if decide (nm' = nm) then Some None else None
    | _ => None
    end.
  Definition current {V} (about : gc_call -> option (option V)) (os : list gc_call) : option V :=
    match last (omap about os) with Some v => v | None => None end.
End registry.
Arguments gc_call D : clear implicits.

(** String order *)
Lemma ascii_compare_trans a b c : Ascii.compare a b = Lt -> Ascii.compare b c = Lt -> Ascii.compare a c = Lt.
Proof. unfold Ascii.compare. rewrite !N.compare_lt_iff. lia. Qed.
Lemma ascii_compare_eq a b : Ascii.compare a b = Eq -> a = b.
Proof. intros H. by apply Ascii.compare_eq_iff. Qed.
Lemma ascii_compare_refl a : Ascii.compare a a = Eq.
Proof. unfold Ascii.compare. apply N.compare_refl. Qed.
Lemma str_compare_refl s : String.compare s s = Eq.
Proof. induction s as [|a s IH]; cbn; [done|]. by rewrite ascii_compare_refl. Qed.
Lemma str_ltb_iff s t : String.ltb s t = true <-> String.compare s t = Lt.
Proof. unfold String.ltb. by destruct (String.compare s t). Qed.
Lemma str_ltb_trans s t u : String.ltb s t = true -> String.ltb t u = true -> String.ltb s u = true.
Proof.
  rewrite !str_ltb_iff. revert t u. induction s as [|a s IH]; intros [|b t] [|c u]; cbn; try done.
  destruct (Ascii.compare a b) eqn:Hab; [|..|done].
  - apply ascii_compare_eq in Hab as ->. destruct (Ascii.compare b c) eqn:Hbc; [|done..]. intros. by eapply IH.
  - intros _. destruct (Ascii.compare b c) eqn:Hbc; [|..|done].
    + apply ascii_compare_eq in Hbc as ->. by rewrite Hab.
    + by rewrite (ascii_compare_trans a b c).
Qed.
Lemma str_ltb_total s t : String.ltb s t = false -> s <> t -> String.ltb t s = true.
Proof.
  intros H Hne. apply str_ltb_iff. rewrite String.compare_antisym.
  destruct (String.compare s t) eqn:Hc; [by apply String.compare_eq_iff in Hc|by rewrite (proj2 (str_ltb_iff s t) Hc) in H|done].
Qed.
Lemma str_ltb_irrefl s : String.ltb s s = false.
Proof. unfold String.ltb. by rewrite str_compare_refl. Qed.

Section bmap.
  Context {V : Type}.
  Implicit Types (m : list (string * V)).
  (** strictly increasing names *)
  Definition str_sorted (l : list string) : Prop := StronglySorted (fun a b => String.ltb a b = true) l.
  Lemma bmap_insert_keys k (v : V) m : is_Some (omap_get k m) -> (omap_insert k v m).*1 = m.*1.
  Proof.
    induction m as [|[k' v'] m IH]; cbn; [by intros [? ?]|]. case_decide; cbn; [by subst|]. intros Hs. by rewrite IH.
  Qed.
  Lemma bmap_place_sorted k (v : V) m : k ∉ m.*1 -> str_sorted m.*1 -> str_sorted (bmap_place String.ltb k v m).*1.
  Proof.
    unfold str_sorted. induction m as [|[k' v'] m IH]; cbn; intros Hk Hs; [by repeat constructor|].
    apply not_elem_of_cons in Hk as [Hne Hk]. inversion Hs as [|? ? Hs' Hf]; subst.
    destruct (String.ltb k k') eqn:Hlt; cbn.
    - constructor; [done|]. constructor; [done|]. eapply Forall_impl; [exact Hf|]. cbn. intros x Hx. by eapply str_ltb_trans.
    - constructor; [by apply IH|]. rewrite bmap_place_perm. cbn. constructor; [by apply str_ltb_total|done].
  Qed.
  Lemma bmap_put_sorted k (v : V) m : str_sorted m.*1 -> str_sorted (bmap_put k v m).*1.
  Proof.
    intros Hs. unfold bmap_put, bmap_entry. destruct (omap_get k m) as [v'|] eqn:Hk.
    - by rewrite bmap_insert_keys by eauto.
    - apply bmap_place_sorted; [by apply omap_get_None|done].
  Qed.
  Lemma bmap_put_get k (v : V) m k' : omap_get k' (bmap_put k v m) = if decide (k' = k) then Some v else omap_get k' m.
  Proof. unfold bmap_put. apply bmap_entry_get. Qed.
  Lemma bmap_del_get k m k' : omap_get k' (bmap_del k m) = if decide (k' = k) then None else omap_get k' m.
  Proof.
    unfold bmap_del. induction m as [|[k1 v1] m IH]; [by case_decide|]. cbn [filter].
    change (filter (fun p : string * V => p.1 <> k) ((k1, v1) :: m)) with
      (if decide (k1 <> k) then (k1, v1) :: filter (fun p : string * V => p.1 <> k) m else filter (fun p : string * V => p.1 <> k) m).
    destruct (decide (k1 <> k)) as [Hne|Heq]; cbn.
    - rewrite IH. repeat case_decide; congruence.
    - apply dec_stable in Heq as ->. rewrite IH. repeat case_decide; congruence.
  Qed.
  Lemma bmap_del_sorted k m : str_sorted m.*1 -> str_sorted (bmap_del k m).*1.
  Proof.
    unfold str_sorted, bmap_del. induction m as [|[k1 v1] m IH]; [done|]. intros Hs. inversion Hs as [|? ? Hs' Hf]; subst.
    change (filter (fun p : string * V => p.1 <> k) ((k1, v1) :: m)) with
      (if decide (k1 <> k) then (k1, v1) :: filter (fun p : string * V => p.1 <> k) m else filter (fun p : string * V => p.1 <> k) m).
    case_decide; [|by apply IH]. cbn. constructor; [by apply IH|]. apply Forall_forall. intros x Hx.
    rewrite Forall_forall in Hf. apply Hf. apply elem_of_list_fmap in Hx as (p&->&Hp). apply elem_of_list_filter in Hp as [_ Hp].
    apply elem_of_list_fmap. eauto.
  Qed.
  Lemma sorted_NoDup (l : list string) : str_sorted l -> NoDup l.
  Proof.
    unfold str_sorted. induction 1 as [|x l Hs IH Hf]; constructor; [|done]. intros Hx. rewrite Forall_forall in Hf. apply Hf in Hx.
    by rewrite str_ltb_irrefl in Hx.
  Qed.
  (** a sorted map is determined by its entries *)
  Lemma sorted_canonical m m' : str_sorted m.*1 -> str_sorted m'.*1 -> (forall k, omap_get k m = omap_get k m') -> m = m'.
  Proof.
    unfold str_sorted. revert m'. induction m as [|[k v] m IH]; intros m' Hs Hs' Heq.
    - destruct m' as [|[k' v'] m']; [done|]. specialize (Heq k'). cbn in Heq. by rewrite decide_True in Heq.
    - destruct m' as [|[k' v'] m']; [specialize (Heq k); cbn in Heq; by rewrite decide_True in Heq|].
      pose proof Hs as Hn. apply sorted_NoDup in Hn. pose proof Hs' as Hn'. apply sorted_NoDup in Hn'. cbn in Hn, Hn'.
      apply NoDup_cons in Hn as [Hk Hn]. apply NoDup_cons in Hn' as [Hk' Hn'].
      inversion Hs as [|? ? Hs1 Hf]; subst. inversion Hs' as [|? ? Hs1' Hf']; subst. rewrite Forall_forall in Hf, Hf'.
      assert (k' = k) as ->.
      { destruct (decide (k' = k)) as [|Hne]; [done|]. exfalso.
        assert (k ∈ m'.*1) as H1.
        { specialize (Heq k). cbn in Heq. rewrite decide_True in Heq by done. rewrite decide_False in Heq by congruence.
          symmetry in Heq. apply omap_get_elem in Heq. apply elem_of_list_fmap. by exists (k, v). }
        assert (k' ∈ m.*1) as H2.
        { specialize (Heq k'). cbn in Heq. rewrite (decide_True (P:=k' = k')) in Heq by done. rewrite decide_False in Heq by congruence.
          apply omap_get_elem in Heq. apply elem_of_list_fmap. by exists (k', v'). }
        apply Hf in H2. apply Hf' in H1. pose proof (str_ltb_trans _ _ _ H1 H2) as H3. by rewrite str_ltb_irrefl in H3. }
      f_equal; [specialize (Heq k); cbn in Heq; rewrite !decide_True in Heq by done; congruence|].
      apply IH; [done..|]. intros j. specialize (Heq j). cbn in Heq. case_decide; [|done]. subst.
      rewrite (proj2 (omap_get_None _ _) Hk), (proj2 (omap_get_None _ _) Hk'). done.
  Qed.
End bmap.

Section registry_facts.
  Context {D : Type}.
  Implicit Types (os : list (gc_call D)) (nm : string).
  Lemma current_snoc {V} (about : gc_call D -> option (option V)) os o :
    current about (os ++ [o]) = match about o with Some v => v | None => current about os end.
  Proof. unfold current. rewrite omap_app. cbn. destruct (about o); [by rewrite last_snoc|by rewrite app_nil_r]. Qed.
  Lemma gc_of_snoc os o : gc_of (os ++ [o]) = gc_do (gc_of os) o.
  Proof. unfold gc_of. by rewrite fold_left_app. Qed.
  Lemma gc_of_facts os :
    (str_sorted (gc_node (gc_of os)).*1 /\ str_sorted (gc_add (gc_of os)).*1 /\ str_sorted (gc_rem (gc_of os)).*1) /\
    forall nm, omap_get nm (gc_node (gc_of os)) = current (about_node nm) os /\
      omap_get nm (gc_add (gc_of os)) = current (about_add nm) os /\
      omap_get nm (gc_rem (gc_of os)) = current (about_rem nm) os.
  Proof.
    induction os as [|o os [(S1&S2&S3) IH]] using rev_ind.
    - split; [split_and!; constructor|]. done.
    - rewrite gc_of_snoc. split.
      + destruct o; cbn; split_and!; try done; first [by apply bmap_put_sorted|by apply bmap_del_sorted].
      + intros nm. rewrite !current_snoc. destruct (IH nm) as (H1&H2&H3).
        destruct o; cbn; split_and!; try done; rewrite ?bmap_put_get, ?bmap_del_get; repeat case_decide; subst; done.
  Qed.
  Lemma elem_get {V} (m : list (string * V)) nm v : str_sorted m.*1 -> (nm, v) ∈ m <-> omap_get nm m = Some v.
  Proof. intros Hs. split; [|apply omap_get_elem]. intros Hin. apply omap_get_NoDup; [by apply sorted_NoDup|done]. Qed.
  Lemma gc_of_exact os nm :
    (forall f, (nm, f) ∈ gc_node (gc_of os) <-> current (about_node nm) os = Some f) /\
    (forall f, (nm, f) ∈ gc_add (gc_of os) <-> current (about_add nm) os = Some f) /\
    (forall f, (nm, f) ∈ gc_rem (gc_of os) <-> current (about_rem nm) os = Some f).
  Proof.
    destruct (gc_of_facts os) as ((S1&S2&S3)&H). destruct (H nm) as (H1&H2&H3).
    split_and!; intros f; rewrite elem_get by done; by rewrite ?H1, ?H2, ?H3.
  Qed.
  Lemma gc_of_canonical os os' :
    (forall nm, current (about_node nm) os = current (about_node nm) os' /\
       current (about_add nm) os = current (about_add nm) os' /\ current (about_rem nm) os = current (about_rem nm) os') ->
    gc_of os = gc_of os'.
  Proof.
    intros Heq. destruct (gc_of_facts os) as ((S1&S2&S3)&H), (gc_of_facts os') as ((S1'&S2'&S3')&H').
    assert (gc_node (gc_of os) = gc_node (gc_of os')) as E1.
    { apply sorted_canonical; [done..|]. intros k. rewrite (proj1 (H k)), (proj1 (H' k)). apply Heq. }
    assert (gc_add (gc_of os) = gc_add (gc_of os')) as E2.
    { apply sorted_canonical; [done..|]. intros k. rewrite (proj1 (proj2 (H k))), (proj1 (proj2 (H' k))). apply Heq. }
    assert (gc_rem (gc_of os) = gc_rem (gc_of os')) as E3.
    { apply sorted_canonical; [done..|]. intros k. rewrite (proj2 (proj2 (H k))), (proj2 (proj2 (H' k))). apply Heq. }
    destruct (gc_of os), (gc_of os'). cbn in *. congruence.
  Qed.
End registry_facts.

(** ** extend *)
Section extend.
  Context {D : Type} (E : env) (T : Prop).
  Implicit Types (t : trans D) (n : node D) (L : list (tevent D)) (l : list (node D)).

  Lemma open_insert cnt t L n : open_trans E T cnt t L -> node_ok E n -> (cnt + 1 < usize_mod)%N ->
    exists t', trans_insert E n (cnt, t) = Done (cnt + 1, t')%N (cnt + 1)%N /\
      open_trans E T (cnt + 1)%N t' (L ++ [EvCall (cnt + 1)%N (CInsert n)]).
  Proof.
    intros Ho Hn Hc. destruct (open_rep E T cnt t L Ho) as (u0&Hh).
    destruct (t_hist_call E u0 cnt t L (CInsert n) Hh Hn ltac:(done)) as (s&Hs&_&Hm). cbn [tc_run allocates] in Hm.
    destruct (trans_insert E n (cnt, t)) as [[cnt' t'] i|p [cnt' t']] eqn:Hi; [|by destruct Hm as [Hm%(fun H => H 0%N) _]].
    destruct Hm as (s'&_&_&->&->). exists t'. split; [done|].
    destruct Ho as (w&lg&k&c&u&Hl&Hk&Hcx&<-).
    exists (set_cnt (set_t w k (c, t')) c u (cnt + 1)%N), (log_step w (OInsert k n (cnt + 1)%N) lg), k, c, u.
    split; [eapply lr_step; [exact Hl|by eapply st_insert|done]|]. split; [cbn; by rewrite lookup_insert|].
    split; [cbn; rewrite list_lookup_insert; [done|by eapply lookup_lt_Some]|].
    cbn. unfold lcall, lput. by rewrite decide_True.
  Qed.

  Definition inserts (cnt : idx) l : list (tevent D) := imap (fun j n => EvCall (cnt + 1 + N.of_nat j)%N (CInsert n)) l.
  Lemma inserts_cons cnt n l : inserts cnt (n :: l) = EvCall (cnt + 1)%N (CInsert n) :: inserts (cnt + 1)%N l.
  Proof.
    unfold inserts. cbn [imap]. f_equal; [f_equal; lia|]. apply imap_ext. intros j x _. cbn. f_equal. lia.
  Qed.
  Lemma open_extend cnt t L l : open_trans E T cnt t L -> Forall (node_ok E) l -> (cnt + N.of_nat (length l) < usize_mod)%N ->
    exists t', trans_extend E l (cnt, t) =
        Done (cnt + N.of_nat (length l), t')%N ((fun j => cnt + 1 + N.of_nat j)%N <$> seq 0 (length l)) /\
      open_trans E T (cnt + N.of_nat (length l))%N t' (L ++ inserts cnt l).
  Proof.
    revert cnt t L. induction l as [|n l IH]; intros cnt t L Ho Hf Hc.
    - exists t. cbn. rewrite N.add_0_r, app_nil_r. done.
    - apply Forall_cons in Hf as [Hn Hf]. cbn [length] in Hc. destruct (open_insert cnt t L n Ho Hn ltac:(lia)) as (t1&Hi&Ho1).
      destruct (IH (cnt + 1)%N t1 _ Ho1 Hf ltac:(lia)) as (t'&He&Ho').
      exists t'. replace (cnt + N.of_nat (length (n :: l)))%N with (cnt + 1 + N.of_nat (length l))%N by (cbn [length]; lia).
      split; [|rewrite inserts_cons, cons_middle, app_assoc; done].
      cbn [trans_extend]. unfold bindM. rewrite Hi, He. unfold retM. cbn [length seq fmap list_fmap]. do 2 f_equal; [lia|].
      rewrite <- fmap_S_seq. rewrite <- list_fmap_compose. apply list_fmap_ext. intros j x _. cbn. lia.
  Qed.
  Lemma ts_run_inserts cnt l s : exists s', ts_run s (inserts cnt l) = Some s' /\
    (forall j n, l !! j = Some n -> ts_new s' !! (cnt + 1 + N.of_nat j)%N = Some n) /\
    (forall i, (i <= cnt \/ cnt + N.of_nat (length l) < i)%N -> ts_new s' !! i = ts_new s !! i /\ ts_res s' !! i = ts_res s !! i) /\
    ts_del s' = ts_del s /\ ts_mut s' = ts_mut s /\ ts_upd s' = ts_upd s /\ ts_redir_all s' = ts_redir_all s /\ ts_redir s' = ts_redir s.
  Proof.
    revert cnt s. induction l as [|n l IH]; intros cnt s; [exists s; naive_solver|].
    rewrite inserts_cons. cbn [ts_run ts_event ts_call]. destruct (IH (cnt + 1)%N (ts_put s (cnt + 1)%N n)) as (s'&Hr&Hin&Hout&Ho).
    exists s'. split; [done|]. split.
    - intros [|j] x Hx; cbn in Hx.
      + injection Hx as ->. destruct (Hout (cnt + 1)%N) as [Ho1 _]; [lia|]. rewrite N.add_0_r, Ho1. cbn. by rewrite lookup_insert.
      + rewrite <- (Hin j x Hx). f_equal. lia.
    - split; [|done]. intros i Hi. cbn [length] in Hi. destruct (Hout i) as [H1 H2]; [lia|]. rewrite H1, H2. cbn.
      by rewrite lookup_insert_ne, lookup_delete_ne by lia.
  Qed.
  (** C56 *)
  Lemma open_extend_holds cnt t L l : open_trans E T cnt t L -> Forall (node_ok E) l -> (cnt + N.of_nat (length l) < usize_mod)%N ->
    exists t' is, trans_extend E l (cnt, t) = Done (cnt + N.of_nat (length l), t')%N is /\
      length is = length l /\
      (forall j i n, is !! j = Some i -> l !! j = Some n -> i = (cnt + 1 + N.of_nat j)%N /\ own_node t' i n) /\
      (forall i n, i ∉ is -> own_node t' i n <-> own_node t i n) /\ (forall i, i ∈ t_alloc t' <-> i ∈ t_alloc t) /\
      t_dec t' = t_dec t /\ t_mut t' = t_mut t /\ t_upd t' = t_upd t /\ t_redir_all t' = t_redir_all t /\ t_redir t' = t_redir t.
  Proof.
    intros Ho Hf Hc. destruct (open_extend cnt t L l Ho Hf Hc) as (t'&He&Ho'). exists t'. eexists. split; [done|].
    split; [by rewrite fmap_length, seq_length|].
    destruct (open_rep E T _ _ _ Ho) as (u&Hh). destruct (t_hist_rep E _ _ _ _ Hh) as (s&Hs&Hr&_&Hk).
    destruct (ts_run_inserts cnt l s) as (s'&Hs'&Hin&Hout&H3&H4&H5&H6&H7).
    assert (ts_run ts_empty (L ++ inserts cnt l) = Some s') as Hrun.
    { revert Hs. generalize (@ts_empty D). clear -Hs'. induction L as [|e L IH]; intros s0; cbn; [by intros [= ->]|].
      destruct (ts_event s0 e); [apply IH|done]. }
    destruct (trep_is E _ _ Hr) as (I1&I2&I3&I4&I5&I6&I7).
    destruct (open_is E T _ _ _ _ Ho' Hrun) as (J1&J2&J3&J4&J5&J6&J7).
    assert (forall i, i ∉ (fun j : nat => (cnt + 1 + N.of_nat j)%N) <$> seq 0 (length l) -> (i <= cnt \/ cnt + N.of_nat (length l) < i)%N) as Hni.
    { intros i Hi. destruct (N.le_gt_cases i cnt) as [|Hgt]; [by left|]. right. destruct (N.le_gt_cases i (cnt + N.of_nat (length l))%N) as [Hle|]; [|done].
      exfalso. apply Hi. apply elem_of_list_fmap. exists (N.to_nat (i - cnt - 1)%N). split; [lia|]. apply elem_of_seq. lia. }
    split.
    { intros j i n Hi Hn. apply list_lookup_fmap_inv in Hi as (j'&->&Hj'). apply lookup_seq in Hj' as [-> _].
      split; [lia|]. unfold own_node. rewrite J1. by apply Hin. }
    split. { intros i n Hi. unfold own_node. rewrite I1, J1. by destruct (Hout i (Hni i Hi)) as [-> _]. }
    split; [|by rewrite J3, J4, J5, J6, J7, I3, I4, I5, I6, I7].
    intros i. rewrite I2, J2. destruct (decide (i ∈ (fun j : nat => (cnt + 1 + N.of_nat j)%N) <$> seq 0 (length l))) as [Hi|Hi].
    - apply elem_of_list_fmap in Hi as (j&->&Hj). apply elem_of_seq in Hj. split; intros [v Hv]; exfalso.
      + destruct (lookup_lt_is_Some_2 l j ltac:(lia)) as [n Hn]. apply Hin in Hn.
        destruct (open_rep E T _ _ _ Ho') as (u'&Hh'). destruct (t_hist_rep E _ _ _ _ Hh') as (s2&Hs2&Hr2&_).
        assert (s2 = s') as -> by congruence.
        assert (cnt + 1 + N.of_nat j ∈ t_alloc t')%N as Hal by (apply J2; eauto).
        apply (tr_excl E _ _ Hr2) in Hal. rewrite <- (tr_new E _ _ Hr2), Hn in Hal. done.
      + assert (cnt + 1 + N.of_nat j <= cnt)%N by (apply Hk; right; eauto). lia.
    - by destruct (Hout i (Hni i Hi)) as [_ ->].
  Qed.
End extend.

(** ** Programs that use the typed macros only *)
Section macros.
  Context {D : Type} (E : env).
  (** every [mutate]/[update] of the program is written with [mut_node!]/[update_node!] *)
  Definition macro_op (o : op (D := D)) : Prop :=
    match o with
    | OMutate _ _ f => exists v b, f = mut_node_closure v b
    | OUpdate _ _ f => exists v b, f = update_node_closure v b
    | _ => True
    end.
  Inductive macro_reachable : world (D := D) -> Prop :=
  | mr_new : macro_reachable world_new
  | mr_step w o w' : macro_reachable w -> macro_op o -> step E False w o w' -> macro_reachable w'.
  Lemma macro_step w o w' : macro_op o -> step E False w o w' -> step E True w o w'.
  Proof.
    intros Hm Hs. destruct Hs; econstructor; try eassumption.
    - destruct Hm as (v&b&->). intros n n' Hn Hf. destruct (H0 n n' Hn Hf) as [Hok _]. split; [done|]. intros _.
      apply (macros_keep_variant v b (fun x => Ok x)) in Hf as [-> ->]. done.
    - destruct Hm as (v&b&->). intros n n' Hn Hf. destruct (H0 n n' Hn Hf) as [Hok _]. split; [done|]. intros _.
      apply (macros_keep_variant v (fun x => Done x tt) b) in Hf as [-> ->]. done.
  Qed.
  Lemma macro_reachable_typed w : macro_reachable w -> reachable E True w.
  Proof. induction 1; [constructor|]. eapply reach_step; [done|by eapply macro_step]. Qed.

  (** C57 *)
  Lemma macro_iter_nodes w k c g : macro_reachable w -> w_graphs w !! k = Some (c, g) -> forall v,
    exists l, iter_nodes g v = Ok l /\ NoDup l.*1 /\
      (forall i n, (i, n) ∈ l <-> graph_get g i = Some n /\ nvar n = v) /\
      (forall i n, (i, n) ∈ l <-> get_node g v i = Some n).
  Proof.
    intros Hw Hk v. assert (graph_of E True g) as Hg by (exists w, k, c; split; [by apply macro_reachable_typed|done]).
    destruct (graph_iter_type_exact E g Hg v) as (Hit&Hnd&Hn). exists (graph_iter_type g v). split; [done|]. split; [done|]. split; [done|].
    intros i n. rewrite Hit. unfold get_node. destruct (graph_get g i) as [m|]; [|naive_solver]. case_decide; naive_solver.
  Qed.
  Lemma get_node_exact (g : graph D) v i n : get_node g v i = Some n <-> graph_get g i = Some n /\ nvar n = v.
  Proof. unfold get_node. destruct (graph_get g i) as [m|]; [|naive_solver]. case_decide; naive_solver. Qed.
End macros.

(** ** The link methods of a node *)
Section nodeapi.
  Context {D : Type} (E : env).
  Implicit Types (n : node D).

  Definition nonempty (ys : list idx) : list idx := filter (fun y => y <> 0%N) ys.
  Lemma nonempty_idem ys : nonempty (nonempty ys) = nonempty ys.
  Proof.
    unfold nonempty. induction ys as [|y ys IH]; [done|]. rewrite filter_cons. case_decide; [|done].
    rewrite filter_cons_True by done. by rewrite IH.
  Qed.

  Lemma iter_links_exact n l k : node_ok E n -> linkkind E l = Some k ->
    match iter_links E n l with
    | Ok ys => nvar n = l_var l /\
        (exists lv, nlinks n !! l_fld l = Some lv /\ nonempty ys ≡ₚ nonempty (lv_elems lv) /\
          (k <> KSet SHash -> nonempty ys = nonempty (lv_elems lv))) /\
        (forall y, y <> 0%N -> y ∈ ys <-> has_link n l y)
    | Err p => p = PMismatch /\ nvar n <> l_var l
    end.
  Proof.
    intros Hok Hk. unfold iter_links. case_decide as Hv; [|done].
    destruct (nlinks n !! l_fld l) as [lv|] eqn:Hl.
    2: { exfalso. apply (node_ok_None E) in Hl; [|done]. rewrite Hv in Hl. destruct l; cbn in Hl. congruence. }
    pose proof (node_ok_linkkind E _ _ _ Hok Hl) as Hk'. rewrite Hv in Hk'. destruct l as [v f]; cbn in *.
    assert (kind_of lv = k) as Hkk by congruence. split; [done|].
    assert (nonempty (field_links E lv) ≡ₚ nonempty (lv_elems lv)) as Hp.
    { destruct lv as [i|s l|l]; cbn [field_links lv_elems].
      - destruct (N.eqb_spec i 0) as [->|Hi]; done.
      - unfold nonempty. by rewrite set_iter_perm.
      - fold (nonempty l). by rewrite nonempty_idem. }
    split.
    - exists lv. split; [done|]. split; [done|]. intros Hnh. destruct lv as [i|s l|l]; cbn [field_links lv_elems].
      + destruct (N.eqb_spec i 0) as [->|Hi]; done.
      + destruct s as [[] h]; cbn; [exfalso; apply Hnh; by rewrite <- Hkk|done..].
      + fold (nonempty l). by rewrite nonempty_idem.
    - intros y Hy. trans (y ∈ lv_elems lv).
      + trans (y ∈ nonempty (field_links E lv)); [unfold nonempty; rewrite elem_of_list_filter; naive_solver|].
        rewrite Hp. unfold nonempty. rewrite elem_of_list_filter. naive_solver.
      + unfold has_link. cbn. rewrite Hl. naive_solver.
  Qed.
  Lemma iter_sources_exact n : node_ok E n ->
    NoDup (iter_sources E n) /\
    forall l y, y <> 0%N -> (exists s, src_link s = l /\ (y, s) ∈ iter_sources E n) <-> has_link n l y.
  Proof.
    intros Hok. split; [by apply iter_sources_NoDup|]. intros l y Hy. rewrite has_link_iff. split.
    - intros (s&Hs&Hin). split; [done|]. exists s. split; [done|]. by apply elem_iter_sources in Hin.
    - intros (_&s&Hs&Hin). exists s. split; [done|]. by apply elem_iter_sources.
  Qed.
  Lemma nonvec_kind l k : linkkind E l = Some k -> nonvec E l <-> k <> KVec.
  Proof.
    unfold nonvec, linkkind. destruct (e_kinds E !! l_var l) as [ks|]; [|done]. cbn. intros ->. naive_solver.
  Qed.

  (** adding a link to a node value *)
  Lemma add_link_exact n l y k : node_ok E n -> linkkind E l = Some k -> y <> 0%N ->
    ((exists r, add_link n l y = Ok r) <->
       nvar n <> l_var l \/ k <> KVec /\ (k = KDirect -> forall z, has_link n l z -> z = y)) /\
    forall n' b, add_link n l y = Ok (n', b) ->
      node_ok E n' /\ nvar n' = nvar n /\ ndata n' = ndata n /\
      (b = true <-> nvar n = l_var l /\ ~ has_link n l y) /\
      forall l' z, has_link n' l' z <-> has_link n l' z \/ (nvar n = l_var l /\ l' = l /\ z = y).
  Proof.
    intros Hok Hk Hy. destruct (decide (nvar n = l_var l)) as [Hv|Hv].
    2: { assert (add_link n l y = Ok (n, false)) as -> by (unfold add_link; by rewrite decide_False).
      split; [naive_solver|]. intros n' b [= <- <-]. naive_solver. }
    pose proof (add_link_spec E n l y Hok Hv Hy) as Hs. destruct (add_link n l y) as [[n1 b1]|p] eqn:Ha.
    - destruct Hs as (Hok'&(Hv'&Hd&_)&Hsv&Hb&_&(k'&Hk'&Hnk)). assert (k' = k) as -> by congruence.
      assert (nonvec E l) as Hnv by (by apply (nonvec_kind _ k)).
      assert (has_link n l y <-> src_val n (lsrc l) y) as Hhl by by apply (has_link_lsrc E).
      split.
      + split; [|eauto]. intros _. right. split; [done|]. intros -> z Hz.
        unfold add_link in Ha. rewrite decide_True in Ha by done. destruct Hz as (Hz0&_&lv&Hlv&Hin).
        rewrite Hlv in Ha. pose proof (node_ok_linkkind E _ _ _ Hok Hlv) as Hkk. rewrite Hv in Hkk. destruct l as [v f]; cbn in *.
        destruct lv as [i| |]; cbn in Hkk; [|congruence..]. cbn in Hin. apply elem_of_list_singleton in Hin as ->.
        destruct (N.eqb_spec i 0); [done|]. by destruct (N.eqb_spec i y).
      + intros n' b [= <- <-]. split; [done|]. split; [done|]. split; [done|]. split.
        * rewrite Hhl. rewrite <- Hb. destruct b1; naive_solver.
        * intros l' z. rewrite !has_link_iff. split.
          -- intros (Hz&s&<-&Hsz). apply Hsv in Hsz as [Hsz|[-> ->]]; [left; eauto|]. right. by destruct l.
          -- intros [(Hz&s&<-&Hsz)|(_&->&->)].
             ++ split; [done|]. exists s. split; [done|]. apply Hsv. by left.
             ++ split; [done|]. exists (lsrc l). split; [by destruct l|]. apply Hsv. by right.
    - split; [|done]. split; [by intros [? ?]|]. intros [?|[Hnk Hd]]; [done|].
      destruct Hs as [[_ Hs]|[[_ Hs]|(_&Hs&z&Hne&Hz)]]; [congruence..|].
      assert (k = KDirect) as -> by congruence. destruct Hne. apply Hd; [done|].
      assert (z <> 0%N) as Hz0.
      { intros ->. destruct Hz as [_ Hz]. cbn in Hz. destruct (nlinks n !! l_fld l) as [lv|] eqn:Hlv; [|done].
        pose proof (node_ok_linkkind E _ _ _ Hok Hlv) as Hkk. rewrite Hv in Hkk. destruct l; cbn in *. destruct lv; cbn in *; [naive_solver|congruence|done]. }
      apply (has_link_lsrc E); [done| |done|done]. by apply (nonvec_kind _ KDirect).
  Qed.
  Lemma remove_link_exact n l y k : node_ok E n -> linkkind E l = Some k -> y <> 0%N ->
    ((exists r, remove_link n l y = Ok r) <-> nvar n <> l_var l \/ k <> KVec) /\
    forall n' b, remove_link n l y = Ok (n', b) ->
      node_ok E n' /\ nvar n' = nvar n /\ ndata n' = ndata n /\
      (b = true <-> has_link n l y) /\
      forall l' z, has_link n' l' z <-> has_link n l' z /\ ~ (l' = l /\ z = y).
  Proof.
    intros Hok Hk Hy. destruct (decide (nvar n = l_var l)) as [Hv|Hv].
    2: { assert (remove_link n l y = Ok (n, false)) as -> by (unfold remove_link; by rewrite decide_False).
      split; [naive_solver|]. intros n' b [= <- <-]. split; [done|]. split; [done|]. split; [done|]. split; [split; [done|by intros (_&?&_)]|].
      intros l' z. split; [|naive_solver]. intros Hl. split; [done|]. intros [-> ->]. by destruct Hl as (_&?&_). }
    pose proof (remove_link_spec E n l y Hok Hv Hy) as Hs. destruct (remove_link n l y) as [[n1 b1]|p] eqn:Ha.
    - destruct Hs as (Hok'&(Hv'&Hd&_)&Hsv&Hb&_&(k'&Hk'&Hnk)). assert (k' = k) as -> by congruence.
      assert (nonvec E l) as Hnv by (by apply (nonvec_kind _ k)).
      assert (has_link n l y <-> src_val n (lsrc l) y) as Hhl by by apply (has_link_lsrc E).
      split; [naive_solver|].
      intros n' b [= <- <-]. split; [done|]. split; [done|]. split; [done|]. split; [by rewrite Hhl|].
      intros l' z. rewrite !has_link_iff. split.
      + intros (Hz&s&<-&Hsz). apply Hsv in Hsz as [Hsz Hn]. split; [eauto|]. intros [Hl ->]. apply Hn. split; [|done].
        assert (nonvec E (src_link s)) as Hnv' by by rewrite Hl. apply (src_nonvec E n s y Hok Hsz) in Hnv'.
        apply src_link_inj; [done|done|]. rewrite Hl. by destruct l.
      + intros [(Hz&s&<-&Hsz) Hn]. split; [done|]. exists s. split; [done|]. apply Hsv. split; [done|]. intros [-> ->].
        apply Hn. by destruct l.
    - split; [|done]. split; [by intros [? ?]|]. intros [?|Hnk]; [done|].
      destruct Hs as [[_ Hs]|[_ Hs]]; congruence.
  Qed.
  (** replacing one occurrence (a source) of [old] by [new] *)
  Lemma modify_link_exact n s old new : node_ok E n -> (old, s) ∈ iter_sources E n -> old <> 0%N -> old <> new ->
    exists n' added, modify_link n s old new = Ok (n', (true, added)) /\
      node_ok E n' /\ nvar n' = nvar n /\ ndata n' = ndata n /\
      (added = true <-> new <> 0%N /\ (new, s) ∉ iter_sources E n) /\
      forall z s', (z, s') ∈ iter_sources E n' <->
        (z, s') ∈ iter_sources E n /\ (z, s') <> (old, s) \/ (z, s') = (new, s) /\ new <> 0%N.
  Proof.
    intros Hok Hin Ho Hon. rewrite elem_iter_sources in Hin. setoid_rewrite elem_iter_sources. destruct Hin as [Hv Hin].
    destruct s as [v f p]; cbn in Hv, Hin. subst v. unfold modify_link. cbn. rewrite decide_True by done.
    destruct (nlinks n !! f) as [lv|] eqn:Hl; [|done].
    assert (forall lv', linkval_ok (kind_of lv) lv' -> node_ok E (set_field n f lv')) as Hset by (intros; by eapply node_ok_set_field).
    destruct lv as [i|sk l|l], p as [p|]; try done.
    - destruct Hin as [-> _]. exists (set_field n f (LDirect new)), (negb (new =? 0)%N). split; [|split; [by apply Hset|split; [done|split; [done|split]]]].
      + destruct (N.eqb_spec old new); [done|]. destruct (N.eqb_spec old 0); [done|]. cbn. done.
      + destruct (N.eqb_spec new 0) as [->|]; cbn; [naive_solver|]. unfold src_val; cbn; rewrite Hl. naive_solver.
      + intros z s'. rewrite (src_val_set_field n f _ _ s' z Hl). case_decide as Hf.
        * unfold src_val. rewrite Hf, Hl. destruct s' as [v' f' p']; cbn in *. subst f'. destruct p'; [naive_solver|]. naive_solver.
        * split; [|naive_solver]. intros Hs. left. split; [done|]. intros [= _ ->]. by apply Hf.
    - pose proof (node_ok_set _ _ _ _ _ Hok Hl) as Hnd.
      destruct (N.eqb_spec new 0) as [->|Hn0].
      + do 2 eexists. split; [by rewrite bool_decide_true|]. split; [apply Hset; split; [done|by eapply set_remove_rep, node_ok_rep]|].
        split; [done|]. split; [done|]. split; [naive_solver|]. intros z s'. rewrite (src_val_set_field n f _ _ s' z Hl). case_decide as Hf.
        * unfold src_val. rewrite Hf, Hl. destruct s' as [v' f' p']; cbn in *. subst f'. destruct p'; [naive_solver|].
          rewrite set_remove_elem by done. naive_solver.
        * split; [|naive_solver]. intros Hs. left. split; [done|]. intros [= _ ->]. by apply Hf.
      + do 2 eexists. split; [by rewrite bool_decide_true|]. split; [apply Hset; split; [done|by eapply set_insert_rep, set_remove_rep, node_ok_rep]|].
        split; [done|]. split; [done|]. split.
        { rewrite negb_true_iff, bool_decide_eq_false, set_remove_elem by done. unfold src_val; cbn; rewrite Hl. naive_solver. }
        intros z s'. rewrite (src_val_set_field n f _ _ s' z Hl). case_decide as Hf.
        * unfold src_val. rewrite Hf, Hl. destruct s' as [v' f' p']; cbn in *. subst f'. destruct p'; [naive_solver|].
          rewrite set_insert_elem, set_remove_elem by done. naive_solver.
        * split; [|naive_solver]. intros Hs. left. split; [done|]. intros [= _ ->]. by apply Hf.
    - destruct Hin as [Hp _]. rewrite Hp. exists (set_field n f (LVec (<[p := new]> l))), (negb (new =? 0)%N). split; [|split; [by apply Hset|split; [done|split; [done|split]]]].
      + destruct (N.eqb_spec old new); [done|]. destruct (N.eqb_spec old 0); [done|]. cbn. done.
      + destruct (N.eqb_spec new 0) as [->|]; cbn; [naive_solver|]. unfold src_val; cbn; rewrite Hl. naive_solver.
      + intros z s'. rewrite (src_val_set_field n f _ _ s' z Hl). case_decide as Hf.
        * unfold src_val. rewrite Hf, Hl. destruct s' as [v' f' p']; cbn in *. subst f'. destruct p' as [p'|]; [|naive_solver].
          destruct (decide (p' = p)) as [->|Hpp].
          -- rewrite list_lookup_insert by by eapply lookup_lt_Some. naive_solver.
          -- rewrite list_lookup_insert_ne by done. naive_solver.
        * split; [|naive_solver]. intros Hs. left. split; [done|]. intros [= _ ->]. by apply Hf.
  Qed.
  (** [modify_link] at any source value, whatever is there *)
  Lemma modify_link_any n s old new k : node_ok E n -> linkkind E (src_link s) = Some k -> (k = KVec <-> is_Some (s_pos s)) ->
    match modify_link n s old new with
    | Err p => p = PMismatch /\ nvar n <> s_var s \/
        p = PBounds /\ nvar n = s_var s /\
          exists pos l, s_pos s = Some pos /\ nlinks n !! s_fld s = Some (LVec l) /\ length l <= pos
    | Ok (n', (removed, added)) =>
        nvar n = s_var s /\ node_ok E n' /\ nvar n' = nvar n /\ ndata n' = ndata n /\
        (forall pos l, s_pos s = Some pos -> nlinks n !! s_fld s = Some (LVec l) -> pos < length l) /\
        (forall z s', (z, s') ∈ iter_sources E n' <->
           (z, s') ∈ iter_sources E n /\ ~ (s' = s /\ ((exists sk, k = KSet sk) -> z = old)) \/ (z, s') = (new, s) /\ new <> 0%N) /\
        (removed = true <-> exists z, (z, s) ∈ iter_sources E n /\
           ((exists sk, k = KSet sk) /\ z = old \/ (forall sk, k <> KSet sk) /\ z <> new)) /\
        (added = true <-> new <> 0%N /\ ((new, s) ∉ iter_sources E n \/ (exists sk, k = KSet sk) /\ new = old))
    end.
  Proof.
    intros Hok Hk Hkp. unfold modify_link. destruct (decide (nvar n = s_var s)) as [Hv|Hv]; [|by left].
    destruct s as [v f p]; cbn in Hv, Hk, Hkp |- *. subst v.
    destruct (nlinks n !! f) as [lv|] eqn:Hl.
    2: { exfalso. pose proof (node_ok_None E _ _ Hok Hl) as Hno. unfold src_link in Hk. cbn in Hk. congruence. }
    assert (forall lv', linkval_ok (kind_of lv) lv' -> node_ok E (set_field n f lv')) as Hset by (intros; by eapply node_ok_set_field).
    pose proof (node_ok_linkkind E _ _ _ Hok Hl) as Hkk. unfold src_link in Hk. cbn in Hk. rewrite Hk in Hkk. injection Hkk as ->.
    destruct lv as [i|sk l|l], p as [p|]; cbn in Hkp; try (exfalso; destruct Hkp as [Hk1 Hk2]; (by destruct (Hk1 eq_refl)) || (by discriminate (Hk2 (mk_is_Some _ _ eq_refl)))); clear Hkp; cbn [kind_of] in *.
    - setoid_rewrite elem_iter_sources. split; [done|]. split; [by apply Hset|]. do 2 (split; [done|]). split; [done|]. split; [|split].
      + intros z s'. rewrite (src_val_set_field n f _ _ s' z Hl). case_decide as Hf.
        * unfold src_val. rewrite Hf, Hl. destruct s' as [v' f' p']; cbn in *. subst f'. destruct p'; [naive_solver|]. naive_solver.
        * split; [|naive_solver]. intros Hs. left. split; [done|]. intros [-> _]. by apply Hf.
      + unfold src_val; cbn; rewrite Hl. rewrite andb_true_iff, !negb_true_iff, !N.eqb_neq. split.
        * intros [Hin Hi0]. exists i. split; [done|]. right. split; done.
        * intros (z&(_&<-&Hz)&[[[? ?] _]|[_ ?]]); done.
      + unfold src_val; cbn; rewrite Hl. rewrite andb_true_iff, !negb_true_iff, !N.eqb_neq. split.
        * intros [? ?]. split; [done|]. left. naive_solver.
        * intros [? [Hs|[[? ?] _]]]; [|done]. split; [|done]. intros ->. apply Hs. done.
    - pose proof (node_ok_set _ _ _ _ _ Hok Hl) as Hnd.
      assert (forall z s' l', (z ∈ l' <-> z ∈ l /\ z <> old \/ z = new /\ new <> 0%N) ->
        src_val (set_field n f (LSet sk l')) s' z <->
          src_val n s' z /\ ~ (s' = Src (nvar n) f None /\ ((exists sk0, KSet (st_kind sk) = KSet sk0) -> z = old)) \/ (z, s') = (new, Src (nvar n) f None) /\ new <> 0%N) as Hsv.
      { intros z s' l' Hl'. rewrite (src_val_set_field n f _ _ s' z Hl). case_decide as Hf.
        * unfold src_val. rewrite Hf, Hl. destruct s' as [v' f' p']; cbn in *. subst f'. destruct p'; [naive_solver|]. rewrite Hl'.
          split.
          -- intros [<- [[? ?]|[-> ?]]]; [left|by right]. split; [done|]. intros [_ Hxx]. naive_solver.
          -- intros [[[<- ?] Hn]|[[= -> ->] ?]]; [|naive_solver]. split; [done|]. left. split; [done|]. intros ->. apply Hn. done.
        * split; [|naive_solver]. intros Hs. left. split; [done|]. intros [-> _]. by apply Hf. }
      destruct (N.eqb_spec new 0) as [->|Hn0]; setoid_rewrite elem_iter_sources.
      + split; [done|]. split; [apply Hset; split; [done|by eapply set_remove_rep, node_ok_rep]|]. do 2 (split; [done|]). split; [done|]. split; [|split; [|naive_solver]].
        * intros z s'. apply Hsv. rewrite set_remove_elem by done. naive_solver.
        * rewrite bool_decide_eq_true. unfold src_val; cbn; rewrite Hl. split; [|naive_solver]. intros Hin. exists old. split; [done|]. left. eauto.
      + split; [done|]. split; [apply Hset; split; [done|by eapply set_insert_rep, set_remove_rep, node_ok_rep]|]. do 2 (split; [done|]). split; [done|]. split; [|split].
        * intros z s'. apply Hsv. rewrite set_insert_elem, set_remove_elem by done. naive_solver.
        * rewrite bool_decide_eq_true. unfold src_val; cbn; rewrite Hl. split; [|naive_solver]. intros Hin. exists old. split; [done|]. left. eauto.
        * rewrite negb_true_iff, bool_decide_eq_false, set_remove_elem by done. unfold src_val; cbn; rewrite Hl.
          destruct (decide (new = old)) as [->|]; naive_solver.
    - destruct (l !! p) as [i|] eqn:Hp.
      2: { right. split; [done|]. split; [done|]. exists p, l. split; [done|]. split; [done|]. by apply lookup_ge_None. }
      setoid_rewrite elem_iter_sources. split; [done|]. split; [by apply Hset|]. do 2 (split; [done|]).
      split; [intros pos l0 [= <-] [= <-]; by eapply lookup_lt_Some|]. split; [|split].
      + intros z s'. rewrite (src_val_set_field n f _ _ s' z Hl). case_decide as Hf.
        * unfold src_val. rewrite Hf, Hl. destruct s' as [v' f' p']; cbn in *. subst f'. destruct p' as [p'|]; [|naive_solver].
          destruct (decide (p' = p)) as [->|Hpp].
          -- rewrite list_lookup_insert by by eapply lookup_lt_Some. naive_solver.
          -- rewrite list_lookup_insert_ne by done. naive_solver.
        * split; [|naive_solver]. intros Hs. left. split; [done|]. intros [-> _]. by apply Hf.
      + unfold src_val; cbn; rewrite Hl, Hp. rewrite andb_true_iff, !negb_true_iff, !N.eqb_neq. split.
        * intros [Hin Hi0]. exists i. split; [done|]. right. split; done.
        * intros (z&(_&[= <-]&Hz)&[[[? ?] _]|[_ ?]]); done.
      + unfold src_val; cbn; rewrite Hl, Hp. rewrite andb_true_iff, !negb_true_iff, !N.eqb_neq. split.
        * intros [? ?]. split; [done|]. left. naive_solver.
        * intros [? [Hs|[[? ?] _]]]; [|done]. split; [|done]. intros ->. apply Hs. done.
  Qed.
End nodeapi.

(** ** commit_checked: exactly which checks decide *)
Section checked.
  Context {D : Type} (E : env) (T : Prop).
  Implicit Types (g : graph D) (t : trans D) (s : tspec D) (c : graph_check D).

  Lemma any_fails_false {A} (f : A -> option bool) l : any_fails f l = Some false <-> forall a, a ∈ l -> f a = Some true.
  Proof.
    split; [apply any_fails_all|]. induction l as [|a l IH]; intros Hl; cbn; [done|].
    rewrite (Hl a) by left. apply IH. intros b Hb. apply Hl. by right.
  Qed.
  Lemma failed_names_none {A} (f : A -> option bool) (l : list (string * A)) :
    failed_names f l = Some [] <-> forall nm a, (nm, a) ∈ l -> f a = Some false.
  Proof.
    split; [apply failed_names_nil|]. induction l as [|[nm a] l IH]; intros Hl; cbn; [done|].
    rewrite (Hl nm a) by left. rewrite IH; [done|]. intros nm' a' Ha. apply (Hl nm'). by right.
  Qed.
  Lemma changed_elem x (L : list (idx * idx * link)) :
    x ∈ fold_left (fun acc '(x, _, _) => oset_insert x acc) L [] <-> exists y l, (x, y, l) ∈ L.
  Proof.
    assert (forall acc, x ∈ fold_left (fun acc '(x, _, _) => oset_insert x acc) L acc <-> x ∈ acc \/ exists y l, (x, y, l) ∈ L) as H.
    { induction L as [|[[x0 y0] l0] L IH]; intros acc; cbn.
      - split; [auto|]. intros [?|(y&l&Hin%elem_of_nil)]; done.
      - rewrite IH, oset_insert_elem. split.
        + intros [[->|?]|(y&l&?)]; [right; exists y0, l0; left|auto|right; exists y, l; by right].
        + intros [?|(y&l&[[= -> _ _]|?]%elem_of_cons)]; eauto. }
    rewrite H. split; [|auto]. intros [?%elem_of_nil|?]; done.
  Qed.
  Lemma check_change_ok g r c :
    check_change g r c = Some [] <->
    (forall nm chk x, (nm, chk) ∈ gc_node c -> (exists y l, (x, y, l) ∈ lc_adds r ++ lc_rems r) ->
       exists nx, graph_get g x = Some nx /\ chk x nx = true) /\
    (forall nm chk x y l, (nm, chk) ∈ gc_add c \/ (nm, chk) ∈ gc_rem c -> (x, y, l) ∈ lc_adds r ->
       exists nx, graph_get g x = Some nx /\ chk x y nx (graph_get g y) = true).
  Proof.
    unfold check_change. split.
    - intros Hch. destruct (failed_names _ (gc_node c)) as [f1|] eqn:Hf1; [|done].
      destruct (failed_names _ (gc_add c)) as [f2|] eqn:Hf2; [|done].
      destruct (failed_names _ (gc_rem c)) as [f3|] eqn:Hf3; [|done].
      injection Hch as Hch. apply app_eq_nil in Hch as [-> Hch]. apply app_eq_nil in Hch as [-> ->].
      pose proof (failed_names_nil _ _ Hf1) as H1. pose proof (failed_names_nil _ _ Hf2) as H2. pose proof (failed_names_nil _ _ Hf3) as H3.
      clear Hf1 Hf2 Hf3. rename H1 into Hf1, H2 into Hf2, H3 into Hf3. split.
      + intros nm chk x Hin Hx. specialize (Hf1 _ _ Hin). cbn beta in Hf1. rewrite any_fails_false in Hf1.
        apply changed_elem in Hx. apply Hf1 in Hx. destruct (graph_get g x) as [nx|]; [|done]. injection Hx as Hx. eauto.
      + intros nm chk x y l Hin Hx. assert (any_fails (fun '(x, y, _) => match graph_get g x with
          Some n => Some (chk x y n (graph_get g y)) | None => None end) (lc_adds r) = Some false) as Hf by (destruct Hin; eauto).
        rewrite any_fails_false in Hf. apply Hf in Hx. cbn in Hx. destruct (graph_get g x) as [nx|]; [|done]. injection Hx as Hx. eauto.
    - intros [Hn Hl]. assert (forall nm chk, (nm, chk) ∈ gc_add c \/ (nm, chk) ∈ gc_rem c ->
        any_fails (fun '(x, y, _) => match graph_get g x with Some n => Some (chk x y n (graph_get g y)) | None => None end) (lc_adds r) = Some false) as Hf.
      { intros nm chk Hin. apply any_fails_false. intros [[x y] l] Hx. destruct (Hl nm chk x y l Hin Hx) as (nx&->&->). done. }
      rewrite (proj2 (failed_names_none _ (gc_node c))).
      2: { intros nm chk Hin. apply any_fails_false. intros x Hx. apply changed_elem in Hx. destruct (Hn nm chk x Hin Hx) as (nx&->&->). done. }
      rewrite (proj2 (failed_names_none _ (gc_add c))) by eauto. rewrite (proj2 (failed_names_none _ (gc_rem c))) by eauto. done.
  Qed.

  (** C30: what [commit_checked] decides, when the schema has no Vec links *)
  Definition passes g g' (m' : gmap N (node D)) c : Prop :=
    (forall nm chk x, (nm, chk) ∈ gc_node c ->
       (exists y l, in_nodes m' x y l /\ ~ in_graph g x y l \/ in_graph g x y l /\ ~ in_nodes m' x y l) ->
       exists nx, graph_get g' x = Some nx /\ chk x nx = true) /\
    (forall nm chk x y l, (nm, chk) ∈ gc_add c \/ (nm, chk) ∈ gc_rem c -> in_nodes m' x y l -> ~ in_graph g x y l ->
       exists nx, graph_get g' x = Some nx /\ chk x y nx (graph_get g' y) = true).
  Lemma final_checked_exact g t s g' : history E T g t s -> (forall l, nonvec E l) -> commit E t g = Done g' tt ->
    exists m m', nodes_are g m /\ sp_commit (ts_txn s) m m' /\ forall c,
      (commit_checked E t c g = Done g' tt <-> passes g g' m' c) /\
      (commit_checked E t c g = Done g' tt \/ commit_checked E t c g = Panicked PCheckFailed g' \/ commit_checked E t c g = Panicked PUnwrap g').
  Proof.
    intros Hh Hnv. destruct (history_ok E T g t s Hh) as (Hwf&Hty&Ht&_).
    unfold commit_checked, commit, bindM, getM, retM, panicM.
    destruct (do_commit E t g) as [g1 r|p g1] eqn:Hd; [|naive_solver].
    pose proof (check_link_type_spec E r g1) as Hs. destruct (check_link_type E r g1) as [g2 []|p g2] eqn:Hk; [|naive_solver].
    destruct Hs as [-> _]. intros [= ->].
    destruct (change_record E T g t Hwf Hty Ht g' r Hd) as (m'&Hsp&_&Hrec). rewrite (history_txn E T g t s Hh) in Hsp.
    destruct (do_commit_split E T g t g' r Hwf Hty Ht Hd) as (g3&m1&Hcm&_).
    pose proof (cm_st _ _ _ _ _ _ _ _ Hcm) as Hst.
    exists (gmap_of g), m'. split; [exact (history_nodes E T g t s Hh)|]. split; [done|]. intros c.
    assert (forall x y l, (x, y, l) ∈ lc_adds r <-> in_nodes m' x y l /\ ~ in_graph g x y l) as Ha.
    { intros x y l. split.
      - intros Hin. apply (Hrec x y l); [|done|done]. by eapply (lc_nz_a _ _ _ _ (st_lc _ _ _ _ _ _ _ _ Hst)).
      - intros Hin. apply (Hrec x y l); [|done|done]. by destruct Hin as [(?&_&?&_) _]. }
    assert (forall x y l, (x, y, l) ∈ lc_rems r <-> in_graph g x y l /\ ~ in_nodes m' x y l) as Hr.
    { intros x y l. split.
      - intros Hin. apply (Hrec x y l); [|done|done]. by eapply (lc_nz_r _ _ _ _ (st_lc _ _ _ _ _ _ _ _ Hst)).
      - intros Hin. apply (Hrec x y l); [|done|done]. by destruct Hin as [(?&_&?&_) _]. }
    assert (forall x, (exists y l, (x, y, l) ∈ lc_adds r ++ lc_rems r) <->
      exists y l, in_nodes m' x y l /\ ~ in_graph g x y l \/ in_graph g x y l /\ ~ in_nodes m' x y l) as Hch.
    { intros x. setoid_rewrite elem_of_app. setoid_rewrite Ha. setoid_rewrite Hr. done. }
    split; [|destruct (check_change g' r c) as [[|]|]; auto].
    trans (check_change g' r c = Some []).
    { destruct (check_change g' r c) as [[|]|]; naive_solver. }
    rewrite check_change_ok. setoid_rewrite Hch. setoid_rewrite Ha. unfold passes. split.
    - intros [H1 H2]. split; [done|]. intros nm chk x y l Hin Hx Hy. by eapply H2.
    - intros [H1 H2]. split; [done|]. intros nm chk x y l Hin [Hx Hy]. by eapply H2.
  Qed.

  (** C58 *)
  Lemma registry_checked g t s os g' : history E T g t s -> commit_checked E t (gc_of os) g = Done g' tt ->
    exists m m', nodes_are g m /\ sp_commit (ts_txn s) m m' /\
      forall nm chk x y l, current (about_add nm) os = Some chk -> nonvec E l -> in_nodes m' x y l -> ~ in_graph g x y l ->
        exists nx, graph_get g' x = Some nx /\ chk x y nx (graph_get g' y) = true.
  Proof.
    intros Hh Hc. destruct (final_checked E T g t s Hh _ _ Hc) as (_&m&m'&Hm&Hsp&_&Hk). exists m, m'. split; [done|]. split; [done|].
    intros nm chk x y l Hcur. apply Hk with nm. by apply gc_of_exact.
  Qed.
  (** C55 *)
  Lemma integrity_exact g : graph_of E T g ->
    check_integrity E g = true <->
      (e_dbg E = true -> closed g /\ no_empty_in_sets g).
  Proof.
    intros Hg. destruct (graph_of_ok E _ _ Hg) as (Hwf&_). rewrite check_integrity_spec by done. destruct (e_dbg E); naive_solver.
  Qed.
End checked.
