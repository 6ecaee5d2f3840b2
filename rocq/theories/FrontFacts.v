(** * The front ends read exactly what is written *)
From Coq Require Import Ascii.
From Verif Require Export Front.

(** ** How declarations are written *)
(** items, each written as [W] says, with commas between them and perhaps after the last *)
Inductive written {A} (W : A -> list token -> Prop) : list A -> list token -> Prop :=
| wr_nil : written W [] []
| wr_last x us : W x us -> written W [x] us
| wr_more x us j xs ts : W x us -> written W xs ts -> written W (x :: xs) (us ++ TPunct "," j :: ts).

Section facts.
  Context (word : string -> bool).
  Implicit Types (ts us : list token).

  Definition w_word (x : string) us : Prop := us = [TIdent x].
  Definition w_ident (x : string) us : Prop := us = [TIdent x] /\ word x = true.
  (** [A.x <-> B.y] *)
  Definition w_bidi (d : bdecl) us : Prop :=
    word (b_var1 d) = true /\ word (b_link1 d) = true /\ word (b_var2 d) = true /\ word (b_link2 d) = true /\
    exists j1 j2 j3, us = [TIdent (b_var1 d); TPunct "." j1; TIdent (b_link1 d); TPunct "<" true; TPunct "-" true; TPunct ">" j2;
      TIdent (b_var2 d); TPunct "." j3; TIdent (b_link2 d)].
  (** [name { A, B }] *)
  Definition w_group (d : string * list string) us : Prop :=
    word d.1 = true /\ exists inner, us = [TIdent d.1; TGroup Brace inner] /\ written w_ident d.2 inner.
  (** [A.x: B] or [A.x: { B, C }] *)
  Definition w_anno (d : adecl) us : Prop :=
    word (an_var d) = true /\ word (an_link d) = true /\ exists j1 j2 rest,
      us = [TIdent (an_var d); TPunct "." j1; TIdent (an_link d); TPunct ":" j2; rest] /\
      ((exists inner, rest = TGroup Brace inner /\ written w_ident (an_targets d) inner) \/
       (exists x, an_targets d = [x] /\ rest = TIdent x /\ word x = true)).
  (** [a::b::c] *)
  Inductive w_segments : list string -> list token -> Prop :=
  | ws_one x : w_segments [x] [TIdent x]
  | ws_more x j xs us : w_segments xs us -> w_segments (x :: xs) (TIdent x :: TPunct ":" true :: TPunct ":" j :: us).
  Definition w_meta (p : bool * list string) us : Prop :=
    if p.1 then exists j vs, us = TPunct ":" true :: TPunct ":" j :: vs /\ w_segments p.2 vs else w_segments p.2 us.

  Lemma p_punct1 c ts r : p_punct [c] ts = Some r <-> exists j, ts = TPunct c j :: r.
  Proof.
    cbn. destruct ts as [|[|c' j| |] ts]; try (split; [done|by intros (?&?)]).
    destruct (Ascii.eqb_spec c c') as [<-|Hne].
    - split; [intros [= <-]; eauto|]. by intros (j'&[= -> ->]).
    - split; [done|]. by intros (j'&[= ? ? ?]).
  Qed.
  Lemma p_punct1_some c j r : p_punct [c] (TPunct c j :: r) = Some r.
  Proof. cbn. by rewrite Ascii.eqb_refl. Qed.

  (** ** Lists with commas *)
  Definition stops ts : Prop := ts = [] \/ exists j r, ts = TPunct "," j :: r.
  Section terminated.
    Context {A : Type} (p : list token -> option (A * list token)) (W : A -> list token -> Prop).
    Context (Hsound : forall ts x r, p ts = Some (x, r) -> exists us, W x us /\ ts = us ++ r)
      (Hcomplete : forall x us r, W x us -> stops r -> p (us ++ r) = Some (x, r))
      (Hne : forall x us, W x us -> us <> []).
    Lemma terminated_sound fuel ts xs : p_terminated p fuel ts = Some xs -> written W xs ts.
    Proof using Hsound Hne.
      revert ts xs. induction fuel as [|fuel IH]; intros ts xs H; [done|]. cbn [p_terminated] in H.
      destruct ts as [|t ts0] eqn:Hts; [injection H as <-; constructor|]. rewrite <- Hts in *. clear Hts t ts0.
      destruct (p ts) as [[x r]|] eqn:Hp; [|done]. destruct (Hsound _ _ _ Hp) as (us&Hus&->).
      destruct r as [|t r].
      - injection H as <-. rewrite app_nil_r. by constructor.
      - destruct (p_punct [","%char] (t :: r)) as [r'|] eqn:Hc; [|done]. apply p_punct1 in Hc as (j&->).
        apply fmap_Some in H as (xs'&H&->). constructor; [done|]. by apply IH.
    Qed.
    Lemma terminated_complete xs ts : written W xs ts -> forall fuel, length ts < fuel -> p_terminated p fuel ts = Some xs.
    Proof using Hcomplete Hne.
      induction 1 as [|x us Hx|x us j xs ts Hx H IH]; intros [|fuel] Hf; try lia; cbn [p_terminated].
      - done.
      - pose proof (Hne _ _ Hx). destruct us as [|t us0] eqn:Hus; [done|]. rewrite <- Hus in *. clear Hus.
        pose proof (Hcomplete x us [] Hx) as Hp. rewrite app_nil_r in Hp. rewrite Hp by by left. done.
      - pose proof (Hne _ _ Hx). destruct us as [|t us0] eqn:Hus; [done|]. rewrite <- Hus in *.
        assert (us ++ TPunct "," j :: ts = t :: us0 ++ TPunct "," j :: ts) as Heq by by rewrite Hus. rewrite Heq at 1.
        rewrite (Hcomplete x us); [|done|right; eauto]. rewrite p_punct1_some, IH; [done|].
        rewrite app_length in Hf. cbn in Hf. destruct us; [done|]. cbn in Hf. lia.
    Qed.
    Lemma terminated_iff ts xs : terminated p ts = Some xs <-> written W xs ts.
    Proof using Hsound Hcomplete Hne.
      split; [apply terminated_sound|]. intros H. unfold terminated. eapply terminated_complete; [done|lia].
    Qed.
  End terminated.

  (** ** The items *)
  Lemma p_ident_sound ts x r : p_ident word ts = Some (x, r) -> ts = TIdent x :: r /\ word x = true.
  Proof. unfold p_ident. destruct ts as [|[y| | |] ts]; try done. destruct (word y) eqn:Hy; [|done]. by intros [= <- <-]. Qed.
  Lemma p_ident_some x r : word x = true -> p_ident word (TIdent x :: r) = Some (x, r).
  Proof. intros H. cbn. by rewrite H. Qed.
  Lemma p_punct_more c c2 cs ts r : p_punct (c :: c2 :: cs) ts = Some r <-> exists ts', ts = TPunct c true :: ts' /\ p_punct (c2 :: cs) ts' = Some r.
  Proof.
    change (p_punct (c :: c2 :: cs) ts) with
      (match ts with TPunct c' true :: r => if Ascii.eqb c c' then p_punct (c2 :: cs) r else None | _ => None end).
    destruct ts as [|[|c' []| |] ts]; try (split; [done|by intros (?&?&?)]).
    destruct (Ascii.eqb_spec c c') as [<-|Hne].
    - split; [eauto|]. by intros (ts'&[= ->]&H).
    - split; [done|]. by intros (ts'&[= ? ?]&_).
  Qed.
  Lemma p_colons ts r : p_punct [":"%char; ":"%char] ts = Some r <-> exists j, ts = TPunct ":" true :: TPunct ":" j :: r.
  Proof.
    rewrite p_punct_more. setoid_rewrite p_punct1. split.
    - intros (ts'&->&j&->). eauto.
    - intros (j&->). eauto.
  Qed.
  Lemma p_arrow ts r : p_punct ["<"%char; "-"%char; ">"%char] ts = Some r <-> exists j, ts = TPunct "<" true :: TPunct "-" true :: TPunct ">" j :: r.
  Proof.
    rewrite p_punct_more. setoid_rewrite p_punct_more. setoid_rewrite p_punct1. split.
    - intros (ts'&->&ts2&->&j&->). eauto.
    - intros (j&->). eauto 10.
  Qed.
  Lemma p_braced_iff ts inner r : p_braced ts = Some (inner, r) <-> ts = TGroup Brace inner :: r.
  Proof.
    unfold p_braced. destruct ts as [|[| | |[] inner'] ts]; try (split; [done|by intros [=]]).
    split; [by intros [= -> ->]|by intros [= -> ->]].
  Qed.
  Lemma idents_iff ts xs : terminated (p_ident word) ts = Some xs <-> written w_ident xs ts.
  Proof.
    apply terminated_iff.
    - intros ts0 x r [-> Hw]%p_ident_sound. exists [TIdent x]. done.
    - intros x us r [-> Hw] _. by apply p_ident_some.
    - by intros x us [-> _].
  Qed.

  Lemma bidi_sound ts d r : p_bidi word ts = Some (d, r) -> exists us, w_bidi d us /\ ts = us ++ r.
  Proof.
    unfold p_bidi. intros H.
    apply bind_Some in H as ([v1 t1]&[-> H1]%p_ident_sound&H). apply bind_Some in H as (t2&(j1&->)%p_punct1&H).
    apply bind_Some in H as ([l1 t3]&[-> H2]%p_ident_sound&H). apply bind_Some in H as (t4&(j2&->)%p_arrow&H).
    apply bind_Some in H as ([v2 t5]&[-> H3]%p_ident_sound&H). apply bind_Some in H as (t6&(j3&->)%p_punct1&H).
    apply bind_Some in H as ([l2 t7]&[-> H4]%p_ident_sound&H). injection H as <- <-.
    eexists. split; [|shelve]. unfold w_bidi. cbn. split; [done|]. split; [done|]. split; [done|]. split; [done|]. by exists j1, j2, j3.
    Unshelve. done.
  Qed.
  Lemma bidi_complete d us r : w_bidi d us -> p_bidi word (us ++ r) = Some (d, r).
  Proof.
    destruct d as [v1 l1 v2 l2]. intros (H1&H2&H3&H4&j1&j2&j3&->). cbn in *. unfold p_bidi. cbn. rewrite H1. cbn. rewrite H2. cbn. rewrite H3. cbn. rewrite H4. done.
  Qed.
  Lemma bidis_iff ts ds : terminated (p_bidi word) ts = Some ds <-> written w_bidi ds ts.
  Proof.
    apply terminated_iff; [apply bidi_sound|intros d us r H _; by apply bidi_complete|]. by intros d us (_&_&_&_&?&?&?&->).
  Qed.

  Lemma group_sound ts d r : p_group word ts = Some (d, r) -> exists us, w_group d us /\ ts = us ++ r.
  Proof.
    unfold p_group. intros H. apply bind_Some in H as ([x t1]&[-> H1]%p_ident_sound&H). apply bind_Some in H as ([inner t2]&->%p_braced_iff&H).
    apply bind_Some in H as (ms&Hms%idents_iff&[= <- <-]). exists [TIdent x; TGroup Brace inner]. split; [|done]. split; [done|]. by exists inner.
  Qed.
  Lemma group_complete d us r : w_group d us -> p_group word (us ++ r) = Some (d, r).
  Proof.
    destruct d as [x ms]. intros (H1&inner&->&H2). cbn [fst snd] in *. unfold p_group. cbn [app]. rewrite p_ident_some by done. cbn [mbind option_bind p_braced]. apply idents_iff in H2. rewrite H2. done.
  Qed.
  Lemma groups_iff ts ds : terminated (p_group word) ts = Some ds <-> written w_group ds ts.
  Proof.
    apply terminated_iff; [apply group_sound|intros d us r H _; by apply group_complete|]. by intros d us (_&?&->&_).
  Qed.

  Lemma anno_sound ts d r : p_anno word ts = Some (d, r) -> exists us, w_anno d us /\ ts = us ++ r.
  Proof.
    unfold p_anno. intros H.
    apply bind_Some in H as ([v1 t1]&[-> H1]%p_ident_sound&H). apply bind_Some in H as (t2&(j1&->)%p_punct1&H).
    apply bind_Some in H as ([l1 t3]&[-> H2]%p_ident_sound&H). apply bind_Some in H as (t4&(j2&->)%p_punct1&H).
    assert ((exists inner ws, t4 = TGroup Brace inner :: r /\ d = Anno v1 l1 ws /\ written w_ident ws inner) \/
      exists x, t4 = TIdent x :: r /\ d = Anno v1 l1 [x] /\ word x = true) as Hc.
    { destruct t4 as [|[x| | |[] inner] t4]; try done.
      - right. apply bind_Some in H as ([y t5]&[[= <- <-] Hx]%p_ident_sound&[= <- <-]). by exists x.
      - left. apply bind_Some in H as (ws&Hws%idents_iff&[= <- <-]). by exists inner, ws. }
    destruct Hc as [(inner&ws&->&->&Hws)|(x&->&->&Hx)].
    - exists [TIdent v1; TPunct "." j1; TIdent l1; TPunct ":" j2; TGroup Brace inner]. split; [|done].
      split; [done|]. split; [done|]. exists j1, j2, (TGroup Brace inner). split; [done|]. left. by exists inner.
    - exists [TIdent v1; TPunct "." j1; TIdent l1; TPunct ":" j2; TIdent x]. split; [|done].
      split; [done|]. split; [done|]. exists j1, j2, (TIdent x). split; [done|]. right. by exists x.
  Qed.
  Lemma anno_complete d us r : w_anno d us -> p_anno word (us ++ r) = Some (d, r).
  Proof.
    destruct d as [v l ws]. intros (H1&H2&j1&j2&rest&->&Hr). cbn [an_var an_link an_targets] in *. unfold p_anno. cbn [app].
    rewrite p_ident_some by done. cbn [mbind option_bind]. rewrite p_punct1_some. cbn [mbind option_bind]. rewrite p_ident_some by done. cbn [mbind option_bind]. rewrite p_punct1_some. cbn [mbind option_bind].
    destruct Hr as [(inner&->&Hi%idents_iff)|(x&->&->&Hx)].
    - by rewrite Hi.
    - by rewrite p_ident_some by done.
  Qed.
  Lemma annos_iff ts ds : terminated (p_anno word) ts = Some ds <-> written w_anno ds ts.
  Proof.
    apply terminated_iff; [apply anno_sound|intros d us r H _; by apply anno_complete|]. by intros d us (_&_&?&?&?&->&_).
  Qed.

  (** ** Paths in attributes *)
  Lemma segments_sound fuel ts xs r : p_segments fuel ts = Some (xs, r) -> exists us, w_segments xs us /\ ts = us ++ r.
  Proof.
    revert ts xs r. induction fuel as [|fuel IH]; intros ts xs r H; [done|]. cbn [p_segments] in H. destruct ts as [|[x| | |] ts]; try done.
    destruct (p_punct [":"%char; ":"%char] ts) as [r'|] eqn:Hp.
    - apply p_colons in Hp as (j&->). apply bind_Some in H as ([ys r2]&(us&Hus&->)%IH&[= <- <-]).
      eexists. split; [by apply (ws_more x j)|done].
    - injection H as <- <-. exists [TIdent x]. split; [constructor|done].
  Qed.
  Lemma stops_colons ts : stops ts -> p_punct [":"%char; ":"%char] ts = None.
  Proof. intros [->|(j&r&->)]; [done|]. by destruct j. Qed.
  Lemma segments_complete xs us r fuel : w_segments xs us -> stops r -> length us <= fuel -> p_segments fuel (us ++ r) = Some (xs, r).
  Proof.
    intros H Hr. revert fuel. induction H as [x|x j xs us H IH]; intros [|fuel] Hf; cbn in Hf; try lia; cbn [p_segments app].
    - by rewrite stops_colons.
    - rewrite (proj2 (p_colons _ _)) by eauto. rewrite IH by lia. done.
  Qed.
  Lemma segments_ident xs us : w_segments xs us -> exists x r, us = TIdent x :: r.
  Proof. destruct 1; eauto. Qed.
  Lemma meta_sound ts q r : p_meta ts = Some (q, r) -> exists us, w_meta q us /\ ts = us ++ r.
  Proof.
    unfold p_meta. destruct (p_punct _ ts) as [r0|] eqn:Hp; intros H.
    - apply p_colons in Hp as (j&->). apply bind_Some in H as ([xs r1]&(us&Hus&->)%segments_sound&[= <- <-]).
      exists (TPunct ":" true :: TPunct ":" j :: us). split; [|done]. cbn. eauto.
    - apply bind_Some in H as ([xs r1]&(us&Hus&->)%segments_sound&[= <- <-]). by exists us.
  Qed.
  Lemma meta_complete q us r : w_meta q us -> stops r -> p_meta (us ++ r) = Some (q, r).
  Proof.
    destruct q as [[] xs]; unfold w_meta; cbn.
    - intros (j&vs&->&Hvs) Hr. unfold p_meta. cbn [app]. rewrite (proj2 (p_colons _ _)) by eauto.
      rewrite (segments_complete xs vs r); [done|done|done|]. cbn. rewrite app_length. lia.
    - intros Hus Hr. unfold p_meta. destruct (segments_ident _ _ Hus) as (x&us'&Hx).
      destruct (p_punct _ (us ++ r)) as [r0|] eqn:Hp; [apply p_colons in Hp as (j&Hj); rewrite Hx in Hj; done|].
      rewrite (segments_complete xs us r); [done|done|done|]. rewrite app_length. lia.
  Qed.
  Lemma metas_iff ts qs : terminated p_meta ts = Some qs <-> written w_meta qs ts.
  Proof.
    apply terminated_iff; [apply meta_sound|apply meta_complete|].
    intros [[] xs] us; unfold w_meta; cbn; [by intros (j&vs&->&_)|]. intros H. by destruct (segments_ident _ _ H) as (x&r&->).
  Qed.
  Lemma get_ident_iff q x : get_ident q = Some x <-> q = (false, [x]).
  Proof. destruct q as [[] [|y [|z l]]]; cbn; naive_solver. Qed.
  Lemma written_map {A B} (W : A -> list token -> Prop) (V : B -> list token -> Prop) (f : A -> option B) xs ts ys :
    (forall x y us, W x us -> f x = Some y -> V y us) -> written W xs ts -> mapM f xs = Some ys -> written V ys ts.
  Proof.
    intros HWV H. revert ys. induction H as [|x us Hx|x us j xs ts Hx H IH]; intros ys Hm; cbn in Hm.
    - injection Hm as <-. constructor.
    - apply bind_Some in Hm as (y&Hy&Hm). cbn in Hm. injection Hm as <-. constructor. by eapply HWV.
    - apply bind_Some in Hm as (y&Hy&Hm). apply bind_Some in Hm as (ys'&Hys&[= <-]). constructor; [by eapply HWV|by apply IH].
  Qed.
  Lemma written_weaken {A} (W V : A -> list token -> Prop) xs ts : (forall x us, W x us -> V x us) -> written W xs ts -> written V xs ts.
  Proof. intros HWV. induction 1; constructor; eauto. Qed.
  Lemma written_fmap {A B} (W : A -> list token -> Prop) (V : B -> list token -> Prop) (f : B -> A) ys ts :
    (forall y us, V y us -> W (f y) us) -> written V ys ts -> written W (f <$> ys) ts.
  Proof. intros HVW. induction 1; cbn; constructor; eauto. Qed.
  Lemma names_iff a xs : read_names a = Some xs <-> exists ts, at_args a = Some ts /\ written w_word xs ts.
  Proof.
    unfold read_names. split.
    - intros H. apply bind_Some in H as (ts&Ht&H). apply bind_Some in H as (qs&Hq%metas_iff&H). exists ts. split; [done|].
      eapply written_map; [|exact Hq|exact H]. intros q x us Hus ->%get_ident_iff. unfold w_meta in Hus. cbn in Hus. by inversion Hus as [|? ? ? ? Hn]; subst; [|inversion Hn].
    - intros (ts&->&H). cbn [mbind option_bind]. rewrite (proj2 (metas_iff ts ((fun x => (false, [x])) <$> xs))).
      + cbn. apply mapM_Some. apply Forall2_fmap_l, Forall_Forall2_diag, Forall_true. done.
      + eapply written_fmap; [|done]. intros y us ->. constructor.
  Qed.

  (** a text is one list of items at most *)
  Lemma written_one {A} (p : list token -> option (A * list token)) (W : A -> list token -> Prop) xs ys ts :
    (forall ts xs, terminated p ts = Some xs <-> written W xs ts) -> written W xs ts -> written W ys ts -> xs = ys.
  Proof. intros Hiff H1%Hiff H2%Hiff. congruence. Qed.

  (** ** [node_enum!] *)
  (** the bodies of the blocks of one kind *)
  Definition bodies (x : string) (is : list item) : list (list token) :=
    omap (fun i => match i with IMacro lead p ts => if is_ident lead p x then Some ts else None | _ => None end) is.
  Definition is_block (i : item) : Prop :=
    exists x ts, i = IMacro false [x] ts /\ (x = "bidirectional" \/ x = "group" \/ x = "link_type").
  Lemma is_ident_iff lead p x : is_ident lead p x = true <-> lead = false /\ p = [x].
  Proof. unfold is_ident. destruct lead; cbn; rewrite ?bool_decide_eq_true; naive_solver. Qed.

  Lemma bodies_same x ts is : bodies x (IMacro false [x] ts :: is) = ts :: bodies x is.
  Proof. unfold bodies. cbn [omap list_omap]. by rewrite (proj2 (is_ident_iff false [x] x)). Qed.
  Lemma bodies_other x y ts is : x <> y -> bodies x (IMacro false [y] ts :: is) = bodies x is.
  Proof.
    intros Hne. unfold bodies. cbn [omap list_omap]. destruct (is_ident false [y] x) eqn:E; [|done]. apply is_ident_iff in E as [_ [= ->]]. done.
  Qed.

  Lemma read_vars_iff vs vars : read_vars vs = (vars, false) <-> Forall2 (fun v w => v.1 = w.1 /\ v.2 = VUnnamed [w.2]) vs vars.
  Proof.
    revert vars. induction vs as [|[x f] vs IH]; intros vars; cbn.
    - split; [by intros [= <-]|]. by inversion 1.
    - destruct f as [[|t [|t2 ts]]|].
      1, 3, 4: split; [intros [=]|inversion 1 as [|? ? ? ? [_ ?]]; done].
      destruct (read_vars vs) as [l e] eqn:Hr. split.
      + intros [= <- ->]. constructor; [done|]. by apply IH.
      + inversion 1 as [|? [y u] ? l' [Hx Ht] HF]; subst. cbn in *. injection Ht as <-. apply IH in HF. injection HF as -> ->. congruence.
  Qed.

  Lemma read_blocks_err is b b' : read_blocks word is b = Some b' -> bl_err b = true -> bl_err b' = true.
  Proof.
    revert b. induction is as [|i is IH]; intros b H Hb; cbn [read_blocks] in H; [by injection H as <-|]. destruct i as [|lead p ts|]; try done.
    destruct (is_ident lead p "bidirectional"); [destruct (terminated (p_bidi word) ts); by eapply IH|].
    destruct (is_ident lead p "group"); [destruct (terminated (p_group word) ts); by eapply IH|].
    destruct (is_ident lead p "link_type"); [destruct (terminated (p_anno word) ts); by eapply IH|done].
  Qed.
  Lemma read_blocks_iff is b b' : bl_err b = false ->
    (read_blocks word is b = Some b' /\ bl_err b' = false) <->
    Forall is_block is /\ exists bss gss ass, Forall2 (written w_bidi) bss (bodies "bidirectional" is) /\
      Forall2 (written w_group) gss (bodies "group" is) /\ Forall2 (written w_anno) ass (bodies "link_type" is) /\
      b' = Blocks (bl_bidi b ++ concat bss) (bl_groups b ++ concat gss) (bl_anns b ++ concat ass) false.
  Proof.
    revert b. induction is as [|i is IH]; intros b Hb.
    - cbn. split.
      + intros [[= <-] _]. split; [done|]. exists [], [], []. cbn. rewrite !app_nil_r. destruct b. cbn in *. subst. done.
      + intros (_&bss&gss&ass&H1&H2&H3&->). inversion H1; inversion H2; inversion H3. subst. cbn. rewrite !app_nil_r. destruct b. cbn in *. subst. done.
    - destruct i as [vs|lead p ts|]; cbn [read_blocks].
      1, 3: split; [by intros [? _]|intros [Hf _]; inversion Hf as [|? ? (x&ts&?&_)]; done].
      destruct (is_ident lead p "bidirectional") eqn:E0.
      { apply is_ident_iff in E0 as [-> ->]. rewrite bodies_same, !bodies_other by done.
        destruct (terminated (p_bidi word) ts) as [ds|] eqn:Ht.
        - apply bidis_iff in Ht as Hw. rewrite (IH (Blocks _ _ _ _) Hb). cbn [bl_bidi bl_groups bl_anns]. split.
          + intros (HF&bss&gss&ass&H1&H2&H3&->). split; [constructor; [exists "bidirectional", ts; auto|done]|].
            exists (ds :: bss), gss, ass. cbn [concat]. rewrite app_assoc. split_and!; first [done|by constructor].
          + intros (HF&bss&gss&ass&H1&H2&H3&->). inversion HF; subst. split; [done|]. inversion H1 as [|ds' ? xs' ? Hd HF']; subst.
            assert (ds' = ds) as ->. { apply bidis_iff in Hd. congruence. } exists xs', gss, ass. cbn [concat]. rewrite app_assoc. done.
        - split.
          + intros [H He]. apply read_blocks_err in H; [congruence|done].
          + intros (_&bss&gss&ass&H1&H2&H3&_). inversion H1 as [|ds' ? xs' ? Hd HF']; subst. apply bidis_iff in Hd. congruence. }
      destruct (is_ident lead p "group") eqn:E1.
      { apply is_ident_iff in E1 as [-> ->]. rewrite bodies_same, !bodies_other by done.
        destruct (terminated (p_group word) ts) as [ds|] eqn:Ht.
        - apply groups_iff in Ht as Hw. rewrite (IH (Blocks _ _ _ _) Hb). cbn [bl_bidi bl_groups bl_anns]. split.
          + intros (HF&bss&gss&ass&H1&H2&H3&->). split; [constructor; [exists "group", ts; auto|done]|].
            exists bss, (ds :: gss), ass. cbn [concat]. rewrite app_assoc. split_and!; first [done|by constructor].
          + intros (HF&bss&gss&ass&H1&H2&H3&->). inversion HF; subst. split; [done|]. inversion H2 as [|ds' ? xs' ? Hd HF']; subst.
            assert (ds' = ds) as ->. { apply groups_iff in Hd. congruence. } exists bss, xs', ass. cbn [concat]. rewrite app_assoc. done.
        - split.
          + intros [H He]. apply read_blocks_err in H; [congruence|done].
          + intros (_&bss&gss&ass&H1&H2&H3&_). inversion H2 as [|ds' ? xs' ? Hd HF']; subst. apply groups_iff in Hd. congruence. }
      destruct (is_ident lead p "link_type") eqn:E2.
      { apply is_ident_iff in E2 as [-> ->]. rewrite bodies_same, !bodies_other by done.
        destruct (terminated (p_anno word) ts) as [ds|] eqn:Ht.
        - apply annos_iff in Ht as Hw. rewrite (IH (Blocks _ _ _ _) Hb). cbn [bl_bidi bl_groups bl_anns]. split.
          + intros (HF&bss&gss&ass&H1&H2&H3&->). split; [constructor; [exists "link_type", ts; auto|done]|].
            exists bss, gss, (ds :: ass). cbn [concat]. rewrite app_assoc. split_and!; first [done|by constructor].
          + intros (HF&bss&gss&ass&H1&H2&H3&->). inversion HF; subst. split; [done|]. inversion H3 as [|ds' ? xs' ? Hd HF']; subst.
            assert (ds' = ds) as ->. { apply annos_iff in Hd. congruence. } exists bss, gss, xs'. cbn [concat]. rewrite app_assoc. done.
        - split.
          + intros [H He]. apply read_blocks_err in H; [congruence|done].
          + intros (_&bss&gss&ass&H1&H2&H3&_). inversion H3 as [|ds' ? xs' ? Hd HF']; subst. apply annos_iff in Hd. congruence. }
      split; [by intros [? _]|]. intros [HF _]. inversion HF as [|? ? (x&ts'&Heq&Hx)]; subst. injection Heq as -> -> ->.
      destruct Hx as [->|[->| ->]]; done.
  Qed.

  Lemma bidi_known_iff vars bs gs : bidi_known vars bs gs = true <->
    forall d, d ∈ bs -> (b_var1 d ∈ vars \/ b_var1 d ∈ gs.*1) /\ (b_var2 d ∈ vars \/ b_var2 d ∈ gs.*1).
  Proof.
    unfold bidi_known. rewrite forallb_forall. split.
    - intros H d Hd%elem_of_list_In. apply H, andb_true_iff in Hd as [H1 H2]. apply bool_decide_eq_true in H1, H2. by rewrite !elem_of_app in H1, H2.
    - intros H d Hd%elem_of_list_In. apply H in Hd as [H1 H2]. apply andb_true_iff. split; apply bool_decide_eq_true; by apply elem_of_app.
  Qed.

  Lemma node_enum_iff struct_of is s : node_enum word struct_of is = Some s <->
    exists vs vars rest bss gss ass, is = IEnum vs :: rest /\ Forall is_block rest /\
      Forall2 (fun v w => v.1 = w.1 /\ v.2 = VUnnamed [w.2]) vs vars /\
      Forall2 (written w_bidi) bss (bodies "bidirectional" rest) /\
      Forall2 (written w_group) gss (bodies "group" rest) /\
      Forall2 (written w_anno) ass (bodies "link_type" rest) /\
      (forall d, d ∈ concat bss -> (b_var1 d ∈ vars.*1 \/ b_var1 d ∈ (concat gss).*1) /\ (b_var2 d ∈ vars.*1 \/ b_var2 d ∈ (concat gss).*1)) /\
      s = Schema (prod_map id struct_of <$> vars) (concat bss) (concat gss) (concat ass).
  Proof.
    unfold node_enum. split.
    - destruct is as [|[vs| |] rest]; try done. destruct (read_vars vs) as [vars err] eqn:Hv. intros H.
      apply bind_Some in H as (b&Hb&H). destruct (bl_err b) eqn:He; [done|]. cbn in H.
      destruct (bidi_known _ _ _) eqn:Hk; [|done]. cbn in H. injection H as <-.
      destruct err; [apply read_blocks_err in Hb; [congruence|done]|].
      destruct (proj1 (read_blocks_iff rest (Blocks [] [] [] false) b eq_refl)) as (HF&bss&gss&ass&H1&H2&H3&->); [done|]. cbn in *.
      exists vs, vars, rest, bss, gss, ass. split; [done|]. split; [done|]. split; [by apply read_vars_iff|]. split; [done|]. split; [done|]. split; [done|].
      split; [by apply bidi_known_iff|done].
    - intros (vs&vars&rest&bss&gss&ass&->&HF&Hv&H1&H2&H3&Hk&->). apply read_vars_iff in Hv. rewrite Hv.
      destruct (proj2 (read_blocks_iff rest (Blocks [] [] [] false) (Blocks (concat bss) (concat gss) (concat ass) false) eq_refl)) as [-> _].
      { split; [done|]. exists bss, gss, ass. done. }
      cbn [mbind option_bind bl_err bl_bidi bl_groups bl_anns]. rewrite (proj2 (bidi_known_iff _ _ _) Hk). done.
  Qed.

  (** ** [#[derive(TypedNode)]] *)
  (** the group attributes of a list of attributes, and their texts *)
  Definition named (x : string) (l : list attr) : list attr := filter (fun a => at_lead a = false /\ at_path a = [x]) l.
  Lemma attrs_named_eq x l : attrs_named x l = named x l.
  Proof.
    unfold attrs_named, named. apply list_filter_iff. intros a. rewrite Is_true_true. apply is_ident_iff.
  Qed.
  Definition lists (xs : list string) (a : attr) : Prop := exists ts, at_args a = Some ts /\ written w_word xs ts.
  Lemma lists_iff l xss : mapM read_names l = Some xss <-> Forall2 lists xss l.
  Proof.
    rewrite mapM_Some. split; intros H; (eapply Forall2_flip, Forall2_impl; [exact H|]); cbn; intros; by apply names_iff.
  Qed.
  Definition field_reads (f : rfield) (d : fdecl) : Prop :=
    f_name d = rf_name f /\ f_ty d = field_ty (rf_ty f) /\ Forall2 lists (f_attrs d) (named "group" (rf_attrs f)) /\
    (f_attrs d <> [] -> exists k, field_ty (rf_ty f) = FLink k).
  Lemma read_field_iff f d : read_field f = Some d <-> field_reads f d.
  Proof.
    unfold read_field, field_reads. rewrite attrs_named_eq. split.
    - intros H. apply bind_Some in H as (gs&Hgs%lists_iff&H).
      destruct (field_ty (rf_ty f)) as [k| |] eqn:Ht; [injection H as <-; cbn; eauto|..]; (destruct gs; [|done]; injection H as <-; done).
    - destruct d as [x t gs]. cbn. intros (->&->&Hgs&Hl). apply lists_iff in Hgs as Hgs'. rewrite Hgs'. cbn.
      destruct (field_ty (rf_ty f)) as [k| |] eqn:Ht; [done|..]; (destruct gs; [done|]; by destruct Hl).
  Qed.
  Lemma typed_node_iff r sd : typed_node r = Some sd <->
    exists fs pss, rs_fields r = Some fs /\ Forall2 field_reads fs (sd_fields sd) /\ Forall2 lists pss (named "phantom_group" (rs_attrs r)) /\ sd_phantom sd = concat pss.
  Proof.
    unfold typed_node. rewrite attrs_named_eq. split.
    - intros H. apply bind_Some in H as (fs&Hfs&H). apply bind_Some in H as (ds&Hds%mapM_Some&H). apply bind_Some in H as (pss&Hp%lists_iff&[= <-]).
      exists fs, pss. split; [done|]. split; [|done]. cbn. eapply Forall2_impl; [done|]. intros. by apply read_field_iff.
    - intros (fs&pss&->&Hf&Hp&Hs). cbn. rewrite (proj2 (mapM_Some read_field fs (sd_fields sd))).
      + cbn. apply lists_iff in Hp. rewrite Hp. cbn. destruct sd. cbn in *. by subst.
      + eapply Forall2_impl; [done|]. intros. by apply read_field_iff.
  Qed.
End facts.
