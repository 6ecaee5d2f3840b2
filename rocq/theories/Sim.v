(** * The order of iteration over hash sets, and the build, do not matter

    Two environments that differ in these only give the same results, for schemas without
    bidirectional declarations.  Proof: the two runs stay in a simulation; loops over the same
    items in another order are equal because their bodies commute. *)
From Verif Require Export OrderHist.

(** ** Simulation of stateful computations; panics are related to panics *)
Section sim.
  Context {S : Type} (R : S -> S -> Prop).
  Definition outsim {A B} (RA : A -> B -> Prop) (o : out S A) (o' : out S B) : Prop :=
    match o, o' with
    | Done s a, Done s' b => R s s' /\ RA a b
    | Panicked _ _, Panicked _ _ => True
    | _, _ => False
    end.
  Definition msim {A B} (RA : A -> B -> Prop) (m : M S A) (m' : M S B) : Prop :=
    forall s s', R s s' -> outsim RA (m s) (m' s').

  Lemma msim_ret {A B} (RA : A -> B -> Prop) a b : RA a b -> msim RA (retM a) (retM b).
  Proof. by intros H s s' Hs. Qed.
  Lemma msim_panic {A B} (RA : A -> B -> Prop) p q : msim RA (panicM p) (panicM q).
  Proof. by intros s s' Hs. Qed.
  Lemma msim_bind {A B A' B'} (RA : A -> B -> Prop) (RB : A' -> B' -> Prop) m m' k k' :
    msim RA m m' -> (forall a b, RA a b -> msim RB (k a) (k' b)) -> msim RB (bindM m k) (bindM m' k').
  Proof.
    intros Hm Hk s s' Hs. specialize (Hm s s' Hs). unfold bindM.
    destruct (m s), (m' s'); cbn in Hm; try done. destruct Hm as [? ?]. by apply Hk.
  Qed.
  Lemma msim_lift {A} (r : res A) : msim eq (liftM r) (liftM r).
  Proof. destruct r; [by apply msim_ret|apply msim_panic]. Qed.
  Lemma msim_unwrap {A} p (o : option A) : msim eq (unwrapM p o) (unwrapM p o).
  Proof. destruct o; [by apply msim_ret|apply msim_panic]. Qed.
  Lemma msim_mfor {A} (l : list A) (f f' : A -> M S unit) :
    (forall a, a ∈ l -> msim eq (f a) (f' a)) -> msim eq (mfor l f) (mfor l f').
  Proof.
    induction l as [|a l IH]; intros H; cbn [mfor]; [by apply msim_ret|].
    eapply msim_bind; [apply H; left|]. intros _ _ _. apply IH. intros b Hb. apply H. by right.
  Qed.

  Context (Rrefl : forall s s', R s s' -> R s s) (Rtrans : forall s s' s'', R s s' -> R s' s'' -> R s s'').
  Lemma msim_trans {A B C} (RA : A -> B -> Prop) (RB : B -> C -> Prop) (RC : A -> C -> Prop) m m' m'' :
    (forall a b c, RA a b -> RB b c -> RC a c) -> msim RA m m' -> msim RB m' m'' -> msim RC m m''.
  Proof using Rrefl Rtrans.
    intros Htr H1 H2 s s'' Hs. specialize (H1 s s (Rrefl _ _ Hs)). specialize (H2 s s'' Hs).
    destruct (m s), (m' s), (m'' s''); cbn in *; try done. destruct H1, H2. split; eauto.
  Qed.
  Lemma msim_trans_eq {A} (m m' m'' : M S A) : msim eq m m' -> msim eq m' m'' -> msim eq m m''.
  Proof using Rrefl Rtrans. apply msim_trans. by intros ??? -> ->. Qed.

  Lemma msim_mfor_perm_same {A} (l l' : list A) (f : A -> M S unit) :
    l ≡ₚ l' -> (forall a, a ∈ l -> msim eq (f a) (f a)) ->
    (forall a b, a ∈ l -> b ∈ l -> msim eq (run! f a; f b) (run! f b; f a)) ->
    msim eq (mfor l f) (mfor l' f).
  Proof using Rrefl Rtrans.
    intros HP. induction HP as [|a l l' HP IH|a b l|l1 l2 l3 HP1 IH1 HP2 IH2]; intros Hs Hc; cbn [mfor].
    - by apply msim_ret.
    - eapply msim_bind; [apply Hs; left|]. intros _ _ _. apply IH; [intros x Hx; apply Hs; by right|].
      intros x y Hx Hy. apply Hc; by right.
    - intros s s' HR. pose proof (Hc b a ltac:(left) ltac:(right; left) s s' HR) as H. unfold bindM in *.
      assert (forall u u', R u u' -> outsim eq (mfor l f u) (mfor l f u')) as Hl.
      { apply msim_mfor. intros x Hx. apply Hs. right. by right. }
      destruct (f b s) as [s1 []|p s1], (f a s') as [s1' []|p' s1']; try done.
      + destruct (f a s1) as [s2 []|p s2], (f b s1') as [s2' []|p' s2']; cbn in H; try done. apply Hl. by destruct H.
      + by destruct (f a s1).
      + by destruct (f b s1').
    - assert (forall x, x ∈ l2 -> x ∈ l1) as Hin by (intros x; by rewrite HP1).
      eapply msim_trans_eq; [by apply IH1|]. apply IH2; auto.
  Qed.
  Lemma msim_mfor_perm {A} (l l' : list A) (f f' : A -> M S unit) :
    l ≡ₚ l' -> (forall a, a ∈ l -> msim eq (f a) (f a)) -> (forall a, a ∈ l -> msim eq (f a) (f' a)) ->
    (forall a b, a ∈ l -> b ∈ l -> msim eq (run! f a; f b) (run! f b; f a)) ->
    msim eq (mfor l f) (mfor l' f').
  Proof using Rrefl Rtrans.
    intros HP Hs Hs' Hc. eapply msim_trans_eq; [by apply msim_mfor_perm_same|]. apply msim_mfor. intros a Ha. apply Hs'. by rewrite HP.
  Qed.
End sim.

(** ** Sets, reverse links and change records up to order *)
Definition ssim {A} (b b' : list A) : Prop := NoDup b /\ NoDup b' /\ forall e, e ∈ b <-> e ∈ b'.
Lemma ssim_perm {A} (b b' : list A) : ssim b b' -> b ≡ₚ b'.
Proof. intros (?&?&?). by apply NoDup_Permutation. Qed.
Lemma ssim_refl {A} (b b' : list A) : ssim b b' -> ssim b b.
Proof. by intros (?&?&?). Qed.
Lemma ssim_trans {A} (b b' b'' : list A) : ssim b b' -> ssim b' b'' -> ssim b b''.
Proof. intros (?&?&H1) (?&?&H2). split; [done|]. split; [done|]. intros e. by rewrite H1, H2. Qed.
Lemma ssim_insert {A} `{EqDecision A} (e : A) b b' : ssim b b' -> ssim (oset_insert e b) (oset_insert e b').
Proof.
  intros (?&?&H). split; [by apply oset_insert_NoDup|]. split; [by apply oset_insert_NoDup|].
  intros x. by rewrite !oset_insert_elem, H.
Qed.
Lemma ssim_del {A} `{EqDecision A} (e : A) b b' : ssim b b' -> ssim (oset_del e b) (oset_del e b').
Proof.
  intros (?&?&H). split; [by apply oset_del_NoDup|]. split; [by apply oset_del_NoDup|].
  intros x. by rewrite !oset_del_elem, H.
Qed.
Lemma ssim_insert2 {A} `{EqDecision A} (e e' : A) b b' : ssim b b' -> ssim (oset_insert e (oset_insert e' b)) (oset_insert e' (oset_insert e b')).
Proof.
  intros (?&?&H). split; [by apply oset_insert_NoDup, oset_insert_NoDup|]. split; [by apply oset_insert_NoDup, oset_insert_NoDup|].
  intros x. rewrite !oset_insert_elem, H. naive_solver.
Qed.
Lemma ssim_del2 {A} `{EqDecision A} (e e' : A) b b' : ssim b b' -> ssim (oset_del e (oset_del e' b)) (oset_del e' (oset_del e b')).
Proof.
  intros (?&?&H). split; [by apply oset_del_NoDup, oset_del_NoDup|]. split; [by apply oset_del_NoDup, oset_del_NoDup|].
  intros x. rewrite !oset_del_elem by (try done; by apply oset_del_NoDup). rewrite H. naive_solver.
Qed.

Definition bmap : Type := list (idx * list (idx * source)).
Definition bsim (B B' : bmap) : Prop :=
  NoDup B.*1 /\ NoDup B'.*1 /\ forall y, option_Forall2 ssim (omap_get y B) (omap_get y B').
Lemma bsim_refl B B' : bsim B B' -> bsim B B.
Proof. intros (?&?&H). split; [done|]. split; [done|]. intros y. destruct (H y); constructor. by eapply ssim_refl. Qed.
Lemma bsim_trans B B' B'' : bsim B B' -> bsim B' B'' -> bsim B B''.
Proof.
  intros (?&?&H) (?&?&H'). split; [done|]. split; [done|]. intros y. specialize (H y). specialize (H' y).
  destruct H as [b b' Hb|]; inversion H'; subst; constructor. by eapply ssim_trans.
Qed.
Lemma bsim_insert y b b' B B' : bsim B B' -> ssim b b' -> bsim (omap_insert y b B) (omap_insert y b' B').
Proof.
  intros (?&?&H) Hb. split; [by apply omap_insert_NoDup|]. split; [by apply omap_insert_NoDup|]. intros z.
  rewrite !omap_get_insert. case_decide; [by constructor|apply H].
Qed.
Lemma bsim_entry y B B' : bsim B B' -> bsim (omap_entry y [] B) (omap_entry y [] B').
Proof.
  intros (?&?&H). split; [by apply omap_entry_NoDup|]. split; [by apply omap_entry_NoDup|]. intros z.
  rewrite !omap_get_entry. case_decide; [|apply H]. constructor. destruct (H y) as [b b' Hb|]; [done|].
  split; [constructor|]. split; [constructor|done].
Qed.
Lemma bsim_del y B B' : bsim B B' -> bsim (omap_del y B) (omap_del y B').
Proof.
  intros (?&?&H). split; [by apply omap_del_NoDup|]. split; [by apply omap_del_NoDup|]. intros z.
  rewrite !omap_get_del by done. case_decide; [constructor|apply H].
Qed.

Definition lsim (r r' : lcr) : Prop := ssim (lc_adds r) (lc_adds r') /\ ssim (lc_rems r) (lc_rems r').
Lemma lcr_add_nd x y l r : NoDup (lc_adds r) -> NoDup (lc_rems r) -> NoDup (lc_adds (lcr_add x y l r)) /\ NoDup (lc_rems (lcr_add x y l r)).
Proof. intros. unfold lcr_add. repeat case_match; cbn; auto using oset_insert_NoDup, oset_del_NoDup. Qed.
Lemma lcr_rem_nd x y l r : NoDup (lc_adds r) -> NoDup (lc_rems r) -> NoDup (lc_adds (lcr_rem x y l r)) /\ NoDup (lc_rems (lcr_rem x y l r)).
Proof. intros. unfold lcr_rem. repeat case_match; cbn; auto using oset_insert_NoDup, oset_del_NoDup. Qed.
Lemma lcr_add_adds x y l r e : e ∈ lc_adds (lcr_add x y l r) <-> e ∈ lc_adds r \/ (e = (x, y, l) /\ y <> 0%N /\ e ∉ lc_rems r).
Proof.
  unfold lcr_add. destruct (N.eqb_spec y 0); [naive_solver|]. case_decide; cbn; [|rewrite oset_insert_elem]; naive_solver.
Qed.
Lemma lcr_add_rems x y l r e : NoDup (lc_rems r) -> e ∈ lc_rems (lcr_add x y l r) <-> e ∈ lc_rems r /\ ~ (e = (x, y, l) /\ y <> 0%N).
Proof.
  intros Hn. unfold lcr_add. destruct (N.eqb_spec y 0); [naive_solver|]. case_decide; cbn; [rewrite oset_del_elem by done|]; naive_solver.
Qed.
Lemma lcr_rem_rems x y l r e : e ∈ lc_rems (lcr_rem x y l r) <-> e ∈ lc_rems r \/ (e = (x, y, l) /\ y <> 0%N /\ e ∉ lc_adds r).
Proof.
  unfold lcr_rem. destruct (N.eqb_spec y 0); [naive_solver|]. case_decide; cbn; [|rewrite oset_insert_elem]; naive_solver.
Qed.
Lemma lcr_rem_adds x y l r e : NoDup (lc_adds r) -> e ∈ lc_adds (lcr_rem x y l r) <-> e ∈ lc_adds r /\ ~ (e = (x, y, l) /\ y <> 0%N).
Proof.
  intros Hn. unfold lcr_rem. destruct (N.eqb_spec y 0); [naive_solver|]. case_decide; cbn; [rewrite oset_del_elem by done|]; naive_solver.
Qed.
(** an entry of the change record: added, removed or neither *)
Inductive lop := LAdd (x y : idx) (l : link) | LRem (x y : idx) (l : link).
Definition lop_run (o : lop) : lcr -> lcr := match o with LAdd x y l => lcr_add x y l | LRem x y l => lcr_rem x y l end.
Definition lop_key (o : lop) : idx * idx * link := match o with LAdd x y l | LRem x y l => (x, y, l) end.
Definition lops_run (os : list lop) (r : lcr) : lcr := fold_left (fun r o => lop_run o r) os r.
Lemma lsim_nd r r' : lsim r r' -> NoDup (lc_adds r) /\ NoDup (lc_rems r) /\ NoDup (lc_adds r') /\ NoDup (lc_rems r').
Proof. by intros [(?&?&?) (?&?&?)]. Qed.
Lemma lsim_intro r r' : NoDup (lc_adds r) /\ NoDup (lc_rems r) -> NoDup (lc_adds r') /\ NoDup (lc_rems r') ->
  (forall e, e ∈ lc_adds r <-> e ∈ lc_adds r') -> (forall e, e ∈ lc_rems r <-> e ∈ lc_rems r') -> lsim r r'.
Proof. intros [? ?] [? ?] ? ?. done. Qed.
Lemma lop_nd o r : NoDup (lc_adds r) /\ NoDup (lc_rems r) -> NoDup (lc_adds (lop_run o r)) /\ NoDup (lc_rems (lop_run o r)).
Proof. intros [? ?]. destruct o; cbn; [by apply lcr_add_nd|by apply lcr_rem_nd]. Qed.
Lemma lop_sim o r r' : lsim r r' -> lsim (lop_run o r) (lop_run o r').
Proof.
  intros Hr. destruct (lsim_nd _ _ Hr) as (?&?&?&?). destruct Hr as [(_&_&Ha) (_&_&Hb)].
  apply lsim_intro; [by apply lop_nd|by apply lop_nd|..]; intros e; destruct o; cbn;
    rewrite ?lcr_add_adds, ?lcr_add_rems, ?lcr_rem_adds, ?lcr_rem_rems by done; by rewrite ?Ha, ?Hb.
Qed.
Lemma lop_comm o o' r r' : lsim r r' -> lop_key o <> lop_key o' \/ o = o' -> lsim (lop_run o' (lop_run o r)) (lop_run o (lop_run o' r')).
Proof.
  intros Hr [Hk| ->]; [|by apply lop_sim, lop_sim].
  destruct (lsim_nd _ _ Hr) as (?&?&?&?). destruct Hr as [(_&_&Ha) (_&_&Hb)].
  pose proof (lop_nd o r ltac:(done)) as [? ?]. pose proof (lop_nd o' r' ltac:(done)) as [? ?].
  apply lsim_intro; [by apply lop_nd|by apply lop_nd|..]; intros e; destruct o as [x y l|x y l], o' as [x' y' l'|x' y' l']; cbn in *;
    rewrite ?lcr_add_adds, ?lcr_add_rems, ?lcr_rem_adds, ?lcr_rem_rems by done;
    rewrite ?lcr_add_adds, ?lcr_add_rems, ?lcr_rem_adds, ?lcr_rem_rems by done; rewrite ?Ha, ?Hb;
    clear -Hk; naive_solver.
Qed.

Lemma lops_sim L r r' : lsim r r' -> lsim (lops_run L r) (lops_run L r').
Proof. revert r r'. induction L as [|o L IH]; intros r r' Hr; [done|]. apply IH. by apply lop_sim. Qed.
Lemma lsim_refl r r' : lsim r r' -> lsim r r.
Proof. intros [H1 H2]. split; by eapply ssim_refl. Qed.
Lemma lsim_refl_r r r' : lsim r r' -> lsim r' r'.
Proof. intros [(?&?&?) (?&?&?)]. done. Qed.
Lemma lsim_trans r r' r'' : lsim r r' -> lsim r' r'' -> lsim r r''.
Proof. intros [H1 H2] [H3 H4]. split; by eapply ssim_trans. Qed.
Definition lop_indep (o o' : lop) : Prop := lop_key o <> lop_key o' \/ o = o'.
Lemma lops_comm1 o L r r' : lsim r r' -> (forall o', o' ∈ L -> lop_indep o o') ->
  lsim (lops_run L (lop_run o r)) (lop_run o (lops_run L r')).
Proof.
  revert r r'. induction L as [|o' L IH]; intros r r' Hr Hi; cbn; [by apply lop_sim|].
  eapply lsim_trans; [apply lops_sim, (lop_comm o o' r r' Hr), Hi; left|].
  apply IH; [|intros ? ?; apply Hi; by right]. apply lop_sim. by eapply lsim_refl_r.
Qed.
Lemma lops_comm L L' r r' : lsim r r' -> (forall o o', o ∈ L -> o' ∈ L' -> lop_indep o o') ->
  lsim (lops_run L' (lops_run L r)) (lops_run L (lops_run L' r')).
Proof.
  revert r r'. induction L as [|o L IH]; intros r r' Hr Hi; cbn; [by apply lops_sim|].
  eapply lsim_trans; [apply (IH (lop_run o r) (lop_run o r')); [by apply lop_sim|intros ? ? ? ?; apply Hi; [by right|done]]|].
  apply lops_sim. apply lops_comm1; [by eapply lsim_refl_r|]. intros o' Ho'. apply Hi; [left|done].
Qed.

(** ** Reverse links *)
Definition bupd (y : idx) (F : list (idx * source) -> list (idx * source)) (B : bmap) : option bmap :=
  match omap_get y B with None => None | Some b => Some (omap_insert y (F b) B) end.
Definition bent (y : idx) (e : idx * source) (B : bmap) : option bmap := bupd y (oset_insert e) (omap_entry y [] B).
Lemma bsim_get y B B' : bsim B B' -> option_Forall2 ssim (omap_get y B) (omap_get y B').
Proof. intros (_&_&H). apply H. Qed.
Definition fresp (F : list (idx * source) -> list (idx * source)) : Prop := forall b b', ssim b b' -> ssim (F b) (F b').
Definition fcomm (F F' : list (idx * source) -> list (idx * source)) : Prop := forall b b', ssim b b' -> ssim (F' (F b)) (F (F' b')).
Lemma bupd_sim y F B B' : fresp F -> bsim B B' -> option_Forall2 bsim (bupd y F B) (bupd y F B').
Proof.
  intros HF HB. unfold bupd. destruct (bsim_get y B B' HB); constructor. apply bsim_insert; [done|by apply HF].
Qed.
Lemma bupd_get y F B B1 z : bupd y F B = Some B1 ->
  exists b, omap_get y B = Some b /\ omap_get z B1 = (if decide (z = y) then Some (F b) else omap_get z B) /\ (NoDup B.*1 -> NoDup B1.*1).
Proof.
  unfold bupd. destruct (omap_get y B) as [b|] eqn:Hb; [|done]. intros [= <-]. exists b. split; [done|].
  split; [apply omap_get_insert|apply omap_insert_NoDup].
Qed.
Lemma bupd_none y F B : bupd y F B = None <-> omap_get y B = None.
Proof. unfold bupd. by destruct (omap_get y B). Qed.
Lemma bupd_comm y y' F F' B B' : fresp F -> fresp F' -> fcomm F F' -> bsim B B' ->
  option_Forall2 bsim (bupd y F B ≫= bupd y' F') (bupd y' F' B' ≫= bupd y F).
Proof.
  intros HF HF' Hc HB. pose proof (bsim_get y B B' HB) as Hy. pose proof (bsim_get y' B B' HB) as Hy'.
  destruct (bupd y F B) as [B1|] eqn:H1.
  - assert (is_Some (bupd y' F' B1) <-> is_Some (omap_get y' B)) as Hs.
    { destruct (bupd_get _ _ _ _ y' H1) as (b&Hb&Hg&_). unfold bupd. rewrite Hg. case_decide; subst; [by rewrite Hb|].
      destruct (omap_get y' B); split; intros []; eauto; done. }
    assert (is_Some (bupd y' F' B' ≫= bupd y F) <-> is_Some (omap_get y' B)) as Hs'.
    { destruct (bupd y' F' B') as [B1'|] eqn:H1'; cbn.
      - destruct (bupd_get _ _ _ _ y H1') as (b'&Hb'&Hg'&_). destruct (bupd_get _ _ _ _ y H1) as (b&Hb&_).
        rewrite Hb in Hy. rewrite Hb' in Hy'. destruct (omap_get y' B); [|inversion Hy'].
        destruct (omap_get y B') eqn:HyB'; [|inversion Hy].
        split; [eauto|]. intros _. unfold bupd. rewrite Hg'. case_decide; eauto.
      - apply bupd_none in H1'. rewrite H1' in Hy'. destruct (omap_get y' B); [inversion Hy'|]. split; intros []; done. }
    cbn. destruct (bupd y' F' B1) as [B2|] eqn:H2.
    + destruct (proj2 Hs' (proj1 Hs (mk_is_Some _ _ eq_refl))) as [B2' HB2']. rewrite HB2'. constructor.
      destruct (bupd y' F' B') as [B1'|] eqn:H1'; [|done]. cbn in HB2'.
      destruct (bupd_get _ _ _ _ y H1) as (_&_&_&Hn1). destruct (bupd_get _ _ _ _ y H2) as (_&_&_&Hn2).
      destruct (bupd_get _ _ _ _ y H1') as (_&_&_&Hn1'). destruct (bupd_get _ _ _ _ y HB2') as (_&_&_&Hn2').
      pose proof HB as (Hd&Hd'&HBz). split; [by auto|]. split; [by auto|]. intros z.
      destruct (bupd_get _ _ _ _ z H2) as (b2&Hb2&->&_). destruct (bupd_get _ _ _ _ z H1) as (b1&Hb1&Hz1&_).
      destruct (bupd_get _ _ _ _ z HB2') as (b2'&Hb2'&->&_). destruct (bupd_get _ _ _ _ z H1') as (b1'&Hb1'&Hz1'&_).
      destruct (bupd_get _ _ _ _ y' H1) as (c1&Hc1&Hz2&_). destruct (bupd_get _ _ _ _ y H1') as (c1'&Hc1'&Hz2'&_).
      rewrite Hz1, Hz1'. rewrite Hz2 in Hb2. rewrite Hz2' in Hb2'.
      assert (c1 = b1) as -> by congruence. assert (c1' = b1') as -> by congruence.
      destruct (decide (y = y')) as [<-|Hne].
      * rewrite decide_True in Hb2 by done. injection Hb2 as <-. rewrite ?decide_True in Hb2' by done. injection Hb2' as <-.
        destruct (decide (z = y)); [|apply HBz]. constructor. apply Hc. rewrite Hb1, Hb1' in Hy. by inversion Hy.
      * rewrite decide_False in Hb2 by done. rewrite ?decide_False in Hb2' by done.
        rewrite Hb1, Hb2' in Hy. rewrite Hb2, Hb1' in Hy'.
        destruct (decide (z = y')) as [->|]; [rewrite decide_False by done; constructor; inversion Hy'; by apply HF'|].
        destruct (decide (z = y)) as [->|]; [|apply HBz]. constructor. apply HF. by inversion Hy.
    + destruct (bupd y' F' B' ≫= bupd y F) as [B2'|]; [|constructor]. destruct (proj2 Hs (proj1 Hs' (mk_is_Some _ _ eq_refl))). done.
  - apply bupd_none in H1. rewrite H1 in Hy. destruct (omap_get y B') eqn:HyB'; [inversion Hy|]. cbn.
    destruct (bupd y' F' B') as [B1'|] eqn:H1'; cbn; [|constructor].
    destruct (bupd_get _ _ _ _ y H1') as (b'&Hb'&Hg'&_). unfold bupd. rewrite Hg'. case_decide as Hd; [subst; congruence|]. rewrite HyB'. constructor.
Qed.
Lemma bent_get y e B : exists B1, bent y e B = Some B1 /\ (NoDup B.*1 -> NoDup B1.*1) /\
  forall z, omap_get z B1 = if decide (z = y) then Some (oset_insert e (default [] (omap_get y B))) else omap_get z B.
Proof.
  unfold bent, bupd. rewrite omap_get_entry, decide_True by done. eexists. split; [done|]. split; [intros; by apply omap_insert_NoDup, omap_entry_NoDup|].
  intros z. rewrite omap_get_insert. case_decide; [done|]. rewrite omap_get_entry. by rewrite decide_False by done.
Qed.
Lemma ssim_default y B B' : bsim B B' -> ssim (default [] (omap_get y B)) (default [] (omap_get y B')).
Proof. intros HB. destruct (bsim_get y B B' HB); [done|]. split; [constructor|]. split; [constructor|done]. Qed.
Lemma bent_sim y e B B' : bsim B B' -> option_Forall2 bsim (bent y e B) (bent y e B').
Proof.
  intros HB. destruct (bent_get y e B) as (B1&->&Hn&Hg). destruct (bent_get y e B') as (B1'&->&Hn'&Hg'). constructor.
  pose proof HB as (?&?&H). split; [by auto|]. split; [by auto|]. intros z. rewrite Hg, Hg'. case_decide; [|apply H].
  constructor. apply ssim_insert. by apply ssim_default.
Qed.
Lemma bent_comm y e y' e' B B' : bsim B B' -> option_Forall2 bsim (bent y e B ≫= bent y' e') (bent y' e' B' ≫= bent y e).
Proof.
  intros HB. destruct (bent_get y e B) as (B1&->&Hn&Hg). destruct (bent_get y' e' B') as (B1'&->&Hn'&Hg'). cbn.
  destruct (bent_get y' e' B1) as (B2&->&Hn2&Hg2). destruct (bent_get y e B1') as (B2'&->&Hn2'&Hg2'). constructor.
  pose proof HB as (?&?&H). split; [by auto|]. split; [by auto|]. intros z. rewrite Hg2, Hg2', !Hg, !Hg'.
  destruct (decide (y = y')) as [<-|Hne].
  - rewrite !(decide_True (P := y = y)) by done. destruct (decide (z = y)); [|apply H]. constructor. cbn. apply ssim_insert2. by apply ssim_default.
  - rewrite ?(decide_False (P := y' = y)), ?(decide_False (P := y = y')) by done.
    destruct (decide (z = y')) as [->|]; [rewrite decide_False by done; constructor; by apply ssim_insert, ssim_default|].
    destruct (decide (z = y)); [|apply H]. constructor. by apply ssim_insert, ssim_default.
Qed.
Lemma fresp_insert e : fresp (oset_insert e).
Proof. intros b b'. apply ssim_insert. Qed.
Lemma fresp_del e : fresp (oset_del e).
Proof. intros b b'. apply ssim_del. Qed.
Lemma fcomm_insert e e' : fcomm (oset_insert e) (oset_insert e').
Proof. intros b b'. apply ssim_insert2. Qed.
Lemma fcomm_del e e' : fcomm (oset_del e) (oset_del e').
Proof. intros b b'. apply ssim_del2. Qed.

(** ** Nodes *)
Lemma omap_insert_insert {K V} `{EqDecision K} (m : list (K * V)) k v v' : omap_insert k v' (omap_insert k v m) = omap_insert k v' m.
Proof.
  induction m as [|[k' w] m IH]; cbn; [by rewrite decide_True by done|]. case_decide as Hk; cbn; [by rewrite decide_True by done|].
  rewrite decide_False by done. by rewrite IH.
Qed.
Lemma omap_insert_comm {K V} `{EqDecision K} (m : list (K * V)) k v k' v' : k <> k' -> k ∈ m.*1 -> k' ∈ m.*1 ->
  omap_insert k' v' (omap_insert k v m) = omap_insert k v (omap_insert k' v' m).
Proof.
  intros Hne. induction m as [|[j w] m IH]; cbn; [by inversion 1|]. intros Hk Hk'.
  destruct (decide (k = j)) as [->|H1], (decide (k' = j)) as [->|H2]; cbn; try done.
  - rewrite decide_False, decide_True by done. done.
  - rewrite decide_True, decide_False by done. done.
  - rewrite !decide_False by done. f_equal. apply IH; set_solver.
Qed.
Section nodes.
  Context {D : Type}.
  Implicit Types (a : arena D) (n : node D) (g : graph D).
  (** one field *)
  Definition fmod (p : option nat) (o w : idx) (lv : linkval) : option (linkval * (bool * bool)) :=
    match lv, p with
    | LDirect i, None => Some (LDirect w, (negb (i =? w)%N && negb (i =? 0)%N, negb (i =? w)%N && negb (w =? 0)%N))
    | LSet k l, None =>
      if (w =? 0)%N then Some (LSet k (set_remove k o l), (bool_decide (o ∈ l), false))
      else Some (LSet k (set_insert k w (set_remove k o l)), (bool_decide (o ∈ l), negb (bool_decide (w ∈ set_remove k o l))))
    | LVec l, Some p =>
      match l !! p with
      | None => None
      | Some i => Some (LVec (<[p := w]> l), (negb (i =? w)%N && negb (i =? 0)%N, negb (i =? w)%N && negb (w =? 0)%N))
      end
    | _, _ => None
    end.
  Definition mmod n (s : source) (o w : idx) : option (node D * (bool * bool)) :=
    if decide (nvar n = s_var s) then
      match nlinks n !! s_fld s ≫= fmod (s_pos s) o w with
      | Some (lv, fl) => Some (set_field n (s_fld s) lv, fl)
      | None => None
      end
    else None.
  Lemma modify_mmod n s o w : mmod n s o w = match modify_link n s o w with Ok x => Some x | Err _ => None end.
  Proof.
    unfold mmod, modify_link. case_decide; [|done]. destruct (nlinks n !! s_fld s) as [[i|k l|l]|]; cbn; destruct (s_pos s) as [p|]; try done.
    - by destruct (w =? 0)%N.
    - by destruct (l !! p).
  Qed.
  Lemma fmod_indep p p' o w lv lv1 fl : p <> p' -> fmod p o w lv = Some (lv1, fl) ->
    match fmod p' o w lv with
    | Some (lv2, fl') => exists lv3, fmod p' o w lv1 = Some (lv3, fl') /\ fmod p o w lv2 = Some (lv3, fl)
    | None => fmod p' o w lv1 = None
    end.
  Proof.
    intros Hp. destruct lv as [i|k l|l], p as [p|]; try done; destruct p' as [p'|]; try done; cbn.
    - by intros [= <- _].
    - destruct (w =? 0)%N; by intros [= <- _].
    - destruct (l !! p) as [i|] eqn:Hi; [|done]. intros [= <- <-]. assert (p <> p') as Hpp by congruence. cbn.
      rewrite list_lookup_insert_ne by done. destruct (l !! p') as [i'|]; [|done]. eexists. split; [done|]. cbn.
      rewrite list_lookup_insert_ne, Hi by done. by rewrite list_insert_commute by done.
    - destruct (l !! p) as [i|] eqn:Hi; [|done]. by intros [= <- _].
  Qed.
  Lemma mmod_indep n s s' o w n1 fl : s <> s' -> mmod n s o w = Some (n1, fl) ->
    match mmod n s' o w with
    | Some (n2, fl') => exists n3, mmod n1 s' o w = Some (n3, fl') /\ mmod n2 s o w = Some (n3, fl)
    | None => mmod n1 s' o w = None
    end.
  Proof.
    intros Hne. unfold mmod. destruct (decide (nvar n = s_var s)) as [Hv|]; [|done].
    destruct (nlinks n !! s_fld s) as [lv|] eqn:Hlv; [|done]. cbn. destruct (fmod (s_pos s) o w lv) as [[lv1 fl1]|] eqn:Hf; [|done].
    intros [= <- <-]. cbn [set_field nvar nlinks ndata]. destruct (decide (nvar n = s_var s')) as [Hv'|]; [|done].
    assert (s_fld s < length (nlinks n)) as Hlt by (by eapply lookup_lt_Some).
    destruct (decide (s_fld s = s_fld s')) as [Hfl|Hfl].
    - rewrite <- Hfl, Hlv, list_lookup_insert by done. cbn.
      assert (s_pos s <> s_pos s') as Hp by (destruct s, s'; cbn in *; congruence).
      pose proof (fmod_indep _ _ _ _ _ _ _ Hp Hf) as Hi. destruct (fmod (s_pos s') o w lv) as [[lv2 fl2]|]; [|by rewrite Hi].
      destruct Hi as (lv3&->&H3). eexists. split; [done|]. cbn. rewrite decide_True by done.
      rewrite list_lookup_insert by done. cbn. rewrite H3. cbn. unfold set_field. cbn. by rewrite !list_insert_insert.
    - rewrite list_lookup_insert_ne by done. destruct (nlinks n !! s_fld s') as [lv'|]; [|done]. cbn.
      destruct (fmod (s_pos s') o w lv') as [[lv2 fl2]|]; [|done]. eexists. split; [done|]. cbn. rewrite decide_True by done.
      rewrite list_lookup_insert_ne, Hlv by done. cbn. rewrite Hf. unfold set_field. cbn. by rewrite list_insert_commute by done.
  Qed.

  Lemma arena_set_set a y n n' : arena_set (arena_set a y n) y n' = arena_set a y n'.
  Proof.
    unfold arena_set at 1. rewrite arena_set_dispatch. unfold arena_set. destruct (arena_dispatch a y) as [d|]; [|done].
    unfold set_cont, cont. cbn. rewrite list_insert_insert. f_equal.
    destruct (decide (d < length (a_cont a))) as [Hd|Hd]; [|by rewrite !list_insert_ge by lia].
    rewrite list_lookup_insert by done. cbn. by rewrite omap_insert_insert.
  Qed.
  Lemma arena_set_comm a y y' n n' : y <> y' -> is_Some (arena_get a y) -> is_Some (arena_get a y') ->
    arena_set (arena_set a y n) y' n' = arena_set (arena_set a y' n') y n.
  Proof.
    intros Hne [m Hm] [m' Hm']. unfold arena_set at 1 3. rewrite !arena_set_dispatch. unfold arena_set, arena_get in *.
    destruct (arena_dispatch a y) as [d|]; [|done]. destruct (arena_dispatch a y') as [d'|]; [|done].
    unfold set_cont, cont in *. cbn. f_equal. destruct (decide (d = d')) as [<-|Hd].
    - rewrite !list_insert_insert. destruct (a_cont a !! d) as [c|] eqn:Hc; [|done]. cbn in *.
      assert (d < length (a_cont a)) as Hlt by (by eapply lookup_lt_Some). rewrite !list_lookup_insert by done. cbn.
      f_equal. apply omap_insert_comm; [done|by eapply omap_get_Some_key|by eapply omap_get_Some_key].
    - rewrite !list_lookup_insert_ne by done. by rewrite list_insert_commute by done.
  Qed.

  (** changing one link *)
  Definition nmod (y : idx) (s : source) (o w : idx) a : option (arena D * (bool * bool)) :=
    match arena_get a y with
    | None => None
    | Some n => match mmod n s o w with Some (n', fl) => Some (arena_set a y n', fl) | None => None end
    end.
  Lemma nmod_indep y s y' s' o w a a1 fl : (y, s) <> (y', s') -> nmod y s o w a = Some (a1, fl) ->
    match nmod y' s' o w a with
    | Some (a2, fl') => exists a3, nmod y' s' o w a1 = Some (a3, fl') /\ nmod y s o w a2 = Some (a3, fl)
    | None => nmod y' s' o w a1 = None
    end.
  Proof.
    intros Hne. unfold nmod. destruct (arena_get a y) as [n|] eqn:Hn; [|done].
    destruct (mmod n s o w) as [[n1 fl1]|] eqn:Hm; [|done]. intros [= <- <-].
    rewrite (arena_set_get a y n n1) by done. destruct (decide (y' = y)) as [->|Hy].
    - rewrite Hn. assert (s <> s') as Hs by congruence. pose proof (mmod_indep n s s' o w n1 fl1 Hs Hm) as Hi.
      destruct (mmod n s' o w) as [[n2 fl2]|]; [|by rewrite Hi].
      destruct Hi as (n3&->&H3). eexists. split; [done|]. rewrite (arena_set_get a y n n2), decide_True by done.
      rewrite H3. by rewrite !arena_set_set.
    - destruct (arena_get a y') as [n'|] eqn:Hn'; [|done]. destruct (mmod n' s' o w) as [[n2 fl2]|]; [|done].
      eexists. split; [done|]. rewrite (arena_set_get a y' n' n2), decide_False, Hn, Hm by done. f_equal. f_equal.
      apply arena_set_comm; [done|by rewrite Hn'|by rewrite Hn].
  Qed.
End nodes.

(** ** Loop bodies as operations on the three components *)
Section phases.
  Context {D : Type}.
  Implicit Types (g : graph D) (r : lcr).

  Definition grsim g g' : Prop := g_ctx g = g_ctx g' /\ g_nodes g = g_nodes g' /\ bsim (g_back g) (g_back g').
  Definition stsim (s s' : graph D * lcr) : Prop := grsim s.1 s'.1 /\ lsim s.2 s'.2.
  Lemma grsim_refl g g' : grsim g g' -> grsim g g.
  Proof. intros (?&?&?). split; [done|]. split; [done|]. by eapply bsim_refl. Qed.
  Lemma grsim_trans g g' g'' : grsim g g' -> grsim g' g'' -> grsim g g''.
  Proof. intros (?&?&?) (?&?&?). split; [congruence|]. split; [congruence|]. by eapply bsim_trans. Qed.
  Lemma stsim_refl s s' : stsim s s' -> stsim s s.
  Proof. intros [? ?]. split; [by eapply grsim_refl|by eapply lsim_refl]. Qed.
  Lemma stsim_trans s s' s'' : stsim s s' -> stsim s' s'' -> stsim s s''.
  Proof. intros [? ?] [? ?]. split; [by eapply grsim_trans|by eapply lsim_trans]. Qed.
  Notation ms := (msim stsim eq).

  Definition cop {X} (bo : bmap -> option bmap) (no : arena D -> option (arena D * X)) (lo : X -> list lop) : GM (D:=D) unit :=
    fun '(g, r) =>
      match bo (g_back g), no (g_nodes g) with
      | Some b, Some (a, x) => Done (Graph (g_ctx g) a b, lops_run (lo x) r) tt
      | _, _ => Panicked PUnwrap (g, r)
      end.
  Definition bresp (bo : bmap -> option bmap) : Prop := forall B B', bsim B B' -> option_Forall2 bsim (bo B) (bo B').
  Definition bcomm (bo bo' : bmap -> option bmap) : Prop := forall B B', bsim B B' -> option_Forall2 bsim (bo B ≫= bo') (bo' B' ≫= bo).
  Definition nindep {X} (no no' : arena D -> option (arena D * X)) : Prop := forall a a1 x, no a = Some (a1, x) ->
    match no' a with Some (a2, x') => exists a3, no' a1 = Some (a3, x') /\ no a2 = Some (a3, x) | None => no' a1 = None end.
  Lemma cop_sim {X} bo (no : arena D -> option (arena D * X)) lo : bresp bo -> ms (cop bo no lo) (cop bo no lo).
  Proof.
    intros Hb [g r] [g' r'] [(Hc&Hn&HB) Hl]. cbn in *. rewrite <- Hn.
    destruct (Hb _ _ HB) as [b b' Hbb|]; [|done]. destruct (no (g_nodes g)) as [[a x]|]; [|done].
    split; [|done]. split; [split; [done|split; [done|done]]|]. by apply lops_sim.
  Qed.
  Lemma cop_comm {X} bo bo' (no no' : arena D -> option (arena D * X)) lo lo' :
    bcomm bo bo' -> nindep no no' -> nindep no' no -> (forall x x' o o', o ∈ lo x -> o' ∈ lo' x' -> lop_indep o o') ->
    ms (run! cop bo no lo; cop bo' no' lo') (run! cop bo' no' lo'; cop bo no lo).
  Proof.
    intros Hb Hn1 Hn2 Hl [g r] [g' r'] [(Hc&Hn&HB) Hlr]. cbn in *. specialize (Hb _ _ HB). unfold bindM, cop. rewrite <- Hn.
    destruct (no (g_nodes g)) as [[a x]|] eqn:Hna.
    - specialize (Hn1 _ _ _ Hna). destruct (no' (g_nodes g)) as [[a2 x']|] eqn:Hna'.
      + destruct Hn1 as (a3&H1&H2). destruct (bo (g_back g)) as [b|]; cbn in Hb.
        * cbn. rewrite H1. destruct (bo' b) as [b2|]; [|destruct (bo' (g_back g')) as [b'|]; cbn in *; [|done]; destruct (bo b'); [inversion Hb|done]].
          destruct (bo' (g_back g')) as [b'|]; cbn in *; [|inversion Hb]. destruct (bo b') as [b2'|]; [|inversion Hb].
          rewrite H2. split; [|done]. split; [split; [done|split; [done|]]|]; cbn; [by inversion Hb|]. apply lops_comm; [done|]. apply Hl.
        * destruct (bo' (g_back g')) as [b'|]; cbn in *; [|done]. destruct (bo b'); [inversion Hb|done].
      + destruct (bo (g_back g)) as [b|]; cbn; [rewrite Hn1; destruct (bo' b)|]; destruct (bo' (g_back g')); done.
    - destruct (bo (g_back g)) as [b|]; cbn; (destruct (bo' (g_back g')) as [b'|]; cbn; [|done]);
        (destruct (no' (g_nodes g)) as [[a2 x']|] eqn:Hna'; [|done]); cbn;
        specialize (Hn2 _ _ _ Hna'); rewrite Hna in Hn2; rewrite Hn2; by destruct (bo b').
  Qed.
  Lemma outsim_eq_l {S A} (R : S -> S -> Prop) (RA : A -> A -> Prop) o o1 o2 : outsim eq eq o o1 -> outsim R RA o1 o2 -> outsim R RA o o2.
  Proof. destruct o, o1, o2; cbn; try done. by intros [-> ->]. Qed.
  Lemma outsim_eq_r {S A} (R : S -> S -> Prop) (RA : A -> A -> Prop) o o1 o2 : outsim eq eq o2 o1 -> outsim R RA o o1 -> outsim R RA o o2.
  Proof. destruct o, o1, o2; cbn; try done. by intros [-> ->]. Qed.
  Lemma loop_sim {A X} `{EqDecision A} (l l' : list A) (f : A -> GM (D:=D) unit) bo (no : A -> arena D -> option (arena D * X)) lo :
    l ≡ₚ l' -> (forall a st, outsim eq eq (f a st) (cop (bo a) (no a) (lo a) st)) ->
    (forall a, bresp (bo a)) -> (forall a b, a <> b -> bcomm (bo a) (bo b)) -> (forall a b, a <> b -> nindep (no a) (no b)) ->
    (forall a b, a <> b -> forall x x' o o', o ∈ lo a x -> o' ∈ lo b x' -> lop_indep o o') ->
    ms (mfor l f) (mfor l' f).
  Proof.
    intros HP Hf Hb Hbc Hn Hl.
    assert (forall a, ms (f a) (f a)) as Hs.
    { intros a s s' HR. eapply outsim_eq_l; [apply Hf|]. eapply outsim_eq_r; [apply Hf|]. by apply cop_sim. }
    apply (msim_mfor_perm stsim stsim_refl stsim_trans); [done|done|done|]. intros a b _ _.
    destruct (decide (a = b)) as [->|Hne]; [eapply msim_bind; [apply Hs|by intros _ _ _]|].
    assert (forall a b st, outsim eq eq ((run! f a; f b) st) ((run! cop (bo a) (no a) (lo a); cop (bo b) (no b) (lo b)) st)) as Hfb.
    { intros a1 b1 st. unfold bindM. pose proof (Hf a1 st) as H1.
      destruct (f a1 st) as [s1 []|p s1], (cop (bo a1) (no a1) (lo a1) st) as [s1' []|p' s1']; cbn in H1; try done.
      destruct H1 as [-> _]. apply Hf. }
    intros s s' HR. eapply outsim_eq_l; [apply Hfb|]. eapply outsim_eq_r; [apply Hfb|]. apply cop_comm; [by apply Hbc|by apply Hn|apply Hn; by intros ->|by apply Hl|done].
  Qed.
  Definition nid (a : arena D) : option (arena D * (bool * bool)) := Some (a, (true, true)).
  Lemma nid_indep : nindep nid nid.
  Proof. intros a a1 x [= <- <-]. cbn. eauto. Qed.
  Lemma bresp_id : bresp Some.
  Proof. intros B B' H. by constructor. Qed.
  Lemma bcomm_id : bcomm Some Some.
  Proof. intros B B' H. by constructor. Qed.
  Lemma bresp_upd y F : fresp F -> bresp (bupd y F).
  Proof. intros HF B B'. by apply bupd_sim. Qed.
  Lemma bcomm_ins y y' e e' : bcomm (bupd y (oset_insert e)) (bupd y' (oset_insert e')).
  Proof. intros B B'. apply bupd_comm; [apply fresp_insert|apply fresp_insert|apply fcomm_insert]. Qed.
  Lemma bcomm_del y y' e e' : bcomm (bupd y (oset_del e)) (bupd y' (oset_del e')).
  Proof. intros B B'. apply bupd_comm; [apply fresp_del|apply fresp_del|apply fcomm_del]. Qed.
  Lemma bcomm_ent y y' e e' : bcomm (bent y e) (bent y' e').
  Proof. intros B B'. apply bent_comm. Qed.
  Lemma bresp_ent y e : bresp (bent y e).
  Proof. intros B B'. apply bent_sim. Qed.

  Lemma ladd_indep x y l x' y' l' : lop_indep (LAdd x y l) (LAdd x' y' l').
  Proof. unfold lop_indep. cbn. destruct (decide ((x, y, l) = (x', y', l'))) as [[= -> -> ->]|]; [by right|by left]. Qed.
  Lemma lrem_indep x y l x' y' l' : lop_indep (LRem x y l) (LRem x' y' l').
  Proof. unfold lop_indep. cbn. destruct (decide ((x, y, l) = (x', y', l'))) as [[= -> -> ->]|]; [by right|by left]. Qed.

  (** the loops over the links of a node *)
  Lemma loop_ent (l l' : list (idx * source)) x : l ≡ₚ l' ->
    ms (mfor l (fun '(y, s) => back_entry_insert y (x, s))) (mfor l' (fun '(y, s) => back_entry_insert y (x, s))).
  Proof.
    intros HP. apply (loop_sim _ _ _ (fun '(y, s) => bent y (x, s)) (fun _ => nid) (fun _ _ => [])); [done|..].
    - intros [y s] [g r]. unfold back_entry_insert, bindM, back_entry, back_insert, cop, bent, bupd. cbn.
      by destruct (omap_get y (omap_entry y [] (g_back g))).
    - intros [y s]. apply bresp_ent.
    - intros [y s] [y' s'] _. apply bcomm_ent.
    - intros _ _ _. apply nid_indep.
    - intros _ _ _ ? ? ? ? []%elem_of_nil.
  Qed.
  Lemma loop_add (l l' : list (idx * source)) x : l ≡ₚ l' ->
    ms (mfor l (fun '(y, s) => rec_add x y (src_link s))) (mfor l' (fun '(y, s) => rec_add x y (src_link s))).
  Proof.
    intros HP. apply (loop_sim _ _ _ (fun _ => Some) (fun _ => nid) (fun '(y, s) _ => [LAdd x y (src_link s)])); [done|..].
    - intros [y s] [[c n b] r]. done.
    - intros _. apply bresp_id.
    - intros _ _ _. apply bcomm_id.
    - intros _ _ _. apply nid_indep.
    - intros [y s] [y' s'] _ ? ? ? ? ->%elem_of_list_singleton ->%elem_of_list_singleton. first [apply ladd_indep|apply lrem_indep].
  Qed.
  Lemma loop_rem (l l' : list (idx * source)) x : l ≡ₚ l' ->
    ms (mfor l (fun '(y, s) => rec_rem x y (src_link s))) (mfor l' (fun '(y, s) => rec_rem x y (src_link s))).
  Proof.
    intros HP. apply (loop_sim _ _ _ (fun _ => Some) (fun _ => nid) (fun '(y, s) _ => [LRem x y (src_link s)])); [done|..].
    - intros [y s] [[c n b] r]. done.
    - intros _. apply bresp_id.
    - intros _ _ _. apply bcomm_id.
    - intros _ _ _. apply nid_indep.
    - intros [y s] [y' s'] _ ? ? ? ? ->%elem_of_list_singleton ->%elem_of_list_singleton. first [apply ladd_indep|apply lrem_indep].
  Qed.
  Lemma loop_back_remove (l l' : list (idx * source)) x : l ≡ₚ l' ->
    ms (mfor l (fun '(y, s) => back_remove y (x, s))) (mfor l' (fun '(y, s) => back_remove y (x, s))).
  Proof.
    intros HP. apply (loop_sim _ _ _ (fun '(y, s) => bupd y (oset_del (x, s))) (fun _ => nid) (fun _ _ => [])); [done|..].
    - intros [y s] [g r]. unfold back_remove, cop, bupd. cbn. by destruct (omap_get y (g_back g)).
    - intros [y s]. apply bresp_upd, fresp_del.
    - intros [y s] [y' s'] _. apply bcomm_del.
    - intros _ _ _. apply nid_indep.
    - intros _ _ _ ? ? ? ? []%elem_of_nil.
  Qed.
  Lemma loop_unlink (l l' : list (idx * source)) x : l ≡ₚ l' ->
    ms (mfor l (fun '(y, s) => run! back_remove y (x, s); rec_rem x y (src_link s)))
       (mfor l' (fun '(y, s) => run! back_remove y (x, s); rec_rem x y (src_link s))).
  Proof.
    intros HP. apply (loop_sim _ _ _ (fun '(y, s) => bupd y (oset_del (x, s))) (fun _ => nid) (fun '(y, s) _ => [LRem x y (src_link s)])); [done|..].
    - intros [y s] [g r]. unfold bindM, back_remove, cop, bupd. cbn. by destruct (omap_get y (g_back g)).
    - intros [y s]. apply bresp_upd, fresp_del.
    - intros [y s] [y' s'] _. apply bcomm_del.
    - intros _ _ _. apply nid_indep.
    - intros [y s] [y' s'] _ ? ? ? ? ->%elem_of_list_singleton ->%elem_of_list_singleton. first [apply ladd_indep|apply lrem_indep].
  Qed.
  Lemma loop_link (l l' : list (idx * source)) x : l ≡ₚ l' ->
    ms (mfor l (fun '(y, s) => run! back_insert y (x, s); rec_add x y (src_link s)))
       (mfor l' (fun '(y, s) => run! back_insert y (x, s); rec_add x y (src_link s))).
  Proof.
    intros HP. apply (loop_sim _ _ _ (fun '(y, s) => bupd y (oset_insert (x, s))) (fun _ => nid) (fun '(y, s) _ => [LAdd x y (src_link s)])); [done|..].
    - intros [y s] [g r]. unfold bindM, back_insert, cop, bupd. cbn. by destruct (omap_get y (g_back g)).
    - intros [y s]. apply bresp_upd, fresp_insert.
    - intros [y s] [y' s'] _. apply bcomm_ins.
    - intros _ _ _. apply nid_indep.
    - intros [y s] [y' s'] _ ? ? ? ? ->%elem_of_list_singleton ->%elem_of_list_singleton. first [apply ladd_indep|apply lrem_indep].
  Qed.
  Lemma nmod_nindep y s y' s' o w : (y, s) <> (y', s') -> nindep (nmod (D:=D) y s o w) (nmod y' s' o w).
  Proof. intros Hne a a1 x. by apply nmod_indep. Qed.
  Lemma node_modify_nmod y s o w g r :
    match nmod y s o w (g_nodes g) with
    | Some (a, fl) => node_modify y s o w (g, r) = Done (with_nodes g a, r) fl
    | None => exists p, node_modify y s o w (g, r) = Panicked p (g, r)
    end.
  Proof.
    unfold nmod, node_modify, graph_get. destruct (arena_get (g_nodes g) y) as [n|]; [|eauto]. rewrite modify_mmod.
    destruct (modify_link n s o w) as [[n' fl]|p]; eauto.
  Qed.
  (** the links to a removed node *)
  Lemma loop_clear (l l' : list (idx * source)) x : l ≡ₚ l' ->
    ms (mfor l (fun '(y, s) => run! node_modify y s x 0%N; rec_rem y x (src_link s)))
       (mfor l' (fun '(y, s) => run! node_modify y s x 0%N; rec_rem y x (src_link s))).
  Proof.
    intros HP. apply (loop_sim _ _ _ (fun _ => Some) (fun '(y, s) => nmod y s x 0%N) (fun '(y, s) _ => [LRem y x (src_link s)])); [done|..].
    - intros [y s] [g r]. unfold bindM, cop. pose proof (node_modify_nmod y s x 0%N g r) as H.
      destruct (nmod y s x 0%N (g_nodes g)) as [[a fl]|]; [by rewrite H|by destruct H as [p ->]].
    - intros _. apply bresp_id.
    - intros _ _ _. apply bcomm_id.
    - intros [y s] [y' s'] Hne. by apply nmod_nindep.
    - intros [y s] [y' s'] _ ? ? ? ? ->%elem_of_list_singleton ->%elem_of_list_singleton. first [apply ladd_indep|apply lrem_indep].
  Qed.
  (** redirected links *)
  Lemma loop_redirect (l l' : list (idx * source)) old new : old <> new -> l ≡ₚ l' ->
    ms (mfor l (fun '(y, s) => run! back_insert new (y, s); do! (removed, added) <- node_modify y s old new;
          run! (if added : bool then rec_add y new (src_link s) else retM tt);
          if removed : bool then rec_rem y old (src_link s) else retM tt))
       (mfor l' (fun '(y, s) => run! back_insert new (y, s); do! (removed, added) <- node_modify y s old new;
          run! (if added : bool then rec_add y new (src_link s) else retM tt);
          if removed : bool then rec_rem y old (src_link s) else retM tt)).
  Proof.
    intros Hne HP. apply (loop_sim _ _ _ (fun '(y, s) => bupd new (oset_insert (y, s))) (fun '(y, s) => nmod y s old new)
      (fun '(y, s) '(rm, ad) => (if ad : bool then [LAdd y new (src_link s)] else []) ++ (if rm : bool then [LRem y old (src_link s)] else []))); [done|..].
    - intros [y s] [g r]. unfold bindM at 1. unfold back_insert, cop, bupd. destruct (omap_get new (g_back g)) as [b|]; [|done].
      unfold bindM at 1. pose proof (node_modify_nmod y s old new (with_back g (omap_insert new (oset_insert (y, s) b) (g_back g))) r) as H.
      cbn [with_back g_nodes] in H. destruct (nmod y s old new (g_nodes g)) as [[a [rm ad]]|]; [|by destruct H as [p ->]]. rewrite H. by destruct ad, rm.
    - intros [y s]. apply bresp_upd, fresp_insert.
    - intros [y s] [y' s'] _. apply bcomm_ins.
    - intros [y s] [y' s'] Hn. by apply nmod_nindep.
    - intros [y s] [y' s'] _ [rm ad] [rm' ad'] o o' Ho Ho'.
      assert (o = LAdd y new (src_link s) \/ o = LRem y old (src_link s)) as Ho1.
      { apply elem_of_app in Ho as [Ho|Ho]; [destruct ad|destruct rm]; [|by inversion Ho| |by inversion Ho]; apply elem_of_list_singleton in Ho; auto. }
      assert (o' = LAdd y' new (src_link s') \/ o' = LRem y' old (src_link s')) as Ho2.
      { apply elem_of_app in Ho' as [Ho'|Ho']; [destruct ad'|destruct rm']; [|by inversion Ho'| |by inversion Ho']; apply elem_of_list_singleton in Ho'; auto. }
      destruct Ho1 as [-> | ->], Ho2 as [-> | ->]; first [apply ladd_indep|apply lrem_indep|left; cbn; congruence].
  Qed.

  (** ** The phases of a commit *)
  Lemma back_entry_sim y : ms (back_entry y) (back_entry y).
  Proof.
    intros [g r] [g' r'] [(?&?&HB) Hl]. split; [|done]. split; [|done]. split; [done|]. split; [done|]. by apply bsim_entry.
  Qed.
  Lemma node_unwrap_sim x : ms (node_unwrap (D:=D) x) (node_unwrap x).
  Proof.
    intros [g r] [g' r'] [(Hc&Hn&HB) Hl]. unfold node_unwrap, graph_get. cbn in *. rewrite <- Hn.
    by destruct (arena_get (g_nodes g) x).
  Qed.
  Lemma field_sources_perm E E' v f lv : field_sources E v f lv ≡ₚ field_sources E' v f lv.
  Proof.
    destruct lv as [i|k l|l]; cbn; [done| |done]. apply fmap_Permutation. transitivity l; [|symmetry]; apply set_iter_perm.
  Qed.
  Lemma concat_imap_perm {A B} (f f' : nat -> A -> list B) (l : list A) :
    (forall k x, f k x ≡ₚ f' k x) -> concat (imap f l) ≡ₚ concat (imap f' l).
  Proof.
    revert f f'. induction l as [|x l IH]; intros f f' H; [done|]. rewrite !imap_cons. cbn [concat]. apply Permutation_app; [apply H|].
    apply IH. intros k y. apply H.
  Qed.
  Lemma iter_sources_perm E E' (n : node D) : iter_sources E n ≡ₚ iter_sources E' n.
  Proof. apply concat_imap_perm. intros k lv. apply field_sources_perm. Qed.

  Section envs.
  Context (E E' : env).
  Lemma add_back_links_sim x n : ms (add_back_links E x n) (add_back_links E' x n).
  Proof. eapply msim_bind; [apply back_entry_sim|]. intros _ _ _. apply loop_ent, iter_sources_perm. Qed.
  Lemma merge_nodes_sim a : ms (merge_nodes E a) (merge_nodes E' a).
  Proof.
    unfold merge_nodes. eapply msim_bind.
    - apply msim_mfor. intros [x n] _. eapply msim_bind; [apply add_back_links_sim|]. intros _ _ _. apply loop_add, iter_sources_perm.
    - intros _ _ _ [g r] [g' r'] [(?&Hn&?) ?]. cbn in *. split; [|done]. split; [|done]. split; [done|]. split; [|done]. cbn. by rewrite Hn.
  Qed.
  Lemma remove_node_sim x : ms (remove_node (D:=D) E x) (remove_node E' x).
  Proof.
    unfold remove_node. apply (msim_bind stsim eq).
    { intros [g r] [g' r'] [(?&Hn&?) ?]. cbn in *. rewrite <- Hn. destruct (arena_remove (g_nodes g) x) as [a' [n|]]; [|done].
      split; [|done]. split; [|done]. split; [done|]. split; [done|]. done. }
    intros n ? <-. eapply msim_bind; [apply loop_rem, iter_sources_perm|]. intros _ _ _.
    eapply msim_bind; [apply loop_back_remove, iter_sources_perm|]. intros _ _ _.
    apply (msim_bind stsim ssim).
    { intros [g r] [g' r'] [(?&Hn&HB) ?]. cbn in *. destruct (bsim_get x _ _ HB) as [b b' Hb|]; [|done].
      split; [|done]. split; [|done]. split; [done|]. split; [done|]. by apply bsim_del. }
    intros b b' Hb. by apply loop_clear, ssim_perm.
  Qed.
  Lemma unlink_sim x : ms (unlink_sources (D:=D) E x) (unlink_sources E' x).
  Proof. eapply msim_bind; [apply node_unwrap_sim|]. intros n ? <-. apply loop_unlink, iter_sources_perm. Qed.
  Lemma link_sim x : ms (link_sources (D:=D) E x) (link_sources E' x).
  Proof. eapply msim_bind; [apply node_unwrap_sim|]. intros n ? <-. apply loop_link, iter_sources_perm. Qed.
  Lemma modify_node_sim x f : ms (modify_node (D:=D) E x f) (modify_node E' x f).
  Proof.
    eapply msim_bind; [apply unlink_sim|]. intros _ _ _. apply (msim_bind stsim eq); [|intros _ _ _; apply link_sim].
    intros [g r] [g' r'] [(?&Hn&?) ?]. unfold graph_get. cbn in *. rewrite <- Hn. destruct (arena_get (g_nodes g) x) as [n|]; [|done].
    destruct (f n) as [n' []|]; [|done]. done.
  Qed.
  Lemma update_node_sim x f : ms (update_node (D:=D) E x f) (update_node E' x f).
  Proof.
    eapply msim_bind; [apply unlink_sim|]. intros _ _ _. apply (msim_bind stsim eq); [|intros _ _ _; apply link_sim].
    intros [g r] [g' r'] [(?&Hn&?) ?]. cbn [fst snd] in *. rewrite <- Hn. destruct (arena_update_with x f (g_nodes g)) as [a' []|]; [|done]. done.
  Qed.
  Lemma redirect_links_sim old new : old <> new -> ms (redirect_links (D:=D) old new) (redirect_links old new).
  Proof.
    intros Hne. apply (msim_bind stsim ssim).
    { intros [g r] [g' r'] [(?&Hn&HB) ?]. cbn in *. destruct (bsim_get old _ _ HB) as [b b' Hb|]; [|done].
      split; [|done]. split; [|done]. split; [done|]. split; [done|]. apply bsim_insert; [by apply bsim_del|].
      split; [constructor|]. split; [constructor|done]. }
    intros b b' Hb. eapply msim_bind; [apply back_entry_sim|]. intros _ _ _. apply loop_redirect; [done|by apply ssim_perm].
  Qed.
  Lemma redirect_loop_sim reps post fa P :
    redir_ptrs reps P -> UF fa -> (forall x, x ∈ fa.*1 <-> x ∈ reps.*1 \/ x ∈ reps.*2) ->
    (forall k x z, reaches fa k x z -> leads P x z) -> (forall o n, (o, n) ∈ post -> (o, n) ∈ reps) ->
    ms (redirect_loop (D:=D) post fa) (redirect_loop post fa).
  Proof.
    intros HP. revert fa. induction post as [|[old new] post IH]; intros fa Huf Hkeys Hfin Hpost; cbn [redirect_loop]; [by apply msim_ret|].
    assert ((old, new) ∈ reps) as Hin by (apply Hpost; left).
    assert (new ∈ fa.*1) as Hnew.
    { apply Hkeys. right. apply elem_of_list_fmap. by exists (old, new). }
    assert (old ∈ reps.*1) as Hold.
    { apply elem_of_list_fmap. by exists (old, new). }
    destruct Huf as [Hnd Hreach]. destruct (Hreach new Hnew) as (k&z&Hz).
    pose proof (reaches_bound _ _ _ _ Hz) as Hk.
    pose proof (Hfin _ _ _ Hz) as Hlz. destruct (leads_final _ _ _ _ HP Hlz) as [Hrz Hzn].
    destruct (omap_key_get fa new Hnew) as [y0 Hy0]. rewrite Hy0.
    destruct (fa_compress_spec fa k new z (S (length fa))) as (fa'&Hc&Huf'&Hlen&Hkeys'&Hr'); [by split|done|lia|].
    assert (forall st, (do! y0 <- unwrapM PUnwrap (Some y0); do! root <- liftM (fa_chase (S (length fa)) fa new y0);
      run! redirect_links (D:=D) old root; do! fa' <- liftM (fa_compress (S (length fa)) fa new root); redirect_loop post fa') st =
      (run! redirect_links old z; redirect_loop post fa') st) as Heq.
    { intros st. unfold bindM at 1, unwrapM, retM. unfold bindM at 1. rewrite (fa_chase_spec _ _ _ _ _ _ Hz Hy0) by lia. cbn [liftM retM].
      unfold bindM, retM. destruct (redirect_links old z st) as [st1 []|]; [|done]. rewrite Hc. done. }
    intros s s' HR. rewrite !Heq. revert s s' HR. eapply msim_bind; [apply redirect_links_sim; by intros ->|]. intros _ _ _.
    apply IH; [done|..].
    - intros x. by rewrite Hkeys'.
    - intros j x w Hw. destruct (Hreach x) as (j0&w0&Hw0).
      { apply Hkeys'. by eapply reaches_key. }
      destruct (Hr' _ _ _ Hw0) as [j1 Hw1]. destruct (reaches_det _ _ _ _ _ _ Hw Hw1) as [_ ->]. by eapply Hfin.
    - intros o n Hon. apply Hpost. by right.
  Qed.
  Lemma redirect_vec_sim reps : ms (redirect_links_vec (D:=D) reps) (redirect_links_vec reps).
  Proof.
    unfold redirect_links_vec. pose proof (fa_build_spec reps) as Hb.
    destruct (fa_build reps (fa_init reps)) as [fa|p]; cbn [liftM]; [|by intros s s' HR].
    destruct (fa_ptrs _ _ _ Hb) as (P&HP&_). apply (msim_bind stsim (fun x y => x = fa /\ y = fa)); [by apply msim_ret|].
    intros x y [-> ->]. apply (redirect_loop_sim reps reps fa P); [done|apply Hb|apply Hb| |done].
    intros k x z. by apply (FA_leads _ _ _ _ _ _ _ Hb HP).
  Qed.
  Lemma commit_body_sim t : ms (commit_body (D:=D) E t) (commit_body E' t).
  Proof.
    unfold commit_body.
    eapply msim_bind; [apply redirect_vec_sim|]. intros _ _ _.
    eapply msim_bind; [apply merge_nodes_sim|]. intros _ _ _.
    eapply msim_bind; [apply msim_mfor; intros [i f] _; apply modify_node_sim|]. intros _ _ _.
    eapply msim_bind; [apply msim_mfor; intros [i f] _; apply update_node_sim|]. intros _ _ _.
    eapply msim_bind; [apply redirect_vec_sim|]. intros _ _ _.
    apply msim_mfor. intros x _. apply remove_node_sim.
  Qed.

  (** no bidirectional declarations *)
  Lemma bidi_nop E0 r : (forall l, e_opp E0 l = []) -> forall st, apply_bidirectional_links (D:=D) E0 r st = Done st tt.
  Proof.
    intros Ho. assert (forall e st, bidi_remove1 (D:=D) E0 e st = Done st tt) as H1.
    { intros [[x y] l] [g r0]. unfold bidi_remove1. destruct (arena_contains (g_nodes g) x) eqn:Hx; [|done].
      destruct (arena_contains (g_nodes g) y) eqn:Hy; [|done]. cbn [negb orb]. rewrite Ho. unfold bindM, node_unwrap, graph_get.
      unfold arena_contains in Hx, Hy. unfold arena_get. destruct (arena_dispatch (g_nodes g) x); [|done]. destruct (omap_get x _); [|done].
      destruct (arena_dispatch (g_nodes g) y); [|done]. by destruct (omap_get y _). }
    assert (forall e st, bidi_add1 (D:=D) E0 e st = Done st tt) as H2.
    { intros [[x y] l] [g r0]. unfold bidi_add1. destruct (arena_contains (g_nodes g) x) eqn:Hx; [|done].
      destruct (arena_contains (g_nodes g) y) eqn:Hy; [|done]. cbn [negb orb]. rewrite Ho. unfold bindM, node_unwrap, graph_get.
      unfold arena_contains in Hx, Hy. unfold arena_get. destruct (arena_dispatch (g_nodes g) x); [|done]. destruct (omap_get x _); [|done].
      destruct (arena_dispatch (g_nodes g) y); [|done]. by destruct (omap_get y _). }
    assert (forall {A} (l : list A) f, (forall e st, f e st = Done st tt) -> forall st : graph D * lcr, mfor l f st = Done st tt) as Hm.
    { intros A l f Hf. induction l as [|e l IH]; intros st; [done|]. cbn [mfor]. unfold bindM. by rewrite Hf. }
    intros st. unfold apply_bidirectional_links, bindM. rewrite Hm by done. by apply Hm.
  Qed.

  Context (Hkinds : e_kinds E = e_kinds E') (Hopp : forall l, e_opp E l = []) (Hopp' : forall l, e_opp E' l = []).
  Context (Hchk : forall v l, e_chk E v l = e_chk E' v l).
  Context (Hdbg : e_dbg E' = true -> e_dbg E = true).

  Lemma lsim_new : lsim lcr_new lcr_new.
  Proof. split; (split; [constructor|]; split; [constructor|done]). Qed.
  Lemma do_commit_sim t g g' g1 r : grsim g g' -> do_commit E t g = Done g1 r ->
    exists g1' r', do_commit E' t g' = Done g1' r' /\ grsim g1 g1' /\ lsim r r'.
  Proof.
    intros Hg. assert (g_ctx g' = g_ctx g) as Hctx by (symmetry; apply Hg). unfold do_commit. rewrite Hctx.
    destruct (e_dbg E && negb (t_ctx t =? g_ctx g)%N) eqn:H1; [done|].
    destruct (e_dbg E && negb (bool_decide (t_alloc t = []))) eqn:H2; [done|].
    replace (e_dbg E' && negb (t_ctx t =? g_ctx g)%N) with false
      by (destruct (e_dbg E'); [rewrite Hdbg in H1 by done; by rewrite H1|done]).
    replace (e_dbg E' && negb (bool_decide (t_alloc t = []))) with false
      by (destruct (e_dbg E'); [rewrite Hdbg in H2 by done; by rewrite H2|done]).
    pose proof (commit_body_sim t (g, lcr_new) (g', lcr_new) (conj Hg lsim_new)) as Hs. unfold bindM, getM.
    destruct (commit_body E t (g, lcr_new)) as [[g2 r2] []|p [g2 r2]]; [|done].
    destruct (commit_body E' t (g', lcr_new)) as [[g2' r2'] []|p [g2' r2']]; [|done]. destruct Hs as [[Hs1 Hs2] _]. cbn in *.
    rewrite !bidi_nop by done. cbn. intros [= -> ->]. eauto.
  Qed.
  Lemma check_sim r r' g g' g1 : grsim g g' -> lsim r r' -> check_link_type E r g = Done g1 tt -> g1 = g /\ check_link_type E' r' g' = Done g' tt.
  Proof.
    intros Hg Hr H. pose proof (check_link_type_spec E r g) as Hs. rewrite H in Hs. destruct Hs as [-> Hs]. split; [done|].
    pose proof (check_link_type_spec E' r' g') as Hs'. destruct (check_link_type E' r' g') as [g2 []|p g2]; [by destruct Hs' as [-> _]|].
    destruct Hs' as (_&_&x&y&l&ny&Hin&Hy&Hc). rewrite <- Hchk in Hc. destruct Hg as (_&Hn&_). unfold graph_get in Hy. rewrite <- Hn in Hy.
    destruct Hr as [(_&_&Ha) _]. apply Ha in Hin. rewrite (Hs x y l ny) in Hc by done. done.
  Qed.
  Lemma commit_sim t g g' g1 : grsim g g' -> commit E t g = Done g1 tt -> exists g1', commit E' t g' = Done g1' tt /\ grsim g1 g1'.
  Proof.
    intros Hg. unfold commit, bindM. destruct (do_commit E t g) as [g2 r|] eqn:Hd; [|done].
    destruct (do_commit_sim t g g' g2 r Hg Hd) as (g2'&r'&->&Hg2&Hr). intros Hc.
    destruct (check_sim r r' g2 g2' g1 Hg2 Hr Hc) as [-> ->]. eauto.
  Qed.
  Lemma any_fails_false {A} (f : A -> option bool) (l : list A) : any_fails f l = Some false <-> forall a, a ∈ l -> f a = Some true.
  Proof.
    induction l as [|a l IH]; cbn; [split; [intros _ ? ?%elem_of_nil; done|done]|]. destruct (f a) as [[]|] eqn:Ha.
    - rewrite IH. split; [intros H b [->|Hb]%elem_of_cons; auto|intros H b Hb; apply H; by right].
    - split; [done|]. intros H. specialize (H a ltac:(left)). congruence.
    - split; [done|]. intros H. specialize (H a ltac:(left)). congruence.
  Qed.
  Lemma failed_names_nil {A} (f : A -> option bool) (l : list (string * A)) : failed_names f l = Some [] <-> forall nm a, (nm, a) ∈ l -> f a = Some false.
  Proof.
    induction l as [|[nm a] l IH]; cbn; [split; [intros _ ? ? ?%elem_of_nil; done|done]|]. destruct (f a) as [b|] eqn:Ha.
    - transitivity (b = false /\ failed_names f l = Some []).
      + destruct (failed_names f l) as [r|]; [|naive_solver]. destruct b; naive_solver.
      + rewrite IH. split; [intros [-> H] nm' a' [[= -> ->]|Hin]%elem_of_cons; eauto|]. intros H. split.
        * specialize (H nm a ltac:(left)). congruence.
        * intros nm' a' Hin. eapply H. by right.
    - split; [done|]. intros H. specialize (H nm a ltac:(left)). congruence.
  Qed.
  Lemma changed_elem (l : list (idx * idx * link)) acc x :
    x ∈ fold_left (fun acc '(x, _, _) => oset_insert x acc) l acc <-> x ∈ acc \/ exists y k, (x, y, k) ∈ l.
  Proof.
    revert acc. induction l as [|[[x' y'] k'] l IH]; intros acc; cbn.
    - setoid_rewrite elem_of_nil. naive_solver.
    - rewrite IH, oset_insert_elem. setoid_rewrite elem_of_cons. naive_solver.
  Qed.
  Lemma check_change_sim g g' r r' c : grsim g g' -> lsim r r' -> check_change g r c = Some [] -> check_change g' r' c = Some [].
  Proof.
    intros (_&Hn&_) [(_&_&Ha) (_&_&Hb)]. unfold check_change, graph_get. rewrite <- Hn.
    assert (forall x, x ∈ fold_left (fun acc '(x, _, _) => oset_insert x acc) (lc_adds r' ++ lc_rems r') [] ->
      x ∈ fold_left (fun acc '(x, _, _) => oset_insert x acc) (lc_adds r ++ lc_rems r) []) as Hch.
    { intros x. rewrite !changed_elem. setoid_rewrite elem_of_app. setoid_rewrite Ha. setoid_rewrite Hb. done. }
    revert Hch. generalize (fold_left (fun acc '(x, _, _) => oset_insert x acc) (lc_adds r ++ lc_rems r) []) as ch.
    generalize (fold_left (fun acc '(x, _, _) => oset_insert x acc) (lc_adds r' ++ lc_rems r') []) as ch'. intros ch' ch Hch.
    destruct (failed_names _ (gc_node c)) as [f1|] eqn:H1; [|done]. destruct (failed_names _ (gc_add c)) as [f2|] eqn:H2; [|done].
    destruct (failed_names _ (gc_rem c)) as [f3|] eqn:H3; [|done]. intros [= H]. apply app_eq_nil in H as [-> H]. apply app_eq_nil in H as [-> ->].
    pose proof (proj1 (failed_names_nil _ _) H1) as H1'. pose proof (proj1 (failed_names_nil _ _) H2) as H2'. pose proof (proj1 (failed_names_nil _ _) H3) as H3'.
    assert (forall {A} (f : A -> _) (l l' : list A), (forall a, a ∈ l' -> a ∈ l) -> any_fails f l = Some false -> any_fails f l' = Some false) as Hmono.
    { intros A f l l' Hl Hf. rewrite any_fails_false in *. auto. }
    assert (forall a, a ∈ lc_adds r' -> a ∈ lc_adds r) as Hadd by (intros a; apply Ha).
    replace (failed_names _ (gc_node c)) with (Some (@nil string)).
    2:{ symmetry. apply failed_names_nil. intros nm f Hf. eapply Hmono; [exact Hch|]. by apply (H1' nm). }
    replace (failed_names _ (gc_add c)) with (Some (@nil string)).
    2:{ symmetry. apply failed_names_nil. intros nm f Hf. eapply Hmono; [exact Hadd|]. by apply (H2' nm). }
    replace (failed_names _ (gc_rem c)) with (Some (@nil string)); [done|].
    symmetry. apply failed_names_nil. intros nm f Hf. eapply Hmono; [exact Hadd|]. by apply (H3' nm).
  Qed.
  Lemma commit_checked_sim t c g g' g1 : grsim g g' -> commit_checked E t c g = Done g1 tt ->
    exists g1', commit_checked E' t c g' = Done g1' tt /\ grsim g1 g1'.
  Proof.
    intros Hg. unfold commit_checked, bindM, getM. destruct (do_commit E t g) as [g2 r|] eqn:Hd; [|done].
    destruct (do_commit_sim t g g' g2 r Hg Hd) as (g2'&r'&->&Hg2&Hr). destruct (check_link_type E r g2) as [g3 []|] eqn:Hc; [|done].
    destruct (check_sim r r' g2 g2' g3 Hg2 Hr Hc) as [-> ->]. destruct (check_change g2 r c) as [[|]|] eqn:Hcc; [|done|done].
    rewrite (check_change_sim g2 g2' r r' c) by done. intros [= <-]. exists g2'. done.
  Qed.

  (** ** Changing the context, deserializing *)
  Lemma dist_alloc_dbg b b' c : (c + 1 < usize_mod)%N -> dist_alloc b c = dist_alloc b' c /\ forall c' i, dist_alloc b c = Done c' i -> c' = (c + 1)%N.
  Proof.
    intros Hc. unfold dist_alloc. destruct (N.eqb_spec c (usize_mod - 1)); [lia|]. split; [done|]. intros c' i [= <- _].
    by apply N.mod_small.
  Qed.
  Lemma arena_alloc_dbg d c (a : arena D) : (c + 1 < usize_mod)%N -> arena_alloc E d (c, a) = arena_alloc E' d (c, a).
  Proof. intros Hc. unfold arena_alloc. by rewrite (proj1 (dist_alloc_dbg (e_dbg E) (e_dbg E') c Hc)). Qed.
  Lemma arena_insert_dbg n c (a : arena D) : (c + 1 < usize_mod)%N -> arena_insert E n (c, a) = arena_insert E' n (c, a).
  Proof. intros Hc. unfold arena_insert. by rewrite arena_alloc_dbg. Qed.
  Lemma arena_insert_cnt n c (a : arena D) c' a' i : (c + 1 < usize_mod)%N -> arena_insert E n (c, a) = Done (c', a') i -> c' = (c + 1)%N.
  Proof.
    intros Hc. unfold arena_insert, arena_alloc. pose proof (proj2 (dist_alloc_dbg (e_dbg E) (e_dbg E) c Hc)) as Hd.
    destruct (dist_alloc (e_dbg E) c) as [c1 j|p c1]; [|done]. destruct (arena_dispatch a j); [done|].
    destruct (cont_insert _ _ _ _ _); [|done]. intros [= <- _ _]. by apply (Hd _ j).
  Qed.
  Lemma switch_insert_dbg l m c (a : arena D) : (c + N.of_nat (length l) < usize_mod)%N ->
    switch_insert E l m (c, a) = switch_insert E' l m (c, a).
  Proof.
    revert m c a. induction l as [|[i n] l IH]; intros m c a Hc; [done|]. cbn [switch_insert length] in *. unfold bindM.
    rewrite <- arena_insert_dbg by lia. destruct (arena_insert E n (c, a)) as [[c' a'] j|] eqn:Hi; [|done].
    rewrite (arena_insert_cnt n c a c' a' j) in * by (try done; lia). apply IH. lia.
  Qed.
  Lemma arena_new_kinds : arena_new (D:=D) E = arena_new E'.
  Proof. unfold arena_new. by rewrite Hkinds. Qed.
  Lemma relabel_sim (bl bl' : bmap) m : bsim bl bl' -> msim eq eq (switch_relabel (D:=D) bl m) (switch_relabel bl' m).
  Proof.
    intros HB. apply msim_mfor. intros [i j] _. apply (msim_bind eq ssim).
    { destruct (bsim_get i _ _ HB); [by apply msim_ret|apply msim_panic]. }
    intros es es' Hes.
    set (f := fun '(y, s) => do! y' <- unwrapM PUnwrap (omap_get y m); do! a <- getM; do! n <- unwrapM PUnwrap (arena_get (D:=D) a y');
        do! (n', _) <- liftM (modify_link n s i j); putM (arena_set a y' n')).
    assert (forall y s a, outsim eq eq (f (y, s) a) (match omap_get y m with None => Panicked PUnwrap a | Some y' =>
      match nmod y' s i j a with Some (a', _) => Done a' tt | None => Panicked PUnwrap a end end)) as Hf.
    { intros y s a. unfold f, bindM, getM. destruct (omap_get y m) as [y'|]; [|done]. cbn. unfold nmod. destruct (arena_get a y') as [n|]; [|done]. cbn.
      rewrite modify_mmod. by destruct (modify_link n s i j) as [[n' fl]|]. }
    apply (msim_mfor_perm eq); [done|by intros ??? -> ->|by apply ssim_perm|by intros e _ s s' ->; destruct (f e s')|
      by intros e _ s s' ->; destruct (f e s')|]. intros [y s] [y' s'] _ _ a ? <-. unfold bindM.
    pose proof (Hf y s a) as H1. pose proof (Hf y' s' a) as H2.
    destruct (omap_get y m) as [z|] eqn:Hz.
    2:{ destruct (f (y, s) a) as [? []|p a1]; [done|]. destruct (f (y', s') a) as [a2 []|]; [|done].
        specialize (Hf y s a2). rewrite Hz in Hf. by destruct (f (y, s) a2). }
    destruct (omap_get y' m) as [z'|] eqn:Hz'.
    2:{ destruct (f (y', s') a) as [? []|p a1]; [done|]. destruct (f (y, s) a) as [a2 []|]; [|done].
        specialize (Hf y' s' a2). rewrite Hz' in Hf. by destruct (f (y', s') a2). }
    assert (forall x, outsim eq eq (f (y, s) x) (match nmod z s i j x with Some (a', _) => Done a' tt | None => Panicked PUnwrap x end)) as Fy.
    { intros x. specialize (Hf y s x). by rewrite Hz in Hf. }
    assert (forall x, outsim eq eq (f (y', s') x) (match nmod z' s' i j x with Some (a', _) => Done a' tt | None => Panicked PUnwrap x end)) as Fy'.
    { intros x. specialize (Hf y' s' x). by rewrite Hz' in Hf. }
    clear H1 H2 Hf.
    destruct (decide ((z, s) = (z', s'))) as [[= <- <-]|Hne].
    - assert (forall x, outsim eq eq (f (y, s) x) (f (y', s) x)) as Hyy.
      { intros x. eapply outsim_eq_l; [apply Fy|]. eapply outsim_eq_r; [apply Fy'|]. by destruct (nmod z s i j x) as [[]|]. }
      pose proof (Hyy a) as Ha. destruct (f (y, s) a) as [a1 []|], (f (y', s) a) as [a1' []|]; try done. destruct Ha as [-> _].
      specialize (Hyy a1'). by destruct (f (y, s) a1') as [? []|], (f (y', s) a1') as [? []|]; naive_solver.
    - pose proof (Fy a) as Ha. pose proof (Fy' a) as Ha'.
      destruct (nmod z s i j a) as [[a1 fl]|] eqn:Hn.
      + pose proof (nmod_indep z s z' s' i j a a1 fl Hne Hn) as Hi. destruct (nmod z' s' i j a) as [[a2 fl']|].
        * destruct Hi as (a3&H3&H4). destruct (f (y, s) a) as [? []|]; [|done]. destruct (f (y', s') a) as [? []|]; [|done].
          destruct Ha as [-> _], Ha' as [-> _]. specialize (Fy' a1). specialize (Fy a2). rewrite H3 in Fy'. rewrite H4 in Fy.
          destruct (f (y, s) a2) as [? []|], (f (y', s') a1) as [? []|]; try done. naive_solver.
        * destruct (f (y, s) a) as [? []|]; [|done]. destruct (f (y', s') a) as [? []|]; [done|]. destruct Ha as [-> _].
          specialize (Fy' a1). rewrite Hi in Fy'. by destruct (f (y', s') a1).
      + destruct (f (y, s) a) as [? []|]; [done|]. destruct (nmod z' s' i j a) as [[a2 fl']|] eqn:Hn'.
        * assert ((z', s') <> (z, s)) as Hne' by by intros [= -> ->].
          pose proof (nmod_indep z' s' z s i j a a2 fl' Hne' Hn') as Hi. rewrite Hn in Hi.
          destruct (f (y', s') a) as [? []|]; [|done]. destruct Ha' as [-> _]. specialize (Fy a2). rewrite Hi in Fy. by destruct (f (y, s) a2).
        * by destruct (f (y', s') a).
  Qed.
  Lemma bsim_nil : bsim [] [].
  Proof. split; [constructor|]. split; [constructor|]. intros y. constructor. Qed.
  Lemma graph_new_sim u : grsim (graph_new E u) (graph_new E' u).
  Proof. split; [done|]. split; [apply arena_new_kinds|apply bsim_nil]. Qed.
  Lemma rebuild_sim u a : outsim stsim eq (rebuild E u a) (rebuild E' u a).
  Proof.
    unfold rebuild, bindM, getM. pose proof (merge_nodes_sim a (graph_new E u, lcr_new) (graph_new E' u, lcr_new) (conj (graph_new_sim u) lsim_new)) as H.
    destruct (merge_nodes E a (graph_new E u, lcr_new)) as [[g r] []|], (merge_nodes E' a (graph_new E' u, lcr_new)) as [[g' r'] []|]; try done.
    destruct H as [H _]. rewrite !bidi_nop by done. done.
  Qed.
  Lemma switch_sim g g' u c c' g1 : grsim g g' -> (c + N.of_nat (length (graph_iter g)) < usize_mod)%N ->
    switch_context E g u c = Done c' g1 -> exists g1', switch_context E' g' u c = Done c' g1' /\ grsim g1 g1'.
  Proof.
    intros (Hc&Hn&HB) Hlt. unfold switch_context. rewrite <- Hn, <- arena_new_kinds, <- switch_insert_dbg by done.
    destruct (switch_insert E (arena_items (g_nodes g)) [] (c, arena_new E)) as [[c1 a] m|p [c1 a]]; [|done].
    pose proof (relabel_sim (g_back g) (g_back g') m HB a a eq_refl) as Hr.
    destruct (switch_relabel (g_back g) m a) as [a1 []|], (switch_relabel (g_back g') m a) as [a1' []|]; try done. destruct Hr as [<- _].
    pose proof (rebuild_sim u a1) as Hb. destruct (rebuild E u a1) as [[g2 r] []|? [? ?]], (rebuild E' u a1) as [[g2' r'] []|? [? ?]]; try done.
    destruct Hb as [[Hg2 Hr] _]. cbn in *. destruct (check_link_type E r g2) as [g3 []|] eqn:Hk; [|done].
    destruct (check_sim r r' g2 g2' g3 Hg2 Hr Hk) as [-> ->]. intros [= -> ->]. eauto.
  Qed.
  Lemma deser_sim s c g : deserialize_graph E s = Ok (c, g) -> exists g', deserialize_graph (D:=D) E' s = Ok (c, g') /\ grsim g g'.
  Proof.
    unfold deserialize_graph, do_deserialize, arena_new_from_iter. rewrite <- arena_new_kinds.
    destruct (mfor (gs_nodes s) _ (arena_new E)) as [a []|]; [|done].
    pose proof (rebuild_sim (gs_ctx s) a) as Hb. destruct (rebuild E _ a) as [[g2 r] []|? [? ?]], (rebuild E' _ a) as [[g2' r'] []|? [? ?]]; try done.
    destruct Hb as [[Hg2 Hr] _]. intros [= <- <-]. eauto.
  Qed.

  (** ** Whole programs *)
  Definition wsim (w w' : world (D:=D)) : Prop :=
    w_ctx w = w_ctx w' /\ w_trans w = w_trans w' /\
    forall k, option_Forall2 (fun cg cg' => cg.1 = cg'.1 /\ grsim cg.2 cg'.2) (w_graphs w !! k) (w_graphs w' !! k).
  Lemma node_ok_kinds n : node_ok (D:=D) E n <-> node_ok E' n.
  Proof. unfold node_ok. by rewrite Hkinds. Qed.
  Lemma wsim_graph w w' k c g : wsim w w' -> w_graphs w !! k = Some (c, g) -> exists g', w_graphs w' !! k = Some (c, g') /\ grsim g g'.
  Proof.
    intros (_&_&H) Hk. specialize (H k). rewrite Hk in H. inversion H as [? [c' g'] [Hc Hg]|]. cbn in *. subst. eauto.
  Qed.
  Lemma wsim_set_g w w' k c g g' : wsim w w' -> grsim g g' -> wsim (set_g w k (c, g)) (set_g w' k (c, g')).
  Proof.
    intros (?&?&H) Hg. split; [done|]. split; [done|]. intros j. cbn. destruct (decide (j = k)) as [->|Hj].
    - rewrite !lookup_insert. by constructor.
    - rewrite !lookup_insert_ne by done. apply H.
  Qed.
  Lemma wsim_del_g w w' k : wsim w w' -> wsim (del_g w k) (del_g w' k).
  Proof.
    intros (?&?&H). split; [done|]. split; [done|]. intros j. cbn. destruct (decide (j = k)) as [->|Hj].
    - rewrite !lookup_delete. constructor.
    - rewrite !lookup_delete_ne by done. apply H.
  Qed.
  Lemma wsim_set_t w w' k ct : wsim w w' -> wsim (set_t w k ct) (set_t w' k ct).
  Proof. intros (?&Ht&H). split; [done|]. split; [|done]. cbn. by rewrite Ht. Qed.
  Lemma wsim_del_t w w' k : wsim w w' -> wsim (del_t w k) (del_t w' k).
  Proof. intros (?&Ht&H). split; [done|]. split; [|done]. cbn. by rewrite Ht. Qed.
  Lemma wsim_set_cnt w w' c u cnt : wsim w w' -> wsim (set_cnt w c u cnt) (set_cnt w' c u cnt).
  Proof. intros (Hc&?&H). split; [|done]. cbn. by rewrite Hc. Qed.

  Lemma step_sim T w v o w' : wsim w v -> step E T w o w' -> (forall kg k p, o <> OCommitPanic kg k p) ->
    exists v', step E' T v o v' /\ wsim w' v'.
  Proof.
    intros Hw Hs Ho. pose proof Hw as (Hctx&Htr&Hgr).
    destruct Hs as [u|k c u cnt Hc|k c u cnt Hc|k n c u cnt t cnt' t' i Hk Hc Hn Hlt Hi|k d c u cnt t cnt' t' i Hk Hc Hlt Hi
      |k c u cnt t cnt' t' i Hk Hc Hlt Hi|k i n c t t' Hk Hn Hf|k i n c t t' Hk Hn Hin Hf|k i c t Hk|k i f c t t' Hk Hf Hm|k i f c t t' Hk Hf Hm
      |k o z c t Hk Hz|k o z c t Hk Hz|k kg c t g t' Hk Hg Hm|k|kg|kg k c t g g' Hk Hg Hm|kg k chk c t g g' Hk Hg Hm|kg k p c t g g' Hk Hg
      |kg c0 g c u cnt cnt' g' Hg Hc Hlt Hsw|kg s cnt g Hall Hd];
      try (rewrite Hctx in Hc); try (rewrite Htr in Hk).
    - eexists. split; [constructor|]. split; [cbn; by rewrite Hctx|]. by split.
    - eexists. split; [by econstructor|]. apply wsim_set_g; [done|apply graph_new_sim].
    - eexists. split; [by econstructor|]. replace (trans_new (D:=D) E u) with (trans_new (D:=D) E' u); [by apply wsim_set_t|].
      unfold trans_new. by rewrite arena_new_kinds.
    - eexists. split; [eapply st_insert; [done|done|by apply node_ok_kinds|done|]|by apply wsim_set_cnt, wsim_set_t].
      rewrite <- Hi. unfold trans_insert. by rewrite <- arena_insert_dbg.
    - eexists. split; [eapply st_alloc; [done|done|done|]|by apply wsim_set_cnt, wsim_set_t].
      rewrite <- Hi. unfold trans_alloc. by rewrite <- arena_alloc_dbg.
    - eexists. split; [eapply st_alloc_untyped; [done|done|done|]|by apply wsim_set_cnt, wsim_set_t].
      rewrite <- Hi. unfold trans_alloc_untyped, arena_alloc_untyped. by rewrite (proj1 (dist_alloc_dbg (e_dbg E) (e_dbg E') cnt Hlt)).
    - eexists. split; [eapply st_fill; [done|by apply node_ok_kinds|done]|by apply wsim_set_t].
    - eexists. split; [eapply st_fill_untyped; [done|by apply node_ok_kinds|done|done]|by apply wsim_set_t].
    - eexists. split; [by eapply st_remove|by apply wsim_set_t].
    - eexists. split; [eapply st_mutate; [done| |done]|by apply wsim_set_t].
      intros n n'. rewrite <- !node_ok_kinds. apply Hf.
    - eexists. split; [eapply st_update; [done| |done]|by apply wsim_set_t].
      intros n n'. rewrite <- !node_ok_kinds. apply Hf.
    - eexists. split; [by eapply st_redirect|by apply wsim_set_t].
    - eexists. split; [by eapply st_redirect_all|by apply wsim_set_t].
    - destruct (wsim_graph _ _ _ _ _ Hw Hg) as (gv&Hgv&Hgs). eexists. split; [eapply st_merge; [done|done|]|by apply wsim_del_g, wsim_set_t].
      rewrite <- Hm. destruct Hgs as (Hgc&Hgn&_). unfold trans_merge. by rewrite Hgc, Hgn.
    - eexists. split; [by constructor|by apply wsim_del_t].
    - eexists. split; [by constructor|by apply wsim_del_g].
    - destruct (wsim_graph _ _ _ _ _ Hw Hg) as (gv&Hgv&Hgs). destruct (commit_sim t g gv g' Hgs Hm) as (gv'&Hv'&Hgs').
      eexists. split; [by eapply st_commit|by apply wsim_set_g; [apply wsim_del_t|]].
    - destruct (wsim_graph _ _ _ _ _ Hw Hg) as (gv&Hgv&Hgs). destruct (commit_checked_sim t chk g gv g' Hgs Hm) as (gv'&Hv'&Hgs').
      eexists. split; [by eapply st_commit_checked|by apply wsim_set_g; [apply wsim_del_t|]].
    - by destruct (Ho kg k p).
    - destruct (wsim_graph _ _ _ _ _ Hw Hg) as (gv&Hgv&Hgs). destruct (switch_sim g gv u cnt cnt' g' Hgs Hlt Hsw) as (gv'&Hv'&Hgs').
      eexists. split; [eapply st_switch; [done|done| |done]|by apply wsim_set_cnt, wsim_set_g].
      destruct Hgs as (_&Hgn&_). unfold graph_iter. by rewrite <- Hgn.
    - destruct (deser_sim s cnt g Hd) as (gv&Hv&Hgs). eexists. split; [eapply st_deser; [|done]|].
      + intros i n Hin. rewrite <- node_ok_kinds. by apply Hall.
      + split; [cbn; by rewrite Hctx|]. split; [done|]. intros j. cbn. rewrite Hctx. destruct (decide (j = kg)) as [->|Hj].
        * rewrite !lookup_insert. by constructor.
        * rewrite !lookup_insert_ne by done. apply Hgr.
  Qed.
  Lemma runs_sim T os w : runs E T os w -> no_caught_panic os -> exists v, runs E' T os v /\ wsim w v.
  Proof.
    induction 1 as [|os w o w' Hr IH Hs]; intros Hn.
    - exists world_new. split; [constructor|]. split; [done|]. split; [done|]. intros k. cbn. rewrite lookup_empty. constructor.
    - destruct IH as (v&Hv&Hw). { intros kg k p Hin. apply (Hn kg k p), elem_of_app. by left. }
      destruct (step_sim T w v o w' Hw Hs) as (v'&Hv'&Hw').
      { intros kg k p ->. apply (Hn kg k p), elem_of_app. right. left. }
      exists v'. split; [by econstructor|done].
  Qed.
  End envs.
End phases.

(** ** Calls determine the world *)
Lemma step_det {D} E T (w : world (D:=D)) o w1 w2 : step E T w o w1 -> step E T w o w2 -> w1 = w2.
Proof. intros H1 H2. destruct H1; inversion H2; subst; simplify_eq; try done; congruence. Qed.
Lemma runs_det {D} E T os (w1 w2 : world (D:=D)) : runs E T os w1 -> runs E T os w2 -> w1 = w2.
Proof.
  intros H. revert w2. induction H as [|os w o w' Hr IH Hs]; intros w2 H2.
  - inversion H2 as [Ho|os' w0 o' w2' ? ? Ho]; [done|]. by destruct os'.
  - inversion H2 as [Ho|os' w0 o' w2' Hr' Hs' Ho]; subst; [by destruct os|]. apply app_inj_tail in Ho as [-> ->].
    rewrite (IH _ Hr') in Hs. by eapply step_det.
Qed.
Lemma runs_snoc_inv {D} E T os o (w : world (D:=D)) : runs E T (os ++ [o]) w -> exists w0, runs E T os w0 /\ step E T w0 o w.
Proof.
  intros H. remember (os ++ [o]) as os1 eqn:Heq. destruct H as [|os' w0 o' w' Hr Hs]; [by destruct os|].
  apply app_inj_tail in Heq as [-> ->]. eauto.
Qed.
