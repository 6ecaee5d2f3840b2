(** * [Debug] of transactions

    transaction.rs:559-577.  [name]: the text of the node type; [ctx_shown]: the [Debug] of a
    [Uuid]; [inc_shown]: the [Debug] of the arena.  The generated arenas do not implement
    [Debug] (ttgraph_macros/src/cate_arena.rs:307-312 derives nothing), so a user who wants to
    print a transaction writes that one; it is arbitrary here.  The text is the one of
    [{:?}], without line breaks. *)
From stdpp Require Import pretty.
From Verif Require Export Display.
Local Open Scope string_scope.

(** [fmt::DebugList]/[fmt::DebugSet] and the [Debug] of a pair, without line breaks *)
Fixpoint joined (ls : list string) : string :=
  match ls with [] => "" | [s] => s | s :: ls => s ++ ", " ++ joined ls end.
Definition debug_vec {A} (f : A -> string) (l : list A) : string := "[" ++ joined (f <$> l) ++ "]".
Definition debug_set {A} (f : A -> string) (l : list A) : string := "{" ++ joined (f <$> l) ++ "}".
Definition debug_pair (p : idx * idx) : string := "(" ++ debug_index p.1 ++ ", " ++ debug_index p.2 ++ ")".

Section debug_trans.
  Context {D : Type} (name : string) (ctx_shown : N -> string) (inc_shown : arena D -> string).
  (** transaction.rs:565-576; closures are left out by the code (lines 571-572) *)
  Definition debug_trans (t : trans D) : string :=
    "Transaction<" ++ name ++ "> { ctx_id: " ++ ctx_shown (t_ctx t) ++
    ", alloc_nodes: " ++ debug_set debug_index (t_alloc t) ++
    ", inc_nodes: " ++ inc_shown (t_inc t) ++
    ", dec_nodes: " ++ debug_set debug_index (t_dec t) ++
    ", mut_nodes: " ++ debug_vec debug_index (t_mut t).*1 ++
    ", update_nodes: " ++ debug_vec debug_index (t_upd t).*1 ++
    ", redirect_all_links: " ++ debug_vec debug_pair (t_redir_all t) ++
    ", redirect_links: " ++ debug_vec debug_pair (t_redir t) ++ " }".
End debug_trans.

(** ** Facts *)
Lemma chars_inj s s' : chars s = chars s' -> s = s'.
Proof. revert s'. induction s as [|c s IH]; intros [|c' s']; cbn; try done. intros [= -> Hs]. f_equal. by apply IH. Qed.
Lemma app_inj_l (a b s : string) : s ++ a = s ++ b -> a = b.
Proof. intros H%(f_equal chars). rewrite !chars_app in H. apply app_inv_head in H. by apply chars_inj. Qed.
Lemma app_inj_r (a b s : string) : a ++ s = b ++ s -> a = b.
Proof. intros H%(f_equal chars). rewrite !chars_app in H. apply app_inv_tail in H. by apply chars_inj. Qed.
(** the text after the last [c] is determined *)
Lemma split_list {A} (x : A) l1 l2 r1 r2 : x ∉ l1 -> x ∉ l2 -> (l1 ++ x :: r1 = l2 ++ x :: r2)%list -> l1 = l2 /\ r1 = r2.
Proof.
  revert l2. induction l1 as [|a l1 IH]; intros [|b l2]; cbn; rewrite ?not_elem_of_cons; [by intros _ _ [= ->]|..].
  - intros _ [? _] [= ? _]. done.
  - intros [? _] _ [= ? _]. done.
  - intros [_ H1] [_ H2] [= -> Heq]. by destruct (IH l2 H1 H2 Heq) as [-> ->].
Qed.
Lemma from_char (c : Ascii.ascii) s s' r r' : c ∉ chars r -> c ∉ chars r' ->
  s ++ String c r = s' ++ String c r' -> s = s' /\ r = r'.
Proof.
  intros Hr Hr' H%(f_equal (fun x => reverse (chars x))). rewrite !chars_app in H. cbn [chars] in H.
  rewrite !reverse_app, !reverse_cons, <- !app_assoc in H. cbn [app] in H.
  apply split_list in H as [H1 H2]; [|by rewrite elem_of_reverse..].
  split; apply chars_inj; by apply (inj reverse).
Qed.

(** texts that tell where they end *)
Definition prefix_code {A} (f : A -> string) : Prop := forall x y r r', f x ++ r = f y ++ r' -> x = y /\ r = r'.
Lemma index_code : prefix_code debug_index.
Proof.
  intros x y r r'. unfold debug_index. cbn. rewrite !app_assoc_s. cbn. intros [= H].
  apply until_char in H as [H ->]; [|apply pretty_no_char; unfold digit; vm_compute; lia..].
  split; [by apply (inj pretty)|done].
Qed.
Lemma pair_code : prefix_code debug_pair.
Proof.
  intros [a b] [a' b'] r r'. unfold debug_pair. cbn [fst snd]. rewrite !app_assoc_s. intros H%app_inj_l.
  apply index_code in H as [-> H]. apply app_inj_l in H. apply index_code in H as [-> H]. by apply app_inj_l in H.
Qed.
Definition starts (c : Ascii.ascii) (s : string) : Prop := head (chars s) = Some c.
Lemma joined_inj {A} (f : A -> string) (b e : Ascii.ascii) (l l' : list A) r r' :
  prefix_code f -> (forall x, starts b (f x)) -> b <> e -> e <> Ascii.ascii_of_nat 44 ->
  joined (f <$> l) ++ String e r = joined (f <$> l') ++ String e r' -> l = l' /\ r = r'.
Proof.
  intros Hf Hb Hbe He. revert l'. induction l as [|x l IH]; intros l'.
  - destruct l' as [|y l']; [by intros [= ->]|]. intros H%(f_equal (fun s => head (chars s))). exfalso.
    specialize (Hb y). unfold starts in Hb. cbn [fmap list_fmap joined] in H.
    destruct l'; cbn [fmap list_fmap] in H; rewrite ?chars_app in H; destruct (chars (f y)); cbn in H, Hb; congruence.
  - destruct l' as [|y l'].
    { intros H%(f_equal (fun s => head (chars s))). exfalso.
      specialize (Hb x). unfold starts in Hb. cbn [fmap list_fmap joined] in H.
      destruct l; cbn [fmap list_fmap] in H; rewrite ?chars_app in H; destruct (chars (f x)); cbn in H, Hb; congruence. }
    intros H.
    assert (forall z l, exists q, joined (f <$> z :: l) = f z ++ q /\ (l = [] /\ q = "" \/ l <> [] /\ q = ", " ++ joined (f <$> l))) as Hj.
    { intros z [|w k].
      - exists "". cbn. split; [|by left]. apply chars_inj. rewrite chars_app. cbn. by rewrite app_nil_r.
      - exists (", " ++ joined (f <$> w :: k)). split; [done|]. by right. }
    destruct (Hj x l) as (q&Hq&Hl), (Hj y l') as (q'&Hq'&Hl'). rewrite Hq, Hq', !app_assoc_s in H.
    apply Hf in H as [-> H]. destruct Hl as [[-> ->]|[Hl ->]], Hl' as [[-> ->]|[Hl' ->]]; cbn in H.
    + by injection H as ->.
    + injection H as H _. by destruct He.
    + injection H as H _. by destruct He.
    + injection H as H. apply IH in H as [-> ->]. done.
Qed.
Lemma index_starts i : starts (Ascii.ascii_of_nat 78) (debug_index i).
Proof. reflexivity. Qed.
Lemma pair_starts p : starts (Ascii.ascii_of_nat 40) (debug_pair p).
Proof. reflexivity. Qed.
Lemma set_code : prefix_code (debug_set debug_index).
Proof.
  intros l l' r r'. unfold debug_set. rewrite !app_assoc_s. intros H%app_inj_l. cbn in H.
  eapply joined_inj in H; [exact H|apply index_code|apply index_starts|done..].
Qed.
Lemma vec_code : prefix_code (debug_vec debug_index).
Proof.
  intros l l' r r'. unfold debug_vec. rewrite !app_assoc_s. intros H%app_inj_l. cbn in H.
  eapply joined_inj in H; [exact H|apply index_code|apply index_starts|done..].
Qed.
Lemma vec_pair_code : prefix_code (debug_vec debug_pair).
Proof.
  intros l l' r r'. unfold debug_vec. rewrite !app_assoc_s. intros H%app_inj_l. cbn in H.
  eapply joined_inj in H; [exact H|apply pair_code|apply pair_starts|done..].
Qed.
Lemma code_inj {A} (f : A -> string) x y : prefix_code f -> f x = f y -> x = y.
Proof. intros Hf H. destruct (Hf x y "" "") as [-> _]; [by rewrite H|done]. Qed.

(** no colon in any list *)
Definition colon : Ascii.ascii := Ascii.ascii_of_nat 58.
Definition plain (s : string) : Prop := colon ∉ chars s.
Lemma plain_app s s' : plain (s ++ s') <-> plain s /\ plain s'.
Proof. unfold plain. rewrite chars_app, not_elem_of_app. done. Qed.
Lemma plain_bool s : bool_decide (colon ∈ chars s) = false -> plain s.
Proof. apply bool_decide_eq_false_1. Qed.
Lemma plain_index i : plain (debug_index i).
Proof.
  unfold debug_index. rewrite !plain_app. split; [by apply plain_bool|]. split; [|by apply plain_bool].
  apply pretty_no_char. unfold digit. vm_compute. lia.
Qed.
Lemma plain_pair p : plain (debug_pair p).
Proof. unfold debug_pair. rewrite !plain_app. repeat split; try apply plain_index; by apply plain_bool. Qed.
Lemma plain_joined ls : Forall plain ls -> plain (joined ls).
Proof.
  induction 1 as [|s ls Hs Hls IH]; [by apply plain_bool|]. destruct ls; [done|]. cbn [joined].
  rewrite !plain_app. split; [done|]. split; [by apply plain_bool|done].
Qed.
Lemma plain_set l : plain (debug_set debug_index l).
Proof.
  unfold debug_set. rewrite !plain_app. split; [by apply plain_bool|]. split; [|by apply plain_bool].
  apply plain_joined, Forall_fmap, Forall_forall. intros i _. apply plain_index.
Qed.
Lemma plain_vec l : plain (debug_vec debug_index l).
Proof.
  unfold debug_vec. rewrite !plain_app. split; [by apply plain_bool|]. split; [|by apply plain_bool].
  apply plain_joined, Forall_fmap, Forall_forall. intros i _. apply plain_index.
Qed.
Lemma plain_vec_pair l : plain (debug_vec debug_pair l).
Proof.
  unfold debug_vec. rewrite !plain_app. split; [by apply plain_bool|]. split; [|by apply plain_bool].
  apply plain_joined, Forall_fmap, Forall_forall. intros i _. apply plain_pair.
Qed.
(** the last field of a printed struct *)
Lemma last_field (lab : string) a a' v v' : plain v -> plain v' ->
  a ++ (lab ++ String colon v) = a' ++ (lab ++ String colon v') -> a = a' /\ v = v'.
Proof.
  intros Hv Hv' H. rewrite <- !app_assoc_s in H. apply from_char in H as [H ->]; [|done..]. split; [|done]. by eapply app_inj_r.
Qed.

Lemma debug_trans_fields {D} name ctx_shown (inc_shown : arena D -> string) t :
  debug_trans name ctx_shown inc_shown t =
  ((((((("Transaction<" ++ name ++ "> { ctx_id: ") ++ (ctx_shown (t_ctx t) ++ String (Ascii.ascii_of_nat 44)
    (" alloc_nodes: " ++ (debug_set debug_index (t_alloc t) ++ (", inc_nodes: " ++ inc_shown (t_inc t)))))) ++
    (", dec_nodes" ++ String colon (" " ++ debug_set debug_index (t_dec t)))) ++
    (", mut_nodes" ++ String colon (" " ++ debug_vec debug_index (t_mut t).*1))) ++
    (", update_nodes" ++ String colon (" " ++ debug_vec debug_index (t_upd t).*1))) ++
    (", redirect_all_links" ++ String colon (" " ++ debug_vec debug_pair (t_redir_all t)))) ++
    (", redirect_links" ++ String colon (" " ++ (debug_vec debug_pair (t_redir t) ++ " }")))).
Proof.
  unfold debug_trans. apply chars_inj. rewrite !chars_app.
  repeat (rewrite <- app_assoc || rewrite chars_app || cbn [chars app]). reflexivity.
Qed.
Lemma plain_mid v : plain v -> plain (" " ++ v).
Proof. intros H. apply plain_app. split; [by apply plain_bool|done]. Qed.
Lemma plain_end v : plain v -> plain (" " ++ (v ++ " }")).
Proof. intros H. rewrite !plain_app. split; [by apply plain_bool|]. split; [done|by apply plain_bool]. Qed.

Theorem final_debug_trans {D} name (ctx_shown : N -> string) (inc_shown : arena D -> string) (t t' : trans D) :
  (forall c, Ascii.ascii_of_nat 44 ∉ chars (ctx_shown c)) ->
  debug_trans name ctx_shown inc_shown t = debug_trans name ctx_shown inc_shown t' ->
  ctx_shown (t_ctx t) = ctx_shown (t_ctx t') /\ t_alloc t = t_alloc t' /\ inc_shown (t_inc t) = inc_shown (t_inc t') /\
  t_dec t = t_dec t' /\ (t_mut t).*1 = (t_mut t').*1 /\ (t_upd t).*1 = (t_upd t').*1 /\
  t_redir_all t = t_redir_all t' /\ t_redir t = t_redir t'.
Proof.
  intros Hctx. rewrite !debug_trans_fields. intros H.
  apply last_field in H as [H Hr]; [|apply plain_end; apply plain_vec_pair..].
  apply last_field in H as [H Hra]; [|apply plain_mid; apply plain_vec_pair..].
  apply last_field in H as [H Hu]; [|apply plain_mid; apply plain_vec..].
  apply last_field in H as [H Hm]; [|apply plain_mid; apply plain_vec..].
  apply last_field in H as [H Hd]; [|apply plain_mid; apply plain_set..].
  apply app_inj_l in Hr, Hra, Hu, Hm, Hd. apply app_inj_r in Hr.
  apply (code_inj _ _ _ vec_pair_code) in Hr, Hra. apply (code_inj _ _ _ vec_code) in Hu, Hm. apply (code_inj _ _ _ set_code) in Hd.
  apply app_inj_l in H. apply until_char in H as [Hc H]; [|apply Hctx..].
  apply app_inj_l in H. apply set_code in H as [Ha H]. by apply app_inj_l in H.
Qed.
