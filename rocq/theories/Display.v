(** * Text output: [Display] of indices and graphs, [Debug] of graphs

    The texts of nodes, sources and context ids are arbitrary functions (the user's
    [Display]/[Debug] implementations and the derived ones). *)
From stdpp Require Import pretty.
From Verif Require Export GraphFinal.
Local Open Scope string_scope.

(** "\n" *)
Definition nl : string := String (Ascii.ascii_of_nat 10) "".
Definition lines (ls : list string) : string := foldr (fun l s => l ++ nl ++ s) "" ls.

(** [Display for NodeIndex], typed_graph.rs:79-87; [pretty] is decimal notation *)
Definition show_index (i : idx) : string := if decide (i = 0%N) then "empty" else pretty i.
(** the derived [Debug] of [NodeIndex], typed_graph.rs:40-41 *)
Definition debug_index (i : idx) : string := "NodeIndex(" ++ pretty i ++ ")".

Section display.
  Context {D : Type} (shown : node D -> string).
  (** [Display for Graph], display.rs:6-15.  [writeln!] never fails on a [String]. *)
  Definition display_lines (g : graph D) : list string :=
    (["Graph {"] ++ ((fun '(i, n) => "  " ++ show_index i ++ ": " ++ shown n)%string <$> graph_iter g) ++ ["}"])%list.
  Definition display_graph (g : graph D) : string := lines (display_lines g).

  (** [Debug for Graph], debug.rs:6-23; [ctx_shown]: the [Debug] of a [Uuid], [set_shown]:
      the derived one of an [OrderSet] of reverse links *)
  Context (ctx_shown : N -> string) (set_shown : list (idx * source) -> string).
  Definition debug_lines (g : graph D) : list string :=
    (["Graph {"; ("  ctx_id = " ++ ctx_shown (g_ctx g) ++ ",")%string; "  nodes = ["] ++
      ((fun '(i, n) => "    " ++ debug_index i ++ ": " ++ shown n)%string <$> graph_iter g) ++
      ["  ],"; "  back_link=["] ++
      ((fun '(i, s) => "    " ++ debug_index i ++ ": " ++ set_shown s)%string <$> g_back g) ++
      ["  ]"; "}"])%list.
  Definition debug_graph (g : graph D) : string := lines (debug_lines g).
End display.

(** ** Facts *)
Arguments String.append !_ _ / : simpl nomatch.
Fixpoint chars (s : string) : list Ascii.ascii := match s with "" => [] | String c s => c :: chars s end.
Definition one_line (s : string) : Prop := Ascii.ascii_of_nat 10 ∉ chars s.
Lemma chars_app s s' : chars (s ++ s') = (chars s ++ chars s')%list.
Proof. induction s as [|c s IH]; [done|]. cbn. by rewrite IH. Qed.
Lemma one_line_app s s' : one_line (s ++ s') <-> one_line s /\ one_line s'.
Proof. unfold one_line. rewrite chars_app, not_elem_of_app. done. Qed.
Lemma app_assoc_s (a b c : string) : (a ++ b) ++ c = a ++ (b ++ c).
Proof. induction a as [|x a IH]; [done|]. cbn. by rewrite IH. Qed.

(** the text before the first [c] is determined *)
Lemma until_char (c : Ascii.ascii) s s' r r' : c ∉ chars s -> c ∉ chars s' ->
  s ++ String c r = s' ++ String c r' -> s = s' /\ r = r'.
Proof.
  revert s'. induction s as [|x s IH]; intros [|x' s']; cbn; rewrite ?not_elem_of_cons; [by intros _ _ [= ->]|..].
  - intros _ [? _] [= ? _]. done.
  - intros [? _] _ [= ? _]. done.
  - intros [_ Hs] [_ Hs'] [= -> Heq]. by destruct (IH s' Hs Hs' Heq) as [-> ->].
Qed.
Lemma lines_inj ls ls' : Forall one_line ls -> Forall one_line ls' -> lines ls = lines ls' -> ls = ls'.
Proof.
  intros H. revert ls'. induction H as [|l ls Hl Hls IH]; intros [|l' ls'] H'; cbn; [done|..].
  - destruct l'; done.
  - destruct l; done.
  - apply Forall_cons in H' as [Hl' Hls']. intros [-> Heq]%until_char; [|done..]. f_equal. by apply IH.
Qed.

Definition digit (c : Ascii.ascii) : Prop := (48 <= Ascii.nat_of_ascii c <= 57)%nat.
Lemma pretty_digits (i : N) : Forall digit (chars (pretty i)).
Proof.
  assert (forall x s, Forall digit (chars s) -> Forall digit (chars (pretty_N_go x s))) as H.
  { intros x. induction (N.lt_wf_0 x) as [x _ IH]; intros s Hs.
    assert (x = 0 \/ 0 < x)%N as [->|?] by lia; [by rewrite pretty_N_go_0|].
    rewrite pretty_N_go_step by done. apply IH; [by apply N.div_lt|]. constructor; [|done].
    unfold pretty_N_char, digit. repeat case_match; vm_compute; lia. }
  unfold pretty, pretty_N. case_decide; [|apply H; constructor]. repeat constructor; vm_compute; lia.
Qed.
Lemma pretty_no_char c (i : N) : ~ digit c -> c ∉ chars (pretty i).
Proof. intros Hc Hin. pose proof (pretty_digits i) as Hd. rewrite Forall_forall in Hd. by apply Hc, Hd. Qed.
Lemma show_index_inj i j : show_index i = show_index j -> i = j.
Proof.
  unfold show_index. repeat case_decide; subst; try done.
  - intros Heq. exfalso. pose proof (pretty_digits j) as Hd. rewrite <- Heq in Hd. apply Forall_cons in Hd as [Hd _]. revert Hd. vm_compute. lia.
  - intros Heq. exfalso. pose proof (pretty_digits i) as Hd. rewrite Heq in Hd. apply Forall_cons in Hd as [Hd _]. revert Hd. vm_compute. lia.
  - apply (inj pretty).
Qed.
Lemma show_index_no c i : ~ digit c -> c ∉ chars "empty" -> c ∉ chars (show_index i).
Proof. intros Hc He. unfold show_index. case_decide; [done|by apply pretty_no_char]. Qed.

Lemma show_line_inj i j s s' : "  " ++ show_index i ++ ": " ++ s = "  " ++ show_index j ++ ": " ++ s' -> i = j /\ s = s'.
Proof.
  cbn. intros [= Heq].
  apply until_char in Heq as [Hi Hs].
  - injection Hs as ->. split; [by apply show_index_inj|done].
  - apply show_index_no; [unfold digit; vm_compute; lia|]. cbn. rewrite !not_elem_of_cons. repeat split; try done. apply not_elem_of_nil.
  - apply show_index_no; [unfold digit; vm_compute; lia|]. cbn. rewrite !not_elem_of_cons. repeat split; try done. apply not_elem_of_nil.
Qed.
Lemma debug_line_inj i j s s' : "    " ++ debug_index i ++ ": " ++ s = "    " ++ debug_index j ++ ": " ++ s' -> i = j /\ s = s'.
Proof.
  unfold debug_index. cbn. rewrite !app_assoc_s. cbn. intros [= Heq].
  apply until_char in Heq as [Hi Hs].
  - injection Hs as ->. split; [by apply (inj pretty)|done].
  - apply pretty_no_char. unfold digit. vm_compute. lia.
  - apply pretty_no_char. unfold digit. vm_compute. lia.
Qed.
Lemma show_line_one i s : one_line s -> one_line ("  " ++ show_index i ++ ": " ++ s).
Proof.
  intros Hs. rewrite !one_line_app. split; [unfold one_line; cbn; rewrite !not_elem_of_cons; repeat split; try done; apply not_elem_of_nil|].
  split; [|split; [unfold one_line; cbn; rewrite !not_elem_of_cons; repeat split; try done; apply not_elem_of_nil|done]].
  apply show_index_no; [unfold digit; vm_compute; lia|]. cbn. rewrite !not_elem_of_cons. repeat split; try done. apply not_elem_of_nil.
Qed.
Lemma debug_line_one i s : one_line s -> one_line ("    " ++ debug_index i ++ ": " ++ s).
Proof.
  intros Hs. unfold debug_index. rewrite !one_line_app.
  assert (one_line (pretty i)) by (apply pretty_no_char; unfold digit; vm_compute; lia).
  repeat split; try done; unfold one_line; cbn; rewrite ?not_elem_of_cons; repeat split; try done; apply not_elem_of_nil.
Qed.
