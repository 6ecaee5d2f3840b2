(** * Property theorems: printed graphs (C64) *)
From stdpp Require Import pretty.
From Verif Require Import Display OrderHist ExHist Decide PropsGraph PropsBidi PropsSer PropsFindings PropsOrder.
Local Open Scope string_scope.

Lemma split_at {A} (x : A) l1 l2 r1 r2 : x ∉ l1 -> x ∉ l2 -> (l1 ++ x :: r1 = l2 ++ x :: r2)%list -> l1 = l2 /\ r1 = r2.
Proof.
  revert l2. induction l1 as [|a l1 IH]; intros [|b l2]; cbn; rewrite ?not_elem_of_cons; [by intros _ _ [= ->]|..].
  - intros _ [? _] [= ? _]. done.
  - intros [? _] _ [= ? _]. done.
  - intros [_ H1] [_ H2] [= -> Heq]. by destruct (IH l2 H1 H2 Heq) as [-> ->].
Qed.
Lemma chars_inj s s' : chars s = chars s' -> s = s'.
Proof. revert s'. induction s as [|c s IH]; intros [|c' s']; cbn; try done. intros [= -> Hs]. f_equal. by apply IH. Qed.
Lemma app_inj_r (a b s : string) : a ++ s = b ++ s -> a = b.
Proof. intros H%(f_equal chars). rewrite !chars_app in H. apply app_inv_tail in H. by apply chars_inj. Qed.
Lemma fmap_lines {A B C} (f : A -> B) (f' : A -> C) (l l' : list A) : (forall x y, f x = f y -> f' x = f' y) -> f <$> l = f <$> l' -> f' <$> l = f' <$> l'.
Proof.
  intros Hf. revert l'. induction l as [|x l IH]; intros [|y l']; cbn; try done. intros [= Hx Hl]. f_equal; [by apply Hf|by apply IH].
Qed.
Lemma iter_shown {D} E T (shown : node D -> string) (g g' : graph D) : graph_of E T g -> graph_of E T g' ->
  (fun '(i, n) => (i, shown n)) <$> graph_iter g = (fun '(i, n) => (i, shown n)) <$> graph_iter g' ->
  forall i, shown <$> graph_get g i = shown <$> graph_get g' i.
Proof.
  intros Hg Hg' Heq i. destruct (graph_iter_agree E T g Hg) as (Hit&_), (graph_iter_agree E T g' Hg') as (Hit'&_).
  assert (forall i s, shown <$> graph_get g i = Some s <-> (i, s) ∈ (fun '(i, n) => (i, shown n)) <$> graph_iter g) as H1.
  { intros j s. rewrite elem_of_list_fmap, fmap_Some. split.
    - intros (n&Hn&->). exists (j, n). split; [done|by apply Hit].
    - intros ([j' n]&[= -> ->]&Hin). exists n. split; [by apply Hit|done]. }
  assert (forall i s, shown <$> graph_get g' i = Some s <-> (i, s) ∈ (fun '(i, n) => (i, shown n)) <$> graph_iter g') as H2.
  { intros j s. rewrite elem_of_list_fmap, fmap_Some. split.
    - intros (n&Hn&->). exists (j, n). split; [done|by apply Hit'].
    - intros ([j' n]&[= -> ->]&Hin). exists n. split; [by apply Hit'|done]. }
  apply option_eq. intros s. by rewrite H1, H2, Heq.
Qed.

(** C64, Display.  If every node prints on one line, the text of a graph determines its
    indices, the texts of its nodes and their order. *)
Theorem C64_display_faithful {D} (E : env) (T : Prop) (shown : node D -> string) (g g' : graph D) :
  graph_of E T g -> graph_of E T g' -> (forall n, one_line (shown n)) ->
  display_graph shown g = display_graph shown g' ->
  (graph_iter g).*1 = (graph_iter g').*1 /\ forall i, shown <$> graph_get g i = shown <$> graph_get g' i.
Proof.
  intros Hg Hg' Hone Heq. unfold display_graph in Heq.
  assert (forall g : graph D, Forall one_line (display_lines shown g)) as Hl.
  { intros l. unfold display_lines. constructor; [unfold one_line; cbn; rewrite ?not_elem_of_cons; repeat split; try done; apply not_elem_of_nil|].
    apply Forall_app. split; [|repeat constructor; unfold one_line; cbn; rewrite ?not_elem_of_cons; repeat split; try done; apply not_elem_of_nil].
    apply Forall_fmap, Forall_forall. intros [i n] _. by apply show_line_one. }
  apply lines_inj in Heq; [|apply Hl..]. unfold display_lines in Heq. cbn in Heq. injection Heq as Heq. apply app_inj_tail in Heq as [Heq _].
  assert ((fun '(i, n) => (i, shown n)) <$> graph_iter g = (fun '(i, n) => (i, shown n)) <$> graph_iter g') as Hn.
  { eapply fmap_lines; [|exact Heq]. intros [i n] [j m] Hij. apply show_line_inj in Hij as [-> ->]. done. }
  split; [|by apply (iter_shown E T)].
  eapply fmap_lines; [|exact Hn]. by intros [i n] [j m] [= -> _].
Qed.
Print Assumptions C64_display_faithful.

(** C64, Debug.  The derived texts are always on one line.  The text also determines the
    context and the reverse-link table. *)
Theorem C64_debug_faithful {D} (E : env) (T : Prop) (shown : node D -> string) ctx_shown set_shown (g g' : graph D) :
  graph_of E T g -> graph_of E T g' -> (forall n, one_line (shown n)) -> (forall c, one_line (ctx_shown c)) -> (forall s, one_line (set_shown s)) ->
  debug_graph shown ctx_shown set_shown g = debug_graph shown ctx_shown set_shown g' ->
  ctx_shown (g_ctx g) = ctx_shown (g_ctx g') /\
  (graph_iter g).*1 = (graph_iter g').*1 /\ (forall i, shown <$> graph_get g i = shown <$> graph_get g' i) /\
  (fun '(i, s) => (i, set_shown s)) <$> g_back g = (fun '(i, s) => (i, set_shown s)) <$> g_back g'.
Proof.
  intros Hg Hg' Hone Hone2 Hone3 Heq. unfold debug_graph in Heq.
  assert (forall g : graph D, Forall one_line (debug_lines shown ctx_shown set_shown g)) as Hl.
  { intros g0. unfold debug_lines.
    constructor; [unfold one_line; cbn; rewrite ?not_elem_of_cons; repeat split; try done; apply not_elem_of_nil|].
    constructor. { rewrite !one_line_app. split; [|split; [done|]]; unfold one_line; cbn; rewrite ?not_elem_of_cons; repeat split; try done; apply not_elem_of_nil. }
    constructor; [unfold one_line; cbn; rewrite ?not_elem_of_cons; repeat split; try done; apply not_elem_of_nil|].
    rewrite !Forall_app. split; [apply Forall_fmap, Forall_forall; intros [i n] _; by apply debug_line_one|].
    split; [repeat constructor; unfold one_line; cbn; rewrite ?not_elem_of_cons; repeat split; try done; apply not_elem_of_nil|].
    split; [apply Forall_fmap, Forall_forall; intros [i n] _; by apply debug_line_one|].
    repeat constructor; unfold one_line; cbn; rewrite ?not_elem_of_cons; repeat split; try done; apply not_elem_of_nil. }
  apply lines_inj in Heq; [|apply Hl..]. unfold debug_lines in Heq. cbn [app] in Heq. injection Heq as Hctx Heq.
  assert (forall l : list (idx * node D), "  ]," ∉ (fun '(i, n) => "    " ++ debug_index i ++ ": " ++ shown n) <$> l) as Hno.
  { intros l ([i n]&Hin&_)%elem_of_list_fmap. cbn in Hin. done. }
  apply split_at in Heq as [Hn Heq]; [|apply Hno..]. cbn in Heq. injection Heq as Heq.
  change ["  ]"; "}"] with (["  ]"] ++ ["}"])%list in Heq. rewrite !app_assoc in Heq.
  apply app_inj_tail in Heq as [Heq _]. apply app_inj_tail in Heq as [Heq _].
  assert ((fun '(i, n) => (i, shown n)) <$> graph_iter g = (fun '(i, n) => (i, shown n)) <$> graph_iter g') as Hn'.
  { eapply fmap_lines; [|exact Hn]. intros [i n] [j m] Hij. apply debug_line_inj in Hij as [-> ->]. done. }
  split.
  { by eapply app_inj_r. }
  split; [eapply fmap_lines; [|exact Hn']; by intros [i n] [j m] [= -> _]|].
  split; [by apply (iter_shown E T)|].
  eapply fmap_lines; [|exact Heq]. intros [i n] [j m] Hij. apply debug_line_inj in Hij as [-> ->]. done.
Qed.
Print Assumptions C64_debug_faithful.

(** one line per node: variant, next, data *)
Definition show_nat (n : node nat) : string :=
  (if decide (nvar n = 0)%nat then "A" else "B") ++ " " ++ pretty (match ndata n with (_, d) :: _ => N.of_nat d | [] => 0%N end).
Example C64_case : graph_of E0 True (rgr E0 busy 0) /\ (forall n, one_line (show_nat n)) /\
  display_graph show_nat (rgr E0 busy 0) = lines ["Graph {"; "  2: A 2"; "  3: A 3"; "  1: B 1"; "  4: B 4"; "}"] /\
  show_index 0 = "empty".
Proof.
  split; [apply (run_graph_of E0 True busy 0); [unfold busy, setup; sides|computes]|]. split; [|split; computes].
  intros n. unfold show_nat. rewrite !one_line_app.
  split; [case_decide|split; [|apply pretty_no_char; unfold digit; vm_compute; lia]]; unfold one_line; cbn; rewrite ?not_elem_of_cons; repeat split; try done; apply not_elem_of_nil.
Qed.
(** With texts of several lines two different graphs can look the same: one node that
    prints as "A" followed by the line of another node. *)
Definition show_long (n : node nat) : string :=
  match ndata n with [(_, 9)] => "A" ++ nl ++ "  2: A" | _ => "A" end.
Definition d1 : list opn := [ONewCtx 7; ONewGraph 0 0; ONewTrans 0 0; OInsert 0 (nA 0 [] [] 9) 1; OCommit 0 0]%N.
Definition d2 : list opn := [ONewCtx 7; ONewGraph 0 0; ONewTrans 0 0; OInsert 0 (nA 0 [] [] 1) 1; OInsert 0 (nA 0 [] [] 1) 2; OCommit 0 0]%N.
Example C64_one_line_needed : graph_of E0 True (rgr E0 d1 0) /\ graph_of E0 True (rgr E0 d2 0) /\
  display_graph show_long (rgr E0 d1 0) = display_graph show_long (rgr E0 d2 0) /\ graph_len (rgr E0 d1 0) = 1%nat /\ graph_len (rgr E0 d2 0) = 2%nat.
Proof.
  split; [apply (run_graph_of E0 True d1 0); [unfold d1; sides|computes]|].
  split; [apply (run_graph_of E0 True d2 0); [unfold d2; sides|computes]|]. split; [computes|split; computes].
Qed.
