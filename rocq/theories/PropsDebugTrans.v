(** * Property theorems: printed transactions (C84) *)
From stdpp Require Import pretty.
From Verif Require Import DebugTrans ExHist Decide PropsGraph PropsBidi PropsFindings.
Local Open Scope string_scope.

(** C84.  If the text of a context id has no comma (a [Uuid] is hexadecimal digits and
    dashes), the text of a transaction determines its context, the indices reserved and not
    filled, the nodes to be removed, the nodes that queued closures are for, both redirect
    lists, all in order, and the text of the nodes inserted - whatever that text is. *)
Theorem C84_debug_faithful {D} name (ctx_shown : N -> string) (inc_shown : arena D -> string) (t t' : trans D) :
  (forall c, Ascii.ascii_of_nat 44 ∉ chars (ctx_shown c)) ->
  debug_trans name ctx_shown inc_shown t = debug_trans name ctx_shown inc_shown t' ->
  ctx_shown (t_ctx t) = ctx_shown (t_ctx t') /\ t_alloc t = t_alloc t' /\ inc_shown (t_inc t) = inc_shown (t_inc t') /\
  t_dec t = t_dec t' /\ (t_mut t).*1 = (t_mut t').*1 /\ (t_upd t).*1 = (t_upd t').*1 /\
  t_redir_all t = t_redir_all t' /\ t_redir t = t_redir t'.
Proof. apply final_debug_trans. Qed.
Print Assumptions C84_debug_faithful.

(** Only the closures are missing: transactions that print the same and queue the same
    closures commit the same, if the texts of contexts and inserted nodes are faithful. *)
Theorem C84_same_commit {D} (E : env) name (ctx_shown : N -> string) (inc_shown : arena D -> string) (t t' : trans D) (g : graph D) :
  (forall c, Ascii.ascii_of_nat 44 ∉ chars (ctx_shown c)) ->
  (forall c c', ctx_shown c = ctx_shown c' -> c = c') -> (forall a a', inc_shown a = inc_shown a' -> a = a') ->
  debug_trans name ctx_shown inc_shown t = debug_trans name ctx_shown inc_shown t' ->
  (t_mut t).*2 = (t_mut t').*2 -> (t_upd t).*2 = (t_upd t').*2 ->
  trans_is_empty t = trans_is_empty t' /\ commit E t g = commit E t' g.
Proof.
  intros Hc Hci Hii Heq Hm Hu. destruct (final_debug_trans name ctx_shown inc_shown t t' Hc Heq) as (Hx&Ha&Hi&Hd&Hm1&Hu1&Hra&Hr).
  assert (t = t') as ->; [|done].
  assert (forall {A B} (l l' : list (A * B)), l.*1 = l'.*1 -> l.*2 = l'.*2 -> l = l') as Hl.
  { intros A B l. induction l as [|[a b] l IH]; intros [|[a' b'] l']; cbn; try done. intros [= -> H1] [= -> H2]. f_equal. by apply IH. }
  apply Hci in Hx. apply Hii in Hi. apply Hl in Hm; [|done]. apply Hl in Hu; [|done]. destruct t, t'; cbn in *. by subst.
Qed.
Print Assumptions C84_same_commit.

(** the text of a transaction with requests of every kind *)
Definition show_count (a : arena nat) : string := pretty (N.of_nat (arena_len a)) ++ ", dec_nodes: {}, mut_nodes: []".
Definition dt : list opn := (busy ++ [OAlloc 1 1 7])%list%N.
Example C84_case : history E0 True (kg E0 dt 1) (kt E0 dt 1) (ks E0 dt 1) /\
  (forall c, Ascii.ascii_of_nat 44 ∉ chars (pretty (c : N))) /\
  debug_trans "Node" pretty show_count (kt E0 dt 1) =
    "Transaction<Node> { ctx_id: 7, alloc_nodes: {NodeIndex(7)}, inc_nodes: 2, dec_nodes: {}, mut_nodes: [], dec_nodes: {NodeIndex(1)}, " ++
    "mut_nodes: [NodeIndex(2)], update_nodes: [NodeIndex(4)], redirect_all_links: [(NodeIndex(3), NodeIndex(2))], redirect_links: [(NodeIndex(1), NodeIndex(4))] }".
Proof. split; [hist|]. split; [intros c; apply pretty_no_char; unfold digit; vm_compute; lia|computes]. Qed.
