(** * The same program with bidirectional links (C72), and switch_context with them (C71) *)
From Verif Require Import AlikeRuns ExHist ExTrans PropsOrder PropsBidi PropsSame.

Section runs.
  Context {D : Type} (E E' : env) (T : Prop).
  Lemma lruns_alike (os : list (op (D:=D))) w w' lg lg' : e_kinds E = e_kinds E' -> (forall l, e_opp E l = e_opp E' l) -> bidi_fields E ->
    no_caught_panic os -> T \/ no_switch os -> (forall o, o ∈ os -> op_blind o) ->
    lruns E T os w lg -> lruns E' T os w' lg' -> walike w w' lg lg'.
  Proof.
    intros Hk Ho Hbf. revert w w' lg lg'. induction os as [|o os IH] using rev_ind; intros w w' lg lg' Hn Hsw Hb Hr Hr'.
    - apply lruns_nil_inv in Hr as [-> ->], Hr' as [-> ->]. split; [done|..]; intros k; constructor.
    - apply lruns_snoc_inv in Hr as (w0&lg0&Hr&Hs&_&->), Hr' as (w0'&lg0'&Hr'&Hs'&_&->).
      assert (no_caught_panic os) as Hn0 by (intros kg k p Hin; apply (Hn kg k p), elem_of_app; by left).
      assert (T \/ no_switch os) as Hsw0. { destruct Hsw as [?|Hsw]; [by left|right]. intros kg c Hin. apply (Hsw kg c), elem_of_app. by left. }
      assert (walike w0 w0' lg0 lg0') as Hw by (apply IH; try done; intros o1 Ho1; apply Hb, elem_of_app; by left).
      eapply (step_alike E E' Hk Ho Hbf T); [by eapply lruns_lreach|by eapply lruns_lreach|done|done|done|..].
      + intros kg k p ->. apply (Hn kg k p), elem_of_app. right. by left.
      + apply Hb, elem_of_app. right. by left.
      + intros kg c c1 c2 g g' -> Hg Hg'.
        apply (C61_order_same_everywhere E E' T os w0 w0' kg c1 c2 g g'); try done; [by rewrite Hk|by eapply lruns_runs..].
  Qed.
End runs.

(** ** C72 *)
(** The same calls in two environments that share the declarations: hash orders, link types
    and the kind of build may differ.  Bidirectional declarations between direct and set links.
    If the calls succeed in both, contexts, counters and iteration orders are equal, and every
    node is equal as Rust's [==] compares it ([alike]): same variant, data, direct and Vec
    links, and sets of the same kind with the same members.  Only the order inside a set can
    differ ([C67_bidirectional_refuted]).  Closures may look at sets as sets: they give equal
    nodes for equal nodes ([op_blind]). *)
Theorem C72_same_up_to_set_order :
  forall {D} (E E' : env) (T : Prop) (os : list (op (D:=D))) w w',
  e_kinds E = e_kinds E' -> (forall l, e_opp E l = e_opp E' l) -> bidi_fields E ->
  no_caught_panic os -> T \/ no_switch os -> (forall o, o ∈ os -> op_blind o) ->
  (e_dbg E = true /\ e_dbg E' = true) \/ (forall k kg, OMerge k kg ∉ os) ->
  runs E T os w -> runs E' T os w' ->
  w_ctx w' = w_ctx w /\
  (forall kg c, (exists g, w_graphs w !! kg = Some (c, g)) <-> (exists g', w_graphs w' !! kg = Some (c, g'))) /\
  (forall k c, (exists t, w_trans w !! k = Some (c, t)) <-> (exists t', w_trans w' !! k = Some (c, t'))) /\
  (forall kg c c' g g', w_graphs w !! kg = Some (c, g) -> w_graphs w' !! kg = Some (c', g') ->
     g_ctx g' = g_ctx g /\ (graph_iter g').*1 = (graph_iter g).*1 /\ (forall d, (graph_iter_type g' d).*1 = (graph_iter_type g d).*1) /\
     forall x, option_Forall2 alike (graph_get g x) (graph_get g' x)) /\
  (forall k c c' t t', w_trans w !! k = Some (c, t) -> w_trans w' !! k = Some (c', t') ->
     forall x, option_Forall2 alike (arena_get (t_inc t) x) (arena_get (t_inc t') x)).
Proof.
  intros D E E' T os w w' Hk Ho Hbf Hn Hsw Hb Hd Hr Hr'.
  destruct (runs_lruns E T os w Hr) as [lg Hl]; [by destruct Hd as [[? ?]|?]; [left|right]|].
  destruct (runs_lruns E' T os w' Hr') as [lg' Hl']; [by destruct Hd as [[? ?]|?]; [left|right]|].
  pose proof (lruns_alike E E' T os w w' lg lg' Hk Ho Hbf Hn Hsw Hb Hl Hl') as Hw.
  pose proof (lruns_lreach _ _ _ _ _ Hl) as Hle. pose proof (lruns_lreach _ _ _ _ _ Hl') as Hle'.
  destruct (lreach_inv E T w lg Hle) as [Hi [_ Hht]], (lreach_inv E' T w' lg' Hle') as [Hi' [_ Hht']].
  pose proof (wa_ctx _ _ _ _ Hw) as Hctx.
  split; [done|]. split; [|split; [|split]].
  - intros kg c. pose proof (wa_graph _ _ _ _ Hw kg) as Hx. destruct Hx as [[c1 g1] [c2 g2] [Hc1 _]|]; cbn in *; [|naive_solver]. subst. naive_solver.
  - intros k c. pose proof (wa_trans _ _ _ _ Hw k) as Hx. destruct Hx as [[c1 g1] [c2 g2] Hc1|]; cbn in *; [|naive_solver]. subst. naive_solver.
  - intros kg c c' g g' Hg Hg'. destruct (walike_g _ _ _ _ _ _ _ _ _ Hw Hg Hg') as [-> Ha].
    destruct (iv_graph _ _ _ Hi kg c g Hg) as (_&_&cnt&Hc), (iv_graph _ _ _ Hi' kg c g' Hg') as (_&_&cnt'&Hc').
    split; [congruence|]. destruct (C61_order_same_everywhere E E' T os w w' kg c c g g') as [H1 H2]; [by rewrite Hk|done..|].
    split; [done|]. split; [intros d; by rewrite H2|exact Ha].
  - intros k c c' t t' Ht Ht' x. destruct (Hht k c t Ht) as (u&cnt&_&Hh), (Hht' k c' t' Ht') as (u'&cnt'&_&Hh').
    destruct (t_hist_rep E _ _ _ _ Hh) as (s&Hs&Hrep&_), (t_hist_rep E' _ _ _ _ Hh') as (s'&Hs'&Hrep'&_).
    rewrite <- (tr_new _ _ _ Hrep), <- (tr_new _ _ _ Hrep').
    apply (ta_new s s'). eapply ts_run_alike; [apply (wa_log _ _ _ _ Hw)|apply ts_alike_empty|exact Hs|exact Hs'].
Qed.
Print Assumptions C72_same_up_to_set_order.

Lemma bump_alike (n n' : node nat) : alike n n' -> alike (bump n) (bump n').
Proof. intros (H1&H2&H3). split; [done|]. split; [|done]. cbn. by rewrite H2. Qed.
Lemma bump_mut_blind : mut_blind bump_mut.
Proof. intros n n' a b H [= <-] [= <-]. by apply bump_alike. Qed.
Lemma bump_upd_blind : upd_blind bump_upd.
Proof. intros n n' a b H [= <-] [= <-]. by apply bump_alike. Qed.

(** a program whose sets come out in different orders *)
Definition e72 : list opn :=
  [ONewCtx 7; ONewGraph 0 0; ONewTrans 0 0; OInsert 0 (Node 1 [LDirect 0] []) 1; OInsert 0 (Node 1 [LDirect 0] []) 2;
   OInsert 0 (Node 2 [LSet SIndex []] [("d", 3%nat)]) 3; OCommit 0 0;
   ONewTrans 1 0; OInsert 1 (Node 0 [LSet SHash [1; 2]] []) 4; OInsert 1 (Node 1 [LDirect 3] [("d", 5%nat)]) 5; OInsert 1 (Node 1 [LDirect 3] []) 6;
   ORemove 1 1; ORemove 1 2; OCommit 0 1;
   ONewTrans 2 0; OMutate 2 3 bump_mut; OUpdate 2 5 bump_upd; OCommit 0 2]%N.
Definition e72s : list opn := e72 ++ [ONewCtx 8; OSwitch 0 1]%N.
Lemma E67_fields ho : bidi_fields (E67 ho).
Proof.
  intros l k. cbn. unfold opp67. case_decide as H1; [|case_decide as H2; [|by intros ?%elem_of_nil]]; intros ->%elem_of_list_singleton; subst l.
  - split; [done|]. right. by exists SIndex.
  - split; [done|]. by left.
Qed.
Lemma e72s_blind : forall o, o ∈ e72s -> op_blind o.
Proof.
  unfold e72s, e72. intros o Ho.
  repeat (apply elem_of_cons in Ho as [->|Ho]; [first [exact I|exact bump_mut_blind|exact bump_upd_blind]|]). by apply elem_of_nil in Ho.
Qed.
Example C72_case :
  let E := E67 (fun _ l => l) in let E' := E67 (fun _ l => rev l) in
  e_kinds E = e_kinds E' /\ (forall l, e_opp E l = e_opp E' l) /\ bidi_fields E /\ no_caught_panic e72s /\
  (forall o, o ∈ e72s -> op_blind o) /\ (e_dbg E = true /\ e_dbg E' = true) /\
  runs E True e72s (rw E e72s) /\ runs E' True e72s (rw E' e72s) /\
  (** before the switch *)
  graph_iter (rgr E e72 0) = [(4, Node 0 [LSet SHash []] []); (6, Node 1 [LDirect 3] []); (5, Node 1 [LDirect 3] [("d", 105%nat)]); (3, Node 2 [LSet SIndex [6; 5]] [("d", 103%nat)])]%N /\
  graph_iter (rgr E' e72 0) = [(4, Node 0 [LSet SHash []] []); (6, Node 1 [LDirect 3] []); (5, Node 1 [LDirect 3] [("d", 105%nat)]); (3, Node 2 [LSet SIndex [5; 6]] [("d", 103%nat)])]%N.
Proof.
  intros E E'. split; [done|]. split; [done|]. split; [apply E67_fields|]. split; [apply npb_sound; computes|].
  split; [exact e72s_blind|]. split; [done|].
  split; [apply run_runs; [unfold e72s, e72; sides|computes]|]. split; [apply run_runs; [unfold e72s, e72; sides|computes]|].
  split; computes.
Qed.

(** ** C71 with bidirectional declarations *)
(** [L]: the nodes with their new indices and relabelled links, as in [C71_switch_exact].
    The new graph has their data and undeclared fields, and its links are those of [L] and the
    opposites of these where there is only one possible opposite ([completed]).  The call
    panics if a relabelled link has the wrong type, a relabelled link has several possible
    opposites none of which is there, or a direct opposite is claimed by two nodes; and the
    counter of the new context has advanced by the number of nodes in any case. *)
Theorem C71_switch_bidirectional :
  forall {D} (E : env) (T : Prop) (g : graph D) (ctx : N) (c : idx),
  graph_of E T g -> bidi_fields E -> (c + N.of_nat (length (graph_iter g)) < usize_mod)%N ->
  exists L, NoDup L.*1 /\
    (forall x n, graph_get g x = Some n -> exists n', (new_index g c x, n') ∈ L /\ node_switched g (new_index g c) n n') /\
    (forall j n', (j, n') ∈ L -> exists x n, graph_get g x = Some n /\ j = new_index g c x /\ node_switched g (new_index g c) n n') /\
    match switch_context E g ctx c with
    | Done c' g' => c' = (c + N.of_nat (length (graph_iter g)))%N /\ g_ctx g' = ctx /\
        (forall i, is_Some (graph_get g' i) -> i ∈ L.*1) /\
        (forall i n, (i, n) ∈ L -> exists n', graph_get g' i = Some n' /\ agree_nonbidi E n n') /\
        (forall a b k, in_graph g' a b k <-> completed E L a b k) /\
        (forall x y l ny, entry_link L x y l -> (y, ny) ∈ L -> e_chk E (nvar ny) l = true)
    | Panicked p c' => c' = (c + N.of_nat (length (graph_iter g)))%N /\
        exists x y l ny, entry_link L x y l /\ (y, ny) ∈ L /\
        ((p = PLinkType /\ e_chk E (nvar ny) l = false) \/
         (p = PMultiChoice /\ 2 <= length (opposites_on E l (nvar ny)) /\
            forall k, k ∈ opposites_on E l (nvar ny) -> ~ entry_link L y x k) \/
         (p = PAddOccupied /\ exists k z, opposites_on E l (nvar ny) = [k] /\ linkkind E k = Some KDirect /\
            z <> x /\ completed E L y z k))
    end.
Proof.
  intros D E T g ctx c Hg Hbf Hroom. destruct (final_switch_bidi E T g ctx c Hg Hbf Hroom) as (L&(H1&H2&H3)&H).
  exists L. split; [done|]. split; [done|]. by split.
Qed.
Print Assumptions C71_switch_bidirectional.

(** the children 1 and 2 of 3 are listed as 2, 1 and become 1, 2: the set of 3 loses a member
    when it is relabelled, which the link of the child brings back *)
Definition E71b : env := E67 (fun _ l => l).
Definition s71b : list opn :=
  [ONewCtx 7; ONewGraph 0 0; ONewTrans 0 0; OInsert 0 (Node 1 [LDirect 3] []) 1; OInsert 0 (Node 1 [LDirect 3] []) 2;
   OInsert 0 (Node 2 [LSet SIndex []] []) 3; OCommit 0 0; ONewTrans 1 0; OUpdate 1 1 bump_upd; OCommit 0 1; ONewCtx 8]%N.
Example C71_case_bidirectional :
  graph_of E71b True (ex_g E71b s71b 0) /\ bidi_fields E71b /\
  graph_iter (ex_g E71b s71b 0) = [(2, Node 1 [LDirect 3] []); (1, Node 1 [LDirect 3] []); (3, Node 2 [LSet SIndex [1; 2]] [])]%N /\
  match switch_context E71b (ex_g E71b s71b 0) 8%N 0%N with
  | Done c' g' => c' = 3%N /\ graph_iter g' = [(1, Node 1 [LDirect 3] []); (2, Node 1 [LDirect 3] []); (3, Node 2 [LSet SIndex [2; 1]] [])]%N
  | Panicked _ _ => False
  end.
Proof.
  split; [apply (run_graph_of E71b True s71b 0); [unfold s71b; sides|vm_compute; reflexivity]|].
  split; [apply E67_fields|]. split; [computes|]. vm_compute. auto.
Qed.
(** 3 names 7 as its child, which is no node; the child 1 of 2 gets the index 7 *)
Definition s71c : list opn :=
  [ONewCtx 7; ONewGraph 0 0; ONewTrans 0 0; OInsert 0 (Node 1 [LDirect 2] []) 1; OInsert 0 (Node 2 [LSet SIndex []] []) 2;
   OInsert 0 (Node 2 [LSet SIndex [7]] []) 3; OCommit 0 0; ONewCtx 8]%N.
Example C71_case_claimed :
  graph_of E71b True (ex_g E71b s71c 0) /\ bidi_fields E71b /\
  graph_iter (ex_g E71b s71c 0) = [(1, Node 1 [LDirect 2] []); (2, Node 2 [LSet SIndex [1]] []); (3, Node 2 [LSet SIndex [7]] [])]%N /\
  switch_context E71b (ex_g E71b s71c 0) 8%N 6%N = Panicked PAddOccupied 9%N.
Proof.
  split; [apply (run_graph_of E71b True s71c 0); [unfold s71c; sides|vm_compute; reflexivity]|].
  split; [apply E67_fields|]. split; computes.
Qed.
