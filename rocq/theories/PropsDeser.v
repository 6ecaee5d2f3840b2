(** * Deserialization of data with bidirectional links and link types (C68) *)
From Verif Require Import Deser ExHist Decide DecideValid PropsGraph PropsBidi PropsFindings PropsExact.

(** C68.  Deserializing any entries: what the graph holds.  Every entry gives a node with
    the same variant, the same data and the same values in the fields not declared
    bidirectional; there are no other nodes; and the links are those of the entries together
    with the missing opposites, where there is only one possible opposite. *)
Theorem C68_links_exact : forall {D} (E : env) (s : gserial D) cnt g,
  (forall l k, k ∈ e_opp E l -> nonvec E l) -> (forall i n, (i, n) ∈ gs_nodes s -> node_ok E n /\ i <> 0%N) ->
  deserialize_graph E s = Ok (cnt, g) ->
  g_ctx g = gs_ctx s /\ (forall i, is_Some (graph_get g i) -> i ∈ (gs_nodes s).*1) /\
  (forall i n, (i, n) ∈ gs_nodes s -> exists n', graph_get g i = Some n' /\ agree_nonbidi E n n') /\
  (forall a b k, in_graph g a b k <-> completed E (gs_nodes s) a b k).
Proof. intros. by eapply final_deser_links. Qed.
Print Assumptions C68_links_exact.

(** C68.  When it succeeds: the indices are distinct, and no direct opposite is claimed by
    two nodes. *)
Theorem C68_success_exact : forall {D} (E : env) (s : gserial D),
  bidi_fields E -> (forall i n, (i, n) ∈ gs_nodes s -> node_ok E n /\ i <> 0%N) -> (forall l v, length (opposites_on E l v) <= 1) ->
  (exists cnt g, deserialize_graph E s = Ok (cnt, g)) <-> NoDup (gs_nodes s).*1 /\ unclaimed E (gs_nodes s).
Proof. intros. by apply final_deser_success. Qed.
Print Assumptions C68_success_exact.
(** the two ways it fails *)
Theorem C68_failures : forall {D} (E : env) (s : gserial D) p,
  bidi_fields E -> (forall i n, (i, n) ∈ gs_nodes s -> node_ok E n /\ i <> 0%N) -> (forall l v, length (opposites_on E l v) <= 1) ->
  deserialize_graph E s = Err p ->
  (p = PDupIndex /\ ~ NoDup (gs_nodes s).*1) \/ (p = PAddOccupied /\ NoDup (gs_nodes s).*1 /\ ~ unclaimed E (gs_nodes s)).
Proof. intros. by apply final_deser_fails. Qed.
Print Assumptions C68_failures.

(** C68.  The graph is symmetric whatever the entries were, so writing it and reading it
    back changes nothing any more (C31). *)
Theorem C68_symmetric : forall {D} (E : env) (s : gserial D) cnt g,
  single_choice E -> (forall i n, (i, n) ∈ gs_nodes s -> node_ok E n /\ i <> 0%N) ->
  deserialize_graph E s = Ok (cnt, g) -> bidi_symmetric E g.
Proof. intros. by eapply final_deser_symmetric. Qed.
Print Assumptions C68_symmetric.

(** C68, link types.  They hold if they held in the entries. *)
Theorem C68_typed_partial : forall {D} (E : env) (s : gserial D) cnt g,
  (forall l k, k ∈ e_opp E l -> nonvec E l) -> bidi_typed E -> (forall i n, (i, n) ∈ gs_nodes s -> node_ok E n /\ i <> 0%N) ->
  (forall x y n l, (y, n) ∈ gs_nodes s -> entry_link (gs_nodes s) x y l -> e_chk E (nvar n) l = true) ->
  deserialize_graph E s = Ok (cnt, g) -> all_typed E g.
Proof. intros D E s cnt g H1 H2 H3 H4 H5. exact (final_deser_typed E s cnt g H1 H2 H3 H4 H5). Qed.
Print Assumptions C68_typed_partial.

Definition entries_typedb (E : env) (L : list (idx * node nat)) : bool :=
  forallb (fun e => forallb (fun '(l, z) => forallb (fun f => implb (fst f =? z)%N (e_chk E (nvar (snd f)) l)) L) (node_links (snd e))) L.
Lemma entries_typedb_sound E L : entries_typedb E L = true -> forall x y n l, (y, n) ∈ L -> entry_link L x y l -> e_chk E (nvar n) l = true.
Proof.
  unfold entries_typedb. rewrite forallb_forall. intros H x y n l Hy (m&Hm&Hl). apply elem_of_list_In in Hm, Hy.
  specialize (H _ Hm). rewrite forallb_forall in H. apply elem_node_links, elem_of_list_In in Hl. specialize (H _ Hl). cbn in H.
  rewrite forallb_forall in H. specialize (H _ Hy). cbn in H. by rewrite N.eqb_refl in H.
Qed.
(** A node lists 2 as a user, and 3 names it as next; one opposite is missing in each
    direction.  In [l68b] two nodes claim the next link of 2. *)
Definition l68 : list (idx * node nat) := [(2, nA 0 [] [9] 2); (1, nB 0 [2] 1); (3, nA 1 [2] [] 3)]%N.
Definition l68b : list (idx * node nat) := [(2, nA 0 [] [] 2); (1, nB 0 [2] 1); (3, nB 0 [2] 3)]%N.
Definition g68 : graph nat := match deserialize_graph E1 (GSerial 7 l68) with Ok (_, g) => g | Err _ => graph_new E1 0 end.
Lemma l68_ok : forall i n, (i, n) ∈ gs_nodes (GSerial 7%N l68) -> node_ok E1 n /\ i <> 0%N.
Proof.
  intros i n Hin. change (gs_nodes _) with l68 in Hin. unfold l68 in Hin. rewrite !elem_of_cons, elem_of_nil in Hin. destruct Hin as [[= -> ->]|[[= -> ->]|[[= -> ->]|[]]]]; (split; [|done]).
  all: eexists; (split; [reflexivity|]); repeat constructor; cbn; first [done|apply NoDup_nil_2|apply NoDup_singleton|apply not_elem_of_nil|set_solver].
Qed.
Lemma l68b_ok : forall i n, (i, n) ∈ gs_nodes (GSerial 7%N l68b) -> node_ok E1 n /\ i <> 0%N.
Proof.
  intros i n Hin. change (gs_nodes _) with l68b in Hin. unfold l68b in Hin. rewrite !elem_of_cons, elem_of_nil in Hin. destruct Hin as [[= -> ->]|[[= -> ->]|[[= -> ->]|[]]]]; (split; [|done]).
  all: eexists; (split; [reflexivity|]); repeat constructor; cbn; first [done|apply NoDup_nil_2|apply NoDup_singleton|apply not_elem_of_nil|set_solver].
Qed.
Example C68_case :
  bidi_fields E1 /\ single_choice E1 /\ bidi_typed E1 /\ (forall l v, length (opposites_on E1 l v) <= 1) /\
  (forall i n, (i, n) ∈ l68 -> node_ok E1 n /\ i <> 0%N) /\ deserialize_graph E1 (GSerial 7 l68) = Ok (3, g68)%N /\
  graph_iter g68 = [(2, nA 1 [] [9] 2); (3, nA 1 [2] [] 3); (1, nB 0 [2; 3] 1)]%N /\
  (forall x y n l, (y, n) ∈ l68 -> entry_link l68 x y l -> e_chk E1 (nvar n) l = true) /\
  (forall i n, (i, n) ∈ l68b -> node_ok E1 n /\ i <> 0%N) /\ deserialize_graph E1 (GSerial 7 l68b) = Err PAddOccupied.
Proof.
  split; [apply E1_fields|]. split; [apply E1_single|]. split; [intros l k [[-> ->]|[-> ->]]%opp1_inv; computes|].
  split; [apply E1_one|]. split; [apply l68_ok|]. split; [computes|]. split; [computes|]. split; [|split; [apply l68b_ok|computes]].
  apply entries_typedb_sound. computes.
Qed.

(** Without that condition they need not hold: deserialization does not check link types.
    The same nodes inserted into an empty graph of the same schema are refused. *)
Definition l68t : list (idx * node nat) := [(1, nA 0 [] [] 1); (2, nA 1 [] [] 2)]%N.
Definition e68t : list opn := [ONewCtx 7; ONewGraph 0 0; ONewTrans 0 0; OInsert 0 (nA 0 [] [] 1) 1; OInsert 0 (nA 1 [] [] 2) 2]%N.
Theorem C68_link_types_refuted : exists (s : gserial nat) cnt g,
  (forall l k, k ∈ e_opp E1 l -> nonvec E1 l) /\ bidi_typed E1 /\ (forall i n, (i, n) ∈ gs_nodes s -> node_ok E1 n /\ i <> 0%N) /\
  deserialize_graph E1 s = Ok (cnt, g) /\ ~ all_typed E1 g /\
  exists g0 t s0 g', history E1 True g0 t s0 /\ graph_iter g0 = [] /\ (forall i n, ts_new s0 !! i = Some n <-> (i, n) ∈ gs_nodes s) /\
    commit E1 t g0 = Panicked PLinkType g'.
Proof.
  exists (GSerial 7%N l68t). do 2 eexists. split; [intros l k [[-> _]|[-> _]]%opp1_inv; vm_compute; done|].
  split; [intros l k [[-> ->]|[-> ->]]%opp1_inv; computes|]. split.
  { intros i n Hin. change (gs_nodes _) with l68t in Hin. unfold l68t in Hin. rewrite !elem_of_cons, elem_of_nil in Hin. destruct Hin as [[= -> ->]|[[= -> ->]|[]]]; (split; [|done]).
    all: eexists; (split; [reflexivity|]); repeat constructor; done. }
  split; [vm_compute; reflexivity|]. split.
  { intros Ha. assert (e_chk E1 0 (Link 0 0) = true) as H; [|vm_compute in H; done].
    apply (Ha 2 1 (nA 1 [] [] 2) (nA 0 [] [] 1) (Link 0 0))%N; [computes|apply has_linkb_spec; computes|computes]. }
  exists (kg E1 e68t 0), (kt E1 e68t 0), (ks E1 e68t 0). eexists.
  split; [hist|]. split; [computes|].
  split. { intros i n. rewrite <- elem_of_map_to_list. assert (map_to_list (ts_new (ks E1 e68t 0)) = l68t) as -> by computes. reflexivity. }
  vm_compute. reflexivity.
Qed.
Print Assumptions C68_link_types_refuted.
