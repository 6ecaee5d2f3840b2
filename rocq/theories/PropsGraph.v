(** * Property theorems: the reverse-link index and iteration *)
From Verif Require Import GraphFinal ExHist.

(** C07.  In every graph of every history, the pair (source node, link field and
    position) is recorded under a non-empty target exactly if the node really holds
    that target there. *)
Theorem C07_reverse_index_exact {D} E (g : graph D) : graph_of E False g ->
  forall y x s, y <> 0%N ->
    (exists b, omap_get y (g_back g) = Some b /\ (x, s) ∈ b) <->
    (exists n, graph_get g x = Some n /\ (y, s) ∈ iter_sources E n).
Proof. apply graph_index_exact. Qed.
Print Assumptions C07_reverse_index_exact.

(** C07, second part: the debugging call does not panic. *)
Theorem C07_check_backlinks_passes {D} E (g : graph D) : graph_of E False g ->
  no_empty_in_sets g -> check_backlinks E g = true.
Proof. apply graph_check_backlinks. Qed.
Print Assumptions C07_check_backlinks_passes.

Lemma busy_graph T : graph_of E0 T busy_g'.
Proof.
  apply (run_graph_of E0 T (busy ++ [OCommit 0 1]) 0); [unfold busy, setup; sides|]. vm_compute. reflexivity.
Qed.
Example C07_case : graph_of E0 False busy_g' /\ no_empty_in_sets busy_g' /\ no_empty_in_sets busy_g.
Proof.
  split; [apply busy_graph|]. split.
  - apply (no_empty_in_setsb_sound E0); [by apply (graph_of_ok E0 False), busy_graph|computes].
  - apply (no_empty_in_setsb_sound E0); [|computes].
    apply (graph_of_ok E0 False), (run_graph_of E0 False setup 0); [sides|vm_compute; reflexivity].
Qed.
(** what the index then holds under node 2: three places in node 3 (its direct link, its
    set, its vector), both vector positions and the set of node 5, and the set of node 6 *)
Example C07_case_content : omap_get 2%N (g_back busy_g') = Some
  [(3%N, Src 0 0 None); (3%N, Src 0 1 None); (3%N, Src 0 2 (Some 0)); (5%N, Src 0 2 (Some 1));
   (6%N, Src 1 1 None); (5%N, Src 0 1 None); (5%N, Src 0 2 (Some 0))].
Proof. computes. Qed.

(** C13.  [l] is what a new iterator returns, call after call, before its first [None]. *)
Theorem C13_get_iter_len_agree {D} E (g : graph D) : graph_of E False g ->
  exists l it, iter_steps (S (length l)) (iter_start (g_nodes g)) = Some ((Some <$> l) ++ [None], it) /\
  graph_iter g = l /\
  (forall i n, (i, n) ∈ l <-> graph_get g i = Some n) /\ NoDup l.*1 /\
  graph_len g = length l /\ (graph_is_empty g = true <-> forall i, graph_get g i = None).
Proof.
  intros Hg. destruct (iter_drain_items (g_nodes g) (S (length (graph_iter g)))) as (it&Hit&_).
  exists (graph_iter g), it. split; [|split; [done|by eapply graph_iter_agree]]. rewrite Hit. do 2 f_equal.
  rewrite seq_S, fmap_app. cbn. f_equal; [|by rewrite lookup_ge_None_2].
  unfold graph_iter, arena_items. apply list_eq. intros j. rewrite !list_lookup_fmap.
  destruct (concat (a_cont (g_nodes g)) !! j) as [x|] eqn:Hx.
  - rewrite lookup_seq_lt by by eapply lookup_lt_Some. cbn. by rewrite Hx.
  - rewrite lookup_seq_ge; [done|]. by apply lookup_ge_None.
Qed.
Print Assumptions C13_get_iter_len_agree.
Example C13_case : graph_of E0 False busy_g' /\ (graph_iter busy_g').*1 = [2; 3; 5; 4; 6]%N /\ graph_len busy_g' = 5.
Proof. split; [apply busy_graph|]. split; computes. Qed.

(** C14.  [k] calls of [next] on a new iterator return the first [k] elements of the
    containers in declaration order (and [None] from the end on, for ever); the size
    hint is then exact. *)
Theorem C14_iterator_exact_fused {D} (a : arena D) (k : nat) :
  exists it, iter_steps k (iter_start a) = Some ((fun j => concat (a_cont a) !! j) <$> seq 0 k, it) /\
    iter_size_hint it = length (concat (a_cont a)) - k.
Proof. apply iter_drain_items. Qed.
Print Assumptions C14_iterator_exact_fused.
Example C14_case :
  match iter_steps 7 (iter_start (g_nodes busy_g')) with
  | Some (l, it) => (map (option_map fst) l, iter_size_hint it)
  | None => ([], 99)
  end = ([Some 2; Some 3; Some 5; Some 4; Some 6; None; None]%N, 0).
Proof. computes. Qed.

(** C15, for histories whose mutate/update closures keep the variant of the node. *)
Theorem C15_iter_type_exact_partial {D} E (g : graph D) : graph_of E True g -> forall d,
  (forall i n, (i, n) ∈ graph_iter_type g d <-> graph_get g i = Some n /\ nvar n = d) /\
  NoDup (graph_iter_type g d).*1 /\ iter_nodes g d = Ok (graph_iter_type g d).
Proof. apply graph_iter_type_exact. Qed.
Print Assumptions C15_iter_type_exact_partial.
Example C15_case : graph_of E0 True busy_g' /\ (graph_iter_type busy_g' 0).*1 = [2; 3; 5]%N /\
  (graph_iter_type busy_g' 1).*1 = [4; 6]%N.
Proof. split; [apply busy_graph|]. split; computes. Qed.

(** C15 without the proviso is false: an update closure that returns another variant
    leaves the node in the container of its old variant.  [iter_type] then yields it for
    the wrong variant and not for the right one, and [iter_nodes!] panics. *)
Definition to_A : upd_fn nat := fun n => Ok (nA 0 [] [] 9).
Definition changed : list opn := setup ++ [ONewTrans 1 0; OUpdate 1 4 to_A; OCommit 0 1]%N.
Definition changed_g : graph nat := match run_graph E0 changed 0 with Some g => g | None => graph_new E0 0 end.
Lemma to_A_ok E : e_kinds E = ex_kinds -> upd_ok E False to_A.
Proof.
  intros HE n n' Hok Hn'. injection Hn' as <-. split; [|by intros []]. exists [KDirect; KSet SBTree; KVec].
  split; [by rewrite HE|]. repeat constructor.
Qed.
Theorem C15_iter_type_refuted : exists g : graph nat, graph_of E0 False g /\
  graph_get g 4 = Some (nA 0 [] [] 9) /\
  4%N ∈ (graph_iter_type g 1).*1 /\ 4%N ∉ (graph_iter_type g 0).*1 /\
  iter_nodes g 1 = Err PTypeMacro.
Proof.
  exists changed_g. split.
  - apply (run_graph_of E0 False changed 0); [|vm_compute; reflexivity]. unfold changed, setup.
    repeat (constructor; [first [exact I|by apply to_A_ok]|]); constructor.
  - split; [computes|]. split; [decides|]. split; [decides|computes].
Qed.
Print Assumptions C15_iter_type_refuted.

(** C17 is false: [iter] goes variant by variant, and within a variant in an order that
    [update] changes. *)
Theorem C17_iter_index_order_refuted : exists g : graph nat, graph_of E0 True g /\
  (graph_iter g).*1 = [2; 3; 1; 4]%N.
Proof.
  exists busy_g. split; [|computes].
  apply (run_graph_of E0 True setup 0); [sides|vm_compute; reflexivity].
Qed.
Print Assumptions C17_iter_index_order_refuted.
