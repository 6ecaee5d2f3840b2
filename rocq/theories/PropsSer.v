(** * Property theorems: serialization and switch_context *)
From Verif Require Import ExTrans IdThreads SerFinal SwitchFinal PropsBidi.

(** indices handed out after the counter value [cnt], before it wraps around *)
Lemma deser_fresh dbg n cnt k i : (cnt + N.of_nat n < usize_mod)%N -> alloc_results dbg n cnt !! k = Some (Some i) -> (cnt < i)%N.
Proof.
  intros Hn Hk. assert (k < n) as Hkn.
  { destruct (decide (k < n)) as [|Hge]; [done|]. assert (forall m c, length (alloc_results dbg m c) = m) as Hlen.
    { clear. induction m as [|m IH]; intros c; [done|]. cbn [alloc_results]. destruct (dist_alloc dbg c); cbn; by rewrite IH. }
    apply lookup_lt_Some in Hk. rewrite Hlen in Hk. lia. }
  rewrite alloc_results_at in Hk by lia. cbv zeta in Hk. rewrite N.mod_small in Hk by lia.
  case_decide; [lia|]. injection Hk as <-. lia.
Qed.

(** ** C31 *)
Theorem C31_round_trip {D} E (g : graph D) : graph_of E True g -> bidi_symmetric E g ->
  exists cnt g', deserialize_graph E (serialize g) = Ok (cnt, g') /\
    g_ctx g' = g_ctx g /\ (forall i, graph_get g' i = graph_get g i) /\
    graph_iter g' = graph_iter g /\ (forall d, graph_iter_type g' d = graph_iter_type g d) /\
    (forall y x s, y <> 0%N ->
      (exists b, omap_get y (g_back g') = Some b /\ (x, s) ∈ b) <->
      (exists n, graph_get g' x = Some n /\ (y, s) ∈ iter_sources E n)) /\
    (forall n k i, (cnt + N.of_nat n < usize_mod)%N -> alloc_results (e_dbg E) n cnt !! k = Some (Some i) -> graph_get g' i = None).
Proof.
  intros Hg Hs. destruct (final_round_trip E True g Hg (symmetric_answered E g Hs)) as (cnt&g'&Hd&Hg'&Hc&Hget&Hit&Hle&Hlt).
  destruct (Hit I) as [Hi Ht].
  exists cnt, g'. split; [done|]. split; [done|]. split; [done|]. split; [done|]. split; [done|].
  split; [by apply (graph_index_exact E True)|]. intros n k i Hn Hk. apply deser_fresh in Hk; [|done].
  rewrite Hget. apply eq_None_not_Some. intros Hi'%Hle. lia.
Qed.
Print Assumptions C31_round_trip.
(** Closures that change variants: everything but the order. *)
Theorem C31_round_trip_any {D} E (g : graph D) : graph_of E False g -> bidi_symmetric E g ->
  exists cnt g', deserialize_graph E (serialize g) = Ok (cnt, g') /\ graph_of E False g' /\
    g_ctx g' = g_ctx g /\ (forall i, graph_get g' i = graph_get g i) /\
    (forall n k i, (cnt + N.of_nat n < usize_mod)%N -> alloc_results (e_dbg E) n cnt !! k = Some (Some i) -> graph_get g' i = None).
Proof.
  intros Hg Hs. destruct (final_round_trip E False g Hg (symmetric_answered E g Hs)) as (cnt&g'&Hd&Hg'&Hc&Hget&_&Hle&Hlt).
  exists cnt, g'. split; [done|]. split; [done|]. split; [done|]. split; [done|].
  intros n k i Hn Hk. apply deser_fresh in Hk; [|done]. rewrite Hget. apply eq_None_not_Some. intros Hi'%Hle. lia.
Qed.
Print Assumptions C31_round_trip_any.
Definition C31_g : graph nat := hc E1 bops.
Lemma C31_graph T : graph_of E1 T C31_g.
Proof. apply (run_graph_of E1 T (bops ++ [OCommit 0 1]) 0); [sides|]. vm_compute. reflexivity. Qed.
Example C31_case : graph_of E1 True C31_g /\ bidi_symmetric E1 C31_g /\ (graph_iter C31_g).*1 = [3; 4; 5; 6; 7; 2; 1]%N.
Proof.
  split; [apply C31_graph|]. split; [|computes].
  apply (bidi_symmetricb_sound E1 [Link 0 0; Link 1 1]); [apply (graph_of_ok E1 True), C31_graph|apply E1_support|computes].
Qed.

(** ** C32 *)
(** Full statement: for every reachable [g] and every allocation [i] of the new context,
    [i] is no node of [g] and no link of [g] points to [i]; and a transaction of one of
    the two contexts is rejected by the graphs of the other.  Missing below: links to
    indices without a node, and the separation of the contexts; both fail. *)
Theorem C32_nodes_not_reused_partial {D} E (g : graph D) : graph_of E False g -> bidi_symmetric E g ->
  exists cnt g', deserialize_graph E (serialize g) = Ok (cnt, g') /\
    forall n k i, (cnt + N.of_nat n < usize_mod)%N -> alloc_results (e_dbg E) n cnt !! k = Some (Some i) -> graph_get g i = None /\
      (closed g -> forall x nx, graph_get g x = Some nx -> ~ links_to nx i).
Proof.
  intros Hg Hs. destruct (final_round_trip E False g Hg (symmetric_answered E g Hs)) as (cnt&g'&Hd&_&_&_&_&Hle&Hlt).
  exists cnt, g'. split; [done|]. intros n k i Hn Hk. apply deser_fresh in Hk; [|done].
  assert (graph_get g i = None) as Hi. { apply eq_None_not_Some. intros Hi'%Hle. lia. }
  split; [done|]. intros Hcl x nx Hx Hl. destruct (Hcl x nx i Hx Hl) as [? ?]. congruence.
Qed.
Print Assumptions C32_nodes_not_reused_partial.
(** A node links to an index that another open transaction has reserved; the graph is
    serialized; the context of the deserialized graph hands out that index again. *)
Definition C32_ops : list opn :=
  [ONewCtx 7; ONewGraph 0 0; ONewTrans 0 0; ONewTrans 1 0; OAlloc 0 0 1; OAlloc 1 0 2; OFill 0 1 (nA 2 [] [] 1); OCommit 0 0]%N.
Definition C32_g : graph nat := ex_g E0 C32_ops 0.
Lemma C32_graph T : graph_of E0 T C32_g.
Proof. apply (run_graph_of E0 T C32_ops 0); [sides|]. vm_compute. reflexivity. Qed.
Theorem C32_link_targets_refuted : exists (g : graph nat) cnt g' x n i,
  graph_of E0 True g /\ deserialize_graph E0 (serialize g) = Ok (cnt, g') /\
  graph_get g x = Some n /\ links_to n i /\ alloc_results true 1 cnt = [Some i].
Proof.
  exists C32_g. do 5 eexists. split; [apply C32_graph|]. split; [vm_compute; reflexivity|].
  split; [instantiate (2 := 1%N); vm_compute; reflexivity|].
  split; [exists (Link 0 0); split; [|split; [reflexivity|]; eexists; split; [vm_compute; reflexivity|left]]; discriminate|].
  vm_compute. reflexivity.
Qed.
Print Assumptions C32_link_targets_refuted.
(** A transaction of the deserialized context is accepted by the original graph, also in
    a debug build, and overwrites a node that it has never heard of. *)
Definition C32_mix : list opn :=
  [ONewCtx 7; ONewGraph 0 0; ONewTrans 0 0; OInsert 0 (nB 0 [] 1) 1; OCommit 0 0;
   ODeser 1 (GSerial 7 [(1, nB 0 [] 1)]);
   ONewTrans 1 0; OInsert 1 (nA 1 [] [] 2) 2; OCommit 0 1;
   ONewTrans 2 1; OInsert 2 (nB 0 [] 3) 2]%N.
Theorem C32_contexts_mix_refuted : exists (w : world (D:=nat)) lg g t c c' g',
  lreach E0 True w lg /\ e_dbg E0 = true /\ w_graphs w !! 0 = Some (c, g) /\ w_trans w !! 2 = Some (c', t) /\ c <> c' /\
  lg 2 = [EvCall 2 (CInsert (nB 0 [] 3))]%N /\ commit E0 t g = Done g' tt /\
  graph_get g 2%N = Some (nA 1 [] [] 2)%N /\ graph_get g' 2%N = Some (nB 0 [] 3).
Proof.
  exists (the_w (run_lw E0 C32_mix)), (the_lg (run_lw E0 C32_mix)). do 5 eexists. split; [apply run_lw_lreach; [sides|runs]|].
  split; [done|]. split; [vm_compute; reflexivity|]. split; [vm_compute; reflexivity|]. split; [done|]. split; [computes|].
  split; [vm_compute; reflexivity|]. split; computes.
Qed.
Print Assumptions C32_contexts_mix_refuted.

(** ** C33 *)
Theorem C33_duplicates_rejected {D} E (s : gserial D) :
  (forall l, e_opp E l = []) -> (forall i n, (i, n) ∈ gs_nodes s -> node_ok E n) ->
  ((exists p, deserialize_graph E s = Err p) <-> ~ NoDup (gs_nodes s).*1) /\
  (NoDup (gs_nodes s).*1 <-> exists cnt g, deserialize_graph E s = Ok (cnt, g)).
Proof.
  intros Ho Hok. destruct (deserialize_dup E s Ho Hok) as [H1 H2]. split; [|by rewrite H1].
  split; [|intros Hn; eexists; by apply H2]. intros [p Hp] Hnd. apply H1 in Hnd as (?&?&Heq). congruence.
Qed.
Print Assumptions C33_duplicates_rejected.
(** what a graph rebuilt from distinct entries holds *)
Theorem C33_exactly_the_entries {D} E (s : gserial D) cnt g :
  (forall l, e_opp E l = []) -> (forall i n, (i, n) ∈ gs_nodes s -> node_ok E n /\ i <> 0%N) ->
  deserialize_graph E s = Ok (cnt, g) ->
  g_ctx g = gs_ctx s /\ (forall i n, graph_get g i = Some n <-> (i, n) ∈ gs_nodes s).
Proof. intros. by apply (deserialize_exact E s cnt). Qed.
Print Assumptions C33_exactly_the_entries.
Example C33_case :
  let l := [(4, nB 0 [9] 1); (2, nA 4 [4] [2; 4] 2)]%N in let l' := l ++ [(4, nB 0 [] 3)]%N in
  (forall k, e_opp E0 k = []) /\ (forall i n, (i, n) ∈ l' -> node_ok E0 n) /\ NoDup l.*1 /\ ~ NoDup l'.*1.
Proof.
  cbn zeta. split; [done|]. split.
  - intros i n Hin. apply (node_okb_sound E0). apply elem_of_list_In in Hin. cbn in Hin.
    destruct Hin as [Heq|[Heq|[Heq|[]]]]; injection Heq as _ <-; computes.
  - split; [decides|]. refine (proj1 (bool_decide_eq_false _) _). computes.
Qed.

(** ** C34 *)
(** Full statement: for every closed graph [g], every context id and counter [c], the
    result is [g] renamed by a bijection onto indices new in the context.  It fails (see
    below); missing here: sets that contain an index [i] and another node whose new
    index is [i]. *)
Theorem C34_renames_partial {D} E (g : graph D) ctx c : graph_of E False g -> bidi_symmetric E g -> closed g ->
  (c + N.of_nat (length (graph_iter g)) < usize_mod)%N ->
  (forall y n fld k l x i, graph_get g y = Some n -> nlinks n !! fld = Some (LSet k l) -> x ∈ l -> i ∈ l ->
    is_Some (graph_get g x) -> is_Some (graph_get g i) -> new_index g c x = i -> x = i) ->
  let f := new_index g c in
  match switch_context E g ctx c with
  | Done c' g' => c' = (c + N.of_nat (length (graph_iter g)))%N /\ g_ctx g' = ctx /\
      (forall x, is_Some (graph_get g x) -> (c < f x <= c')%N) /\
      (forall x x', is_Some (graph_get g x) -> is_Some (graph_get g x') -> f x = f x' -> x = x') /\
      (forall x n, graph_get g x = Some n -> exists n', graph_get g' (f x) = Some n' /\ node_renamed (fun _ _ => f) n n') /\
      (forall j, is_Some (graph_get g' j) -> exists x, is_Some (graph_get g x) /\ j = f x)
  | Panicked p _ => p = PLinkType /\
      exists x y nx ny l, graph_get g x = Some nx /\ graph_get g y = Some ny /\ has_link nx l y /\ e_chk E (nvar ny) l = false
  end.
Proof.
  intros Hg Hs Hcl Hroom Hsets f.
  pose proof (final_switch E False g ctx c Hg (symmetric_answered E g Hs) Hroom Hsets) as H.
  assert (forall x, is_Some (graph_get g x) -> (c < f x <= c + N.of_nat (length (graph_iter g)))%N) as Hr.
  { intros x. by apply (new_index_range E False). }
  assert (forall x x', is_Some (graph_get g x) -> is_Some (graph_get g x') -> f x = f x' -> x = x') as Hi.
  { intros x x'. by apply (new_index_inj E False). }
  destruct (switch_context E g ctx c) as [c' g'|p c'].
  - destruct H as (->&Hc&H1&H2). { intros y n l x Hy Hl Hx. destruct (Hcl y n x Hy) as [? ?]; [by exists l|congruence]. }
    split; [done|]. split; [done|]. split; [done|]. split; [done|]. done.
  - apply H. intros y n l x Hy Hl Hx. destruct (Hcl y n x Hy) as [? ?]; [by exists l|congruence].
Qed.
Print Assumptions C34_renames_partial.
(** graphs whose indices are not among the new ones *)
Theorem C34_renames_apart_partial {D} E (g : graph D) ctx c : graph_of E False g -> bidi_symmetric E g ->
  (c + N.of_nat (length (graph_iter g)) < usize_mod)%N ->
  (forall x n i, graph_get g x = Some n -> i = x \/ links_to n i -> ~ (c < i <= c + N.of_nat (length (graph_iter g)))%N) ->
  (forall x y nx ny l, graph_get g x = Some nx -> graph_get g y = Some ny -> has_link nx l y -> e_chk E (nvar ny) l = true) ->
  exists g', switch_context E g ctx c = Done (c + N.of_nat (length (graph_iter g)))%N g' /\ g_ctx g' = ctx /\
    (forall x n, graph_get g x = Some n -> exists n', graph_get g' (new_index g c x) = Some n' /\ node_renamed (fun _ _ => new_index g c) n n') /\
    (forall j, is_Some (graph_get g' j) -> exists x, is_Some (graph_get g x) /\ j = new_index g c x).
Proof.
  intros Hg Hs Hroom Hap Hty.
  pose proof (final_switch E False g ctx c Hg (symmetric_answered E g Hs) Hroom) as H.
  destruct (switch_context E g ctx c) as [c' g'|p c'].
  - destruct H as (->&Hc&H1&H2); [| |by exists g'].
    + intros y n fld k l x i Hy Hl Hx Hi Hgx [ni Hgi] Hn. destruct (Hap i ni i Hgi (or_introl eq_refl)). subst i.
      by apply (new_index_range E False).
    + intros y n l x Hy Hl _. apply (Hap y n x Hy). right. by exists l.
  - destruct H as (_&x&y&nx&ny&l&Hx&Hy&Hl&Hf); [| |rewrite (Hty x y nx ny l Hx Hy Hl) in Hf; done].
    + intros y n fld k l x i Hy Hl Hx Hi Hgx [ni Hgi] Hn. destruct (Hap i ni i Hgi (or_introl eq_refl)). subst i.
      by apply (new_index_range E False).
    + intros y n l x Hy Hl _. apply (Hap y n x Hy). right. by exists l.
Qed.
Print Assumptions C34_renames_apart_partial.

(** checked by computation on a concrete graph *)
Definition sets_apartb (g : graph nat) (c : idx) : bool :=
  forallb (fun '(_, n) => forallb (fun lv => match lv with
    | LSet _ l => forallb (fun x => forallb (fun i => negb (new_index g c x =? i)%N || (x =? i)%N) l) l
    | _ => true end) (nlinks n)) (graph_iter g).
Lemma sets_apartb_sound E g c : WF E g -> sets_apartb g c = true -> sets_apart g c.
Proof.
  intros Hwf Hb y n fld k l x i Hy Hl Hx Hi _ _ Hn. unfold sets_apartb in Hb. rewrite forallb_forall in Hb.
  apply (items_get E g Hwf) in Hy. specialize (Hb _ Hy). cbn in Hb. rewrite forallb_forall in Hb.
  apply elem_of_list_lookup_2, elem_of_list_In in Hl. specialize (Hb _ Hl). cbn in Hb. rewrite forallb_forall in Hb.
  apply elem_of_list_In in Hx, Hi. specialize (Hb _ Hx). rewrite forallb_forall in Hb. specialize (Hb _ Hi).
  rewrite (proj2 (N.eqb_eq _ _) Hn) in Hb. cbn in Hb. by apply N.eqb_eq.
Qed.
Definition closedb (g : graph nat) : bool :=
  forallb (fun '(_, n) => forallb (fun '(l, y) => match graph_get g y with Some _ => true | None => false end) (node_links n)) (graph_iter g).
Lemma closedb_sound E g : WF E g -> closedb g = true -> closed g.
Proof.
  intros Hwf Hb x n y Hx [l Hl]. unfold closedb in Hb. rewrite forallb_forall in Hb.
  apply (items_get E g Hwf) in Hx. specialize (Hb _ Hx). cbn in Hb. rewrite forallb_forall in Hb.
  apply elem_node_links, elem_of_list_In in Hl. specialize (Hb _ Hl). cbn in Hb. destruct (graph_get g y); [eauto|done].
Qed.
Lemma all_nodesb_sound E (g : graph nat) (P : idx -> node nat -> bool) : WF E g ->
  forallb (fun kv => P kv.1 kv.2) (graph_iter g) = true -> forall i n, graph_get g i = Some n -> P i n = true.
Proof. intros Hwf Hb i n Hi. apply (items_get E g Hwf) in Hi. rewrite forallb_forall in Hb. apply (Hb _ Hi). Qed.
Lemma busy_graph_of T : graph_of E0 T busy_g'.
Proof. apply (run_graph_of E0 T (busy ++ [OCommit 0 1]) 0); [unfold busy, setup; sides|]. vm_compute. reflexivity. Qed.
Definition sw_g (o : out idx (graph nat)) : graph nat := match o with Done _ g => g | Panicked _ _ => graph_new E0 0 end.
(** a new context, old and new indices overlap *)
Example C34_case :
  graph_of E0 False busy_g' /\ bidi_symmetric E0 busy_g' /\ closed busy_g' /\ sets_apart busy_g' 0%N /\
  (graph_iter busy_g').*1 = [2; 3; 5; 4; 6]%N /\
  graph_iter (sw_g (switch_context E0 busy_g' 8%N 0%N)) =
    [(1, nA 4 [4] [4; 0; 4] 102); (2, nA 1 [1; 4] [1] 3); (3, nA 0 [1] [1; 1] 105); (4, nB 0 [] 104); (5, nB 3 [1] 6)]%N.
Proof.
  assert (WF E0 busy_g') as Hwf by apply (graph_of_ok E0 False), busy_graph_of.
  split; [apply busy_graph_of|]. split; [by intros ? ? ? ? ? ? _ _ ?%elem_of_nil|]. split; [apply (closedb_sound E0 _ Hwf); computes|].
  split; [apply (sets_apartb_sound E0 _ _ Hwf); computes|]. split; computes.
Qed.
Example C34_case_apart :
  graph_of E0 False busy_g' /\ bidi_symmetric E0 busy_g' /\
  (forall x n i, graph_get busy_g' x = Some n -> i = x \/ links_to n i -> ~ (40 < i <= 40 + N.of_nat (length (graph_iter busy_g')))%N).
Proof.
  assert (WF E0 busy_g') as Hwf by apply (graph_of_ok E0 False), busy_graph_of.
  split; [apply busy_graph_of|]. split; [by intros ? ? ? ? ? ? _ _ ?%elem_of_nil|].
  assert (forall x, is_Some (graph_get busy_g' x) -> (x < 10)%N) as Hsm.
  { intros x [n Hx]. apply N.ltb_lt. eapply (all_nodesb_sound E0 _ (fun i _ => i <? 10)%N Hwf); [computes|exact Hx]. }
  intros x n i Hx Hi. assert (is_Some (graph_get busy_g' i)) as Hgi.
  { destruct Hi as [->|Hl]; [by rewrite Hx|]. eapply (closedb_sound E0 _ Hwf); [computes|exact Hx|done]. }
  apply Hsm in Hgi. lia.
Qed.

(** Two nodes and a brand-new context: B 1, and A 2 with peers = {1, 2}.  The new indices
    are 2 |-> 1 and 1 |-> 2; replacing 2 by 1 in the set {1, 2} merges the two links. *)
Definition C34_ops : list opn :=
  [ONewCtx 7; ONewGraph 0 0; ONewTrans 0 0; OInsert 0 (nB 0 [] 1) 1; OInsert 0 (nA 0 [1; 2] [] 2) 2; OCommit 0 0; ONewCtx 8]%N.
Definition C34_g : graph nat := ex_g E0 C34_ops 0.
Theorem C34_isomorphic_refuted : exists (g : graph nat) g',
  graph_of E0 True g /\ bidi_symmetric E0 g /\ closed g /\ switch_context E0 g 8%N 0%N = Done 2%N g' /\
  ~ exists f : idx -> idx, (forall x x', is_Some (graph_get g x) -> is_Some (graph_get g x') -> f x = f x' -> x = x') /\
      forall x n, graph_get g x = Some n -> exists n', graph_get g' (f x) = Some n' /\ node_renamed (fun _ _ => f) n n'.
Proof.
  assert (graph_of E0 True C34_g) as Hg. { apply (run_graph_of E0 True C34_ops 0); [sides|]. vm_compute. reflexivity. }
  assert (WF E0 C34_g) as Hwf by by apply (graph_of_ok E0 True).
  exists C34_g, (sw_g (switch_context E0 C34_g 8%N 0%N)). split; [done|]. split; [by intros ? ? ? ? ? ? _ _ ?%elem_of_nil|].
  split; [apply (closedb_sound E0 _ Hwf); computes|]. split; [computes|]. intros (f&Hinj&Hf).
  assert (WF E0 (sw_g (switch_context E0 C34_g 8%N 0%N))) as Hwf'.
  { pose proof (switch_context_wf E0 C34_g 8%N 0%N Hwf eq_refl) as H.
    destruct (switch_context E0 C34_g 8%N 0%N) as [c' g'|p c'] eqn:Hs; [|vm_compute in Hs; discriminate]. apply H. }
  assert (graph_get C34_g 2%N = Some (nA 0 [1; 2] [] 2)%N) as H2 by computes.
  assert (is_Some (graph_get C34_g 1%N)) as H1 by (vm_compute; eauto).
  destruct (Hf _ _ H2) as (n'&Hn'&(_&_&_&Hfl)). destruct (Hfl 1 _ eq_refl) as (lv'&Hlv'&Hr).
  destruct lv' as [|k l|]; try done. cbn in Hr. destruct Hr as (_&_&Hz).
  assert (length l <= 1) as Hlen.
  { apply Nat.leb_le. set (P := fun (_ : idx) (n : node nat) => match nlinks n !! 1 with Some (LSet _ l) => length l <=? 1 | _ => true end).
    assert (P (f 2%N) n' = true) as Hb; [|by unfold P in Hb; rewrite Hlv' in Hb].
    eapply (all_nodesb_sound E0 _ P Hwf'); [computes|exact Hn']. }
  assert (f 1%N ∈ l) as Hi1. { apply Hz. exists 1%N. split; [left|done]. }
  assert (f 2%N ∈ l) as Hi2. { apply Hz. exists 2%N. split; [right; left|done]. }
  assert (f 1%N = f 2%N) as Heq.
  { destruct l as [|a [|b l]]; [by apply elem_of_nil in Hi1| |cbn in Hlen; lia].
    apply elem_of_list_singleton in Hi1, Hi2. congruence. }
  assert (1 = 2)%N; [|done]. apply Hinj; [done|by rewrite H2|done].
Qed.
Print Assumptions C34_isomorphic_refuted.
