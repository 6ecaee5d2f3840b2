(** * Properties of bidirectional links, link types and checked commits: C18, C20 - C22,
      C24, C26, C28, C29 *)
From Verif Require Import ExHist Decide.

(** The histories used below: schema [E1] declares A.next <-> B.users, with link types. *)
Definition bsetup : list opn :=
  [ONewCtx 7; ONewGraph 0 0; ONewTrans 0 0;
   OInsert 0 (nB 0 [] 1) 1; OInsert 0 (nB 0 [] 2) 2; OInsert 0 (nA 1 [] [] 3) 3; OInsert 0 (nA 1 [3] [3] 4) 4; OCommit 0 0]%N.
(** moves A3.next from 1 to 2, adds A5 -> 2 and B7.users = {6} *)
Definition bops : list opn := bsetup ++
  [ONewTrans 1 0; OInsert 1 (nA 2 [] [] 5) 5; OMutate 1 3 (relink 2 [4] []);
   OInsert 1 (nA 0 [] [] 6) 6; OInsert 1 (nB 0 [6] 7) 7; OUpdate 1 1 bump_upd]%N.
(** B5.users = {4}, but A4.next is occupied *)
Definition bconf : list opn := bsetup ++ [ONewTrans 1 0; OInsert 1 (nB 0 [4] 5) 5]%N.
(** A5.next is an A node *)
Definition bbad : list opn := bsetup ++ [ONewTrans 1 0; OInsert 1 (nA 3 [] [] 5) 5]%N.

Definition hg (E : env) (os : list opn) := pick3_g (run_hist E os 0 1).
Definition ht (E : env) (os : list opn) := pick3_t (run_hist E os 0 1).
Definition hs (E : env) (os : list opn) := pick3_s (run_hist E os 0 1).
Definition hc (E : env) (os : list opn) := done_g (commit E (ht E os) (hg E os)).

Lemma bops_hist T : history E1 T (hg E1 bops) (ht E1 bops) (hs E1 bops).
Proof. apply run_hist_pick; [sides|]. vm_compute. eexists. reflexivity. Qed.
Lemma bops_commit : commit E1 (ht E1 bops) (hg E1 bops) = Done (hc E1 bops) tt.
Proof. computes. Qed.
Lemma bconf_hist T : history E1 T (hg E1 bconf) (ht E1 bconf) (hs E1 bconf).
Proof. apply run_hist_pick; [sides|]. vm_compute. eexists. reflexivity. Qed.
Lemma bbad_hist T : history E1 T (hg E1 bbad) (ht E1 bbad) (hs E1 bbad).
Proof. apply run_hist_pick; [sides|]. vm_compute. eexists. reflexivity. Qed.
Lemma hist_wf E T g t (s : tspec nat) : history E T g t s -> WF E g.
Proof. intros H. apply (history_ok E T g t s H). Qed.

Lemma opp1_inv l k : k ∈ opp1 l -> (l = Link 0 0 /\ k = Link 1 1) \/ (l = Link 1 1 /\ k = Link 0 0).
Proof.
  unfold opp1. case_decide; [|case_decide]; [..|by intros ?%elem_of_nil]; subst; intros ->%elem_of_list_singleton; auto.
Qed.
Lemma E1_single : single_choice E1.
Proof.
  split; cbn.
  - intros l k [[-> ->]|[-> ->]]%opp1_inv; decides.
  - intros l k k' Hk Hk' _. apply opp1_inv in Hk, Hk'. destruct Hk as [[-> ->]|[-> ->]], Hk' as [[? ->]|[? ->]]; done.
  - intros l. unfold opp1. repeat case_decide; [apply NoDup_singleton..|constructor].
  - intros l k [[-> ->]|[-> ->]]%opp1_inv; vm_compute; done.
Qed.
Lemma E1_support l k : k ∈ e_opp E1 l -> l ∈ [Link 0 0; Link 1 1].
Proof. intros [[-> _]|[-> _]]%opp1_inv; decides. Qed.

(** ** C18 *)
Theorem C18_bidirectional_symmetric :
  forall {D} (E : env) (g : graph D) (t : trans D) (s : tspec D) (g' : graph D),
  history E True g t s -> single_choice E -> no_early g s -> bidi_symmetric E g ->
  commit E t g = Done g' tt -> bidi_symmetric E g'.
Proof. intros D E g t s g' Hh Hsc Hne Hsym Hc. by eapply (final_symmetric E True g t s Hh g' I Hc). Qed.
Print Assumptions C18_bidirectional_symmetric.

Example C18_case :
  history E1 True (hg E1 bops) (ht E1 bops) (hs E1 bops) /\ single_choice E1 /\ no_early (hg E1 bops) (hs E1 bops) /\
  bidi_symmetric E1 (hg E1 bops) /\ commit E1 (ht E1 bops) (hg E1 bops) = Done (hc E1 bops) tt /\
  graph_get (hg E1 bops) 1%N = Some (nB 0 [3; 4] 1)%N /\ graph_get (hc E1 bops) 1%N = Some (nB 0 [4] 101)%N /\
  graph_get (hc E1 bops) 2%N = Some (nB 0 [5; 3] 2)%N /\ graph_get (hc E1 bops) 6%N = Some (nA 7 [] [] 6)%N.
Proof.
  pose proof (hist_wf _ _ _ _ _ (bops_hist True)) as Hwf.
  split; [apply bops_hist|]. split; [apply E1_single|]. split; [apply (no_earlyb_sound E1 _ _ Hwf); computes|].
  split; [apply (bidi_symmetricb_sound E1 [Link 0 0; Link 1 1] _ Hwf); [apply E1_support|computes]|].
  split; [apply bops_commit|]. split_and!; computes.
Qed.

(** ** C20 *)
(** [m'] is what the specification gives without bidirectional links.  If a link is added
    from [a] to [b], its only opposite on [b] is the direct link [k] and [k] holds another
    node, the commit panics. *)
Theorem C20_conflict_panics :
  forall {D} (E : env) (T : Prop) (g : graph D) (t : trans D) (s : tspec D) m m' a b z l nb k,
  history E T g t s -> nodes_are g m -> sp_commit (ts_txn s) m m' ->
  in_nodes m' a b l -> ~ in_graph g a b l -> nonvec E l ->
  m' !! b = Some nb -> opposites_on E l (nvar nb) = [k] -> linkkind E k = Some KDirect ->
  in_nodes m' b z k -> z <> a ->
  (forall l', k ∈ e_opp E l' -> nonvec E l' /\ ~ (in_graph g z b l' /\ ~ in_nodes m' z b l')) ->
  exists p g', commit E t g = Panicked p g'.
Proof. intros D E T g t s m m' a b z l nb k Hh. exact (final_conflict E T g t s Hh m m' a b z l nb k). Qed.
Print Assumptions C20_conflict_panics.

(** A commit that succeeds keeps every link the specification gives (unless its mirror was
    removed) and mirrors every added link. *)
Theorem C20_occupied_kept :
  forall {D} (E : env) (T : Prop) (g : graph D) (t : trans D) (s : tspec D) (g' : graph D),
  history E T g t s -> commit E t g = Done g' tt ->
  exists m m', nodes_are g m /\ sp_commit (ts_txn s) m m' /\ holds_nonbidi E g' m' /\
    (forall b z k, in_nodes m' b z k ->
       (forall l, k ∈ e_opp E l -> nonvec E l /\ ~ (in_graph g z b l /\ ~ in_nodes m' z b l)) -> in_graph g' b z k) /\
    (forall a b l nb k, in_nodes m' a b l -> ~ in_graph g a b l -> nonvec E l ->
       m' !! b = Some nb -> opposites_on E l (nvar nb) = [k] -> in_graph g' b a k).
Proof. intros. by eapply final_occupied. Qed.
Print Assumptions C20_occupied_kept.

(** B5.users = {4} is added while A4.next = 1. *)
Example C20_case :
  let g := hg E1 bconf in let s := hs E1 bconf in
  let m := gmap_of g in let m' := ts_new s ∪ m in
  history E1 True g (ht E1 bconf) s /\ nodes_are g m /\ sp_commit (ts_txn s) m m' /\
  in_nodes m' 5%N 4%N (Link 1 1) /\ ~ in_graph g 5%N 4%N (Link 1 1) /\ nonvec E1 (Link 1 1) /\
  m' !! 4%N = Some (nA 1 [3] [3] 4)%N /\ opposites_on E1 (Link 1 1) 0 = [Link 0 0] /\
  linkkind E1 (Link 0 0) = Some KDirect /\ in_nodes m' 4%N 1%N (Link 0 0) /\ 1%N <> 5%N /\
  (forall l', Link 0 0 ∈ e_opp E1 l' -> nonvec E1 l' /\ ~ (in_graph g 1%N 4%N l' /\ ~ in_nodes m' 1%N 4%N l')).
Proof.
  cbv zeta. pose proof (hist_wf _ _ _ _ _ (bconf_hist True)) as Hwf.
  split; [apply bconf_hist|]. split; [intros i; by apply (gmap_of_get E1)|]. split.
  { set (m := gmap_of (hg E1 bconf)). set (m' := ts_new (hs E1 bconf) ∪ m).
    assert (forall x : gmap N (node nat), sp_redirect [] x x) as Hid.
    { intros x. exists []. split; [exists ∅; split; constructor|]. symmetry. apply map_fmap_id. }
    exists m, m', m', m'. split; [apply Hid|]. split; [reflexivity|]. split; [reflexivity|]. split; [apply Hid|reflexivity]. }
  split. { eexists. split; [computes|]. apply has_linkb_spec. computes. }
  split. { intros (n&Hn&_). revert Hn. vm_compute. done. }
  split; [vm_compute; done|]. split; [computes|]. split; [computes|]. split; [computes|].
  split. { eexists. split; [computes|]. apply has_linkb_spec. computes. }
  split; [done|]. intros l' [[-> ?]|[-> _]]%opp1_inv; [done|]. split; [vm_compute; done|].
  intros [_ Hn]. apply Hn. eexists. split; [computes|]. apply has_linkb_spec. computes.
Qed.

(** ** C21 *)
Theorem C21_maintenance_frame :
  forall {D} (E : env) (T : Prop) (g : graph D) (t : trans D) (s : tspec D) (g' : graph D),
  history E T g t s -> commit E t g = Done g' tt ->
  exists m m', nodes_are g m /\ sp_commit (ts_txn s) m m' /\ holds_nonbidi E g' m' /\
    forall a b k, ~ (in_graph g' a b k <-> in_nodes m' a b k) ->
      is_Some (graph_get g' a) /\ is_Some (graph_get g' b) /\
      exists l, k ∈ e_opp E l /\ (nonvec E l -> ~ (in_graph g b a l <-> in_nodes m' b a l)).
Proof. intros. by eapply final_maintenance. Qed.
Print Assumptions C21_maintenance_frame.
Example C21_case : history E1 True (hg E1 bops) (ht E1 bops) (hs E1 bops) /\ commit E1 (ht E1 bops) (hg E1 bops) = Done (hc E1 bops) tt.
Proof. split; [apply bops_hist|apply bops_commit]. Qed.

(** ** C22 *)
(** [PLinkType] is the link type panic, which has nothing to do with the maintenance. *)
Theorem C22_set_set_never_panics :
  forall {D} (E : env) (T : Prop) (g : graph D) (t : trans D) (s : tspec D) p (g' : graph D),
  history E T g t s ->
  (forall l k, k ∈ e_opp E l -> exists sk, linkkind E k = Some (KSet sk)) ->
  (forall l v, length (opposites_on E l v) <= 1) ->
  commit E t g = Panicked p g' ->
  (e_dbg E = true /\ ts_res s <> ∅) \/ (exists m, nodes_are g m /\ ~ sp_valid (ts_txn s) m) \/ p = PLinkType.
Proof. intros. by eapply final_set_set. Qed.
Print Assumptions C22_set_set_never_panics.

(** A.peers <-> B.users; the panic below comes from a redirect loop *)
Definition opp2 (l : link) : list link :=
  if decide (l = Link 0 1) then [Link 1 1] else if decide (l = Link 1 1) then [Link 0 1] else [].
Definition E2 : env := Env ex_kinds opp2 (fun _ _ => true) (fun _ l => l) true.
Example C22_case :
  history E2 True (hg E2 loop1) (ht E2 loop1) (hs E2 loop1) /\
  (forall l k, k ∈ e_opp E2 l -> exists sk, linkkind E2 k = Some (KSet sk)) /\
  (forall l v, length (opposites_on E2 l v) <= 1) /\
  commit E2 (ht E2 loop1) (hg E2 loop1) = Panicked PLoop (hg E2 loop1).
Proof.
  split; [apply run_hist_pick; [sides|]; vm_compute; eexists; reflexivity|]. split.
  { intros l k. cbn. unfold opp2. case_decide; [|case_decide]; [..|by intros ?%elem_of_nil];
      intros ->%elem_of_list_singleton; eexists; computes. }
  split; [|computes]. intros l v. unfold opposites_on. etrans; [apply filter_length|]. cbn. unfold opp2.
  repeat case_decide; cbn; lia.
Qed.

(** ** C24 *)
Theorem C24_link_types_kept :
  forall {D} (E : env) (g : graph D) (t : trans D) (s : tspec D) (g' : graph D),
  history E True g t s -> (forall l k, k ∈ e_opp E l -> nonvec E l) -> bidi_typed E -> no_early g s -> links_typed E g ->
  commit E t g = Done g' tt -> links_typed E g'.
Proof. intros D E g t s g' Hh H1 H2 H3 H4 Hc. by eapply (final_links_typed E True g t s Hh g' I Hc). Qed.
Print Assumptions C24_link_types_kept.
Example C24_case :
  history E1 True (hg E1 bops) (ht E1 bops) (hs E1 bops) /\ (forall l k, k ∈ e_opp E1 l -> nonvec E1 l) /\ bidi_typed E1 /\
  no_early (hg E1 bops) (hs E1 bops) /\ links_typed E1 (hg E1 bops) /\
  commit E1 (ht E1 bops) (hg E1 bops) = Done (hc E1 bops) tt /\ e_chk E1 0 (Link 0 0) = false.
Proof.
  pose proof (hist_wf _ _ _ _ _ (bops_hist True)) as Hwf.
  split; [apply bops_hist|]. split; [intros l k [[-> _]|[-> _]]%opp1_inv; vm_compute; done|].
  split; [intros l k [[-> ->]|[-> ->]]%opp1_inv; computes|]. split; [apply (no_earlyb_sound E1 _ _ Hwf); computes|].
  split; [apply (links_typedb_sound E1 _ Hwf); computes|]. split; [apply bops_commit|computes].
Qed.

(** ** C26 *)
(** The link type panic is raised only if the nodes the transaction specifies violate the
    annotations, provided no annotation constrains a Vec link. *)
Theorem C26_link_type_panic_real :
  forall {D} (E : env) (T : Prop) (g : graph D) (t : trans D) (s : tspec D) (g' : graph D),
  history E T g t s -> plain_closures s -> (forall v l, e_chk E v l = false -> nonvec E l) ->
  commit E t g = Panicked PLinkType g' ->
  exists m m', nodes_are g m /\ sp_commit (ts_txn s) m m' /\ ~ map_typed E m'.
Proof. intros. by eapply final_linktype. Qed.
Print Assumptions C26_link_type_panic_real.
Example C26_case :
  history E1 True (hg E1 bbad) (ht E1 bbad) (hs E1 bbad) /\ plain_closures (hs E1 bbad) /\
  (forall v l, e_chk E1 v l = false -> nonvec E1 l) /\
  exists g', commit E1 (ht E1 bbad) (hg E1 bbad) = Panicked PLinkType g'.
Proof.
  split; [apply bbad_hist|]. split; [split; [intros i f n n' p Hin|intros i f n p Hin]; by apply elem_of_nil in Hin|].
  split; [|eexists; computes]. intros v l. cbn. unfold chk1. case_decide; [|case_decide]; subst; [vm_compute; done..|done].
Qed.

(** ** C28 *)
Theorem C28_change_record_exact :
  forall {D} (E : env) (T : Prop) (g : graph D) (t : trans D) (s : tspec D) (g' : graph D) r,
  history E T g t s -> do_commit E t g = Done g' r ->
  exists m m', nodes_are g m /\ sp_commit (ts_txn s) m m' /\ holds_nonbidi E g' m' /\
    forall x y l, y <> 0%N -> nonvec E l ->
      ((x, y, l) ∈ lc_adds r <-> in_nodes m' x y l /\ ~ in_graph g x y l) /\
      ((x, y, l) ∈ lc_rems r <-> in_graph g x y l /\ ~ in_nodes m' x y l).
Proof. intros. by eapply final_record. Qed.
Print Assumptions C28_change_record_exact.
Example C28_case :
  history E1 True (hg E1 bops) (ht E1 bops) (hs E1 bops) /\
  exists r, do_commit E1 (ht E1 bops) (hg E1 bops) = Done (hc E1 bops) r /\
    (3, 2, Link 0 0)%N ∈ lc_adds r /\ (3, 1, Link 0 0)%N ∈ lc_rems r.
Proof.
  split; [apply bops_hist|]. eexists. split; [vm_compute; reflexivity|]. split; decides.
Qed.

(** ** C29 *)
Theorem C29_add_checks_run :
  forall {D} (E : env) (T : Prop) (g : graph D) (t : trans D) (s : tspec D) c (g' : graph D),
  history E T g t s -> commit_checked E t c g = Done g' tt ->
  commit E t g = Done g' tt /\
  exists m m', nodes_are g m /\ sp_commit (ts_txn s) m m' /\ holds_nonbidi E g' m' /\
    forall nm chk x y l, (nm, chk) ∈ gc_add c -> nonvec E l -> in_nodes m' x y l -> ~ in_graph g x y l ->
      exists nx, graph_get g' x = Some nx /\ chk x y nx (graph_get g' y) = true.
Proof. intros. by eapply final_checked. Qed.
Print Assumptions C29_add_checks_run.
(** the check demands that the target of an added link is present *)
Definition chk_present : graph_check nat :=
  GraphCheck [] [("present"%string, fun _ _ _ ny => match ny with Some _ => true | None => false end)] [].
Example C29_case :
  history E1 True (hg E1 bops) (ht E1 bops) (hs E1 bops) /\
  commit_checked E1 (ht E1 bops) chk_present (hg E1 bops) = Done (hc E1 bops) tt /\ gc_add chk_present <> [].
Proof. split; [apply bops_hist|]. split; [computes|done]. Qed.
