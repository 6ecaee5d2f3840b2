(** * Two transactions in either order, with bidirectional links: C83 *)
From stdpp Require Export gmap.
From Verif Require Import CommuteBidi ExHist Decide DecideValid PropsBidi PropsFindings PropsExact PropsCommute.

(** ** C83 *)
(** Two transactions are open on a graph whose bidirectional links are symmetric.
    [leaves g g1 s1 i]: the first neither names node [i] nor redirects or removes an index
    that node [i] links to, and committing it to [g] leaves node [i] as it was.  If each
    node is left alone by one of the two ([apart_commits]), and the nodes one works on do not
    link to what the other inserts, redirects or removes, then committing the second after
    the first has the effect each has alone on its own nodes, [...] *)
Theorem C83_second_commit :
  forall {D} (E : env) (T : Prop) (g : graph D) t1 t2 s1 s2 g1 g2 g12,
  T -> open_pair E T g t1 t2 s1 s2 -> (forall l k, k ∈ e_opp E l -> nonvec E l) -> bidi_symmetric E g ->
  commit E t1 g = Done g1 tt -> commit E t2 g = Done g2 tt -> apart_commits g g1 g2 s1 s2 ->
  commit E t2 g1 = Done g12 tt ->
  forall i, (leaves g g1 s1 i -> option_Forall2 (same_node E) (graph_get g12 i) (graph_get g2 i)) /\
            (leaves g g2 s2 i -> option_Forall2 (same_node E) (graph_get g12 i) (graph_get g1 i)).
Proof. intros D E T g t1 t2 s1 s2 g1 g2 g12 HT Hop Hnv Hsy C1 C2 Hap C12 i. by apply (final_second E T g t1 t2 s1 s2). Qed.
Print Assumptions C83_second_commit.

(** [...] so both orders leave the same nodes. *)
Theorem C83_commits_commute :
  forall {D} (E : env) (T : Prop) (g : graph D) t1 t2 s1 s2 g1 g12 g2 g21,
  T -> open_pair E T g t1 t2 s1 s2 -> (forall l k, k ∈ e_opp E l -> nonvec E l) -> bidi_symmetric E g ->
  commit E t1 g = Done g1 tt -> commit E t2 g1 = Done g12 tt -> commit E t2 g = Done g2 tt -> commit E t1 g2 = Done g21 tt ->
  apart_commits g g1 g2 s1 s2 ->
  forall i, option_Forall2 (same_node E) (graph_get g12 i) (graph_get g21 i).
Proof. intros D E T g t1 t2 s1 s2 g1 g12 g2 g21 HT Hop Hnv Hsy C1 C12 C2 C21 Hap i. by eapply (final_commute_bidi E T g t1 t2 s1 s2). Qed.
Print Assumptions C83_commits_commute.

(** If the second would be valid on [g] and refers to nothing the first removes, it can be
    committed after the first too: conflicts and type errors do not appear. *)
Theorem C83_second_succeeds :
  forall {D} (E : env) (T : Prop) (g : graph D) t1 t2 s1 s2 g1 g2 m,
  bidi_fields E -> (forall v l, e_chk E v l = false -> nonvec E l) -> (forall l v, length (opposites_on E l v) <= 1) ->
  T -> open_pair E T g t1 t2 s1 s2 -> bidi_symmetric E g ->
  commit E t1 g = Done g1 tt -> commit E t2 g = Done g2 tt -> apart_commits g g1 g2 s1 s2 ->
  nodes_are g m -> sp_valid (ts_txn s2) m -> avoids_ix (ts_del s1) (ts_txn s2) m -> (forall x, x ∈ ts_del s1 -> x ∉ moved (ts_txn s2)) ->
  exists g12, commit E t2 g1 = Done g12 tt.
Proof.
  intros D E T g t1 t2 s1 s2 g1 g2 m Hbf Hck Hone HT Hop Hsy C1 C2 Hap Hm Hv Hav Hd.
  by apply (final_second_succeeds E T g t1 t2 s1 s2 HT Hop Hsy g1 g2 m).
Qed.
Print Assumptions C83_second_succeeds.

(** deciding [apart_commits] on concrete data *)
Global Instance linkval_dec : EqDecision linkval. Proof. solve_decision. Defined.
Global Instance node_nat_dec : EqDecision (node nat). Proof. solve_decision. Defined.
Definition free_of (s : tspec nat) (n : node nat) : bool := forallb (fun '(_, y) => negb (bool_decide (y ∈ moved (ts_txn s)))) (node_links n).
Lemma free_of_sound s n x : free_of s n = true -> links_to n x -> x ∉ moved (ts_txn s).
Proof.
  intros Hb [l Hl] Hx. unfold free_of in Hb. rewrite forallb_forall in Hb. specialize (Hb (l, x)). rewrite <- elem_of_list_In in Hb.
  specialize (Hb (elem_node_links _ _ _ Hl)). cbn in Hb. by rewrite bool_decide_eq_true_2 in Hb.
Qed.
Definition names (s : tspec nat) : list idx := (map_to_list (ts_new s)).*1 ++ (ts_mut s).*1 ++ (ts_upd s).*1 ++ ts_del s.
Lemma names_spec s i : i ∈ names s <-> edits (ts_txn s) i \/ i ∈ ts_del s.
Proof.
  unfold names, edits. cbn. rewrite !elem_of_app.
  assert (i ∈ (map_to_list (ts_new s)).*1 <-> is_Some (ts_new s !! i)) as ->; [|tauto].
  rewrite elem_of_list_fmap. split.
  - intros ([j n]&->&H%elem_of_map_to_list). by exists n.
  - intros [n H%elem_of_map_to_list]. by exists (i, n).
Qed.
Definition leavesb (g g' : graph nat) (s : tspec nat) (i : idx) : bool :=
  negb (bool_decide (i ∈ names s)) && bool_decide (graph_get g' i = graph_get g i) &&
  match graph_get g i with Some n => free_of s n | None => true end.
Lemma leavesb_sound g g' s i : leavesb g g' s i = true -> leaves g g' s i.
Proof.
  unfold leavesb. rewrite !andb_true_iff, negb_true_iff, bool_decide_eq_false, bool_decide_eq_true, names_spec.
  intros [[Hn Heq] Hf]. split; [|done]. intros [?|[?|(n&x&Hg&Hx&Hl)]]; [tauto..|]. rewrite Hg in Hf. by eapply free_of_sound.
Qed.
Definition clearb (E : env) (g g1 : graph nat) (s1 s2 : tspec nat) : bool :=
  forallb (fun '(i, n) => leavesb g g1 s1 i || free_of s2 n) (graph_iter g1) && no_earlyb g s2 && no_earlyb g1 s2.
Lemma clearb_sound E g g1 s1 s2 : WF E g -> WF E g1 -> clearb E g g1 s1 s2 = true -> clear g g1 s1 s2.
Proof.
  intros Hwf Hwf1. unfold clearb. rewrite !andb_true_iff, forallb_forall. intros [[Hm Hn] Hn1]. split.
  - intros i n x Hi Hl Hx. apply (items_get E g1 Hwf1) in Hi. specialize (Hm _ Hi). cbn in Hm.
    apply orb_true_iff in Hm as [Hm|Hm]; [by apply leavesb_sound|]. by destruct (free_of_sound s2 n x Hm Hl).
  - by apply (no_earlyb_sound E).
  - by apply (no_earlyb_sound E).
Qed.
Definition apartb (E : env) (g g1 g2 : graph nat) (s1 s2 : tspec nat) : bool :=
  forallb (fun i => leavesb g g1 s1 i || leavesb g g2 s2 i) ((graph_iter g).*1 ++ (graph_iter g1).*1 ++ names s1) &&
  clearb E g g1 s1 s2 && clearb E g g2 s2 s1.
Lemma apartb_sound E g g1 g2 s1 s2 : WF E g -> WF E g1 -> WF E g2 -> apartb E g g1 g2 s1 s2 = true -> apart_commits g g1 g2 s1 s2.
Proof.
  intros Hwf Hwf1 Hwf2. unfold apartb. rewrite !andb_true_iff, forallb_forall. intros [[Hl H1] H2].
  split; [|by split; eapply clearb_sound]. intros i.
  destruct (decide (i ∈ (graph_iter g).*1 ++ (graph_iter g1).*1 ++ names s1)) as [Hi|Hi].
  - apply elem_of_list_In in Hi. specialize (Hl i Hi). apply orb_true_iff in Hl as [Hl|Hl]; [left|right]; by apply leavesb_sound.
  - left. rewrite !not_elem_of_app, names_spec in Hi. destruct Hi as (Hg&Hg1&Hn).
    assert (forall h : graph nat, WF E h -> i ∉ (graph_iter h).*1 -> graph_get h i = None) as Hnone.
    { intros h Hh Hi. apply eq_None_not_Some. intros [n Hin%(items_get E h Hh)]. apply Hi, elem_of_list_fmap. exists (i, n).
      split; [done|]. by apply elem_of_list_In. }
    split; [|by rewrite !Hnone]. intros [?|[?|(n&x&Hgi&_)]]; [tauto..|]. rewrite (Hnone g Hwf Hg) in Hgi. done.
Qed.

(** 3 and 4 are linked to 1 and 2.  Transaction 1 redirects the links of 1 to 5 and inserts
    node 7 linked to 5; transaction 2 links 4 to 6, removes 2 and inserts 8 and 9, linked. *)
Definition setup83 : list opn :=
  [ONewCtx 7; ONewGraph 0 0; ONewTrans 0 0; OInsert 0 (nB 0 [] 1) 1; OInsert 0 (nB 0 [] 2) 2; OInsert 0 (nA 1 [] [] 3) 3;
   OInsert 0 (nA 2 [] [3] 4) 4; OInsert 0 (nB 0 [] 5) 5; OInsert 0 (nB 0 [] 6) 6; OCommit 0 0]%N.
Definition o83 : list opn := setup83 ++
  [ONewTrans 1 0; ONewTrans 2 0; ORedirect 1 1 5; OInsert 1 (nA 5 [] [] 7) 7; OMutate 2 4 (relink 6 [] []); OInsert 2 (nB 0 [9] 8) 8;
   OInsert 2 (nA 0 [] [] 9) 9; ORemove 2 2]%N.
Definition g83 := kg E1 o83 1.
Definition g83_1 := done_g (commit E1 (kt E1 o83 1) g83).
Definition g83_2 := done_g (commit E1 (kt E1 o83 2) g83).
Definition g83_12 := done_g (commit E1 (kt E1 o83 2) g83_1).
Definition g83_21 := done_g (commit E1 (kt E1 o83 1) g83_2).
Lemma o83_pair : open_pair E1 True g83 (kt E1 o83 1) (kt E1 o83 2) (ks E1 o83 1) (ks E1 o83 2).
Proof. apply (run_pair_open E1 True o83); [unfold o83, setup83; sides|computes]. Qed.
Lemma o83_c1 : commit E1 (kt E1 o83 1) g83 = Done g83_1 tt. Proof. computes. Qed.
Lemma o83_c2 : commit E1 (kt E1 o83 2) g83 = Done g83_2 tt. Proof. computes. Qed.
Lemma o83_avoids : avoids_ix (ts_del (ks E1 o83 2)) (ts_txn (ks E1 o83 1)) (gmap_of g83).
Proof.
  assert (ts_del (ks E1 o83 2) = [2]%N) as -> by computes. split.
  - intros i n x Hn Hx. apply elem_of_list_singleton in Hx as ->. change (ts_new (ks E1 o83 1) !! i = Some n) in Hn.
    assert (ts_new (ks E1 o83 1) = {[7%N := nA 5 [] [] 7]}) as Heq by computes. rewrite Heq in Hn.
    apply lookup_singleton_Some in Hn as [_ <-]. apply linksb_sound. computes.
  - intros i f n n' x Hf. vm_compute in Hf. exfalso. exact (not_elem_of_nil _ Hf).
  - intros i f n n' x Hf. vm_compute in Hf. exfalso. exact (not_elem_of_nil _ Hf).
  - intros i n x [H|[H|H]] Hn; [|vm_compute in H; exfalso; exact (not_elem_of_nil _ H)..].
    rewrite (history_new_fresh E1 True _ _ _ i (open_pair_history _ _ _ _ _ _ _ o83_pair) H) in Hn. discriminate Hn.
  - assert (targets (ts_txn (ks E1 o83 1)) = [5]%N) as -> by computes.
    intros x Hx Hy. apply elem_of_list_singleton in Hx. apply elem_of_list_singleton in Hy. rewrite Hx in Hy. discriminate Hy.
Qed.
Example C83_case :
  open_pair E1 True g83 (kt E1 o83 1) (kt E1 o83 2) (ks E1 o83 1) (ks E1 o83 2) /\
  bidi_fields E1 /\ (forall v l, e_chk E1 v l = false -> nonvec E1 l) /\ (forall l v, length (opposites_on E1 l v) <= 1) /\
  bidi_symmetric E1 g83 /\
  commit E1 (kt E1 o83 1) g83 = Done g83_1 tt /\ commit E1 (kt E1 o83 2) g83_1 = Done g83_12 tt /\
  commit E1 (kt E1 o83 2) g83 = Done g83_2 tt /\ commit E1 (kt E1 o83 1) g83_2 = Done g83_21 tt /\
  apart_commits g83 g83_1 g83_2 (ks E1 o83 1) (ks E1 o83 2) /\
  sp_valid (ts_txn (ks E1 o83 1)) (gmap_of g83) /\ avoids_ix (ts_del (ks E1 o83 2)) (ts_txn (ks E1 o83 1)) (gmap_of g83) /\
  (forall x, x ∈ ts_del (ks E1 o83 2) -> x ∉ moved (ts_txn (ks E1 o83 1))) /\
  graph_get g83 1%N = Some (nB 0 [3] 1)%N /\ graph_get g83_12 1%N = Some (nB 0 [] 1)%N /\
  graph_get g83_12 5%N = Some (nB 0 [3; 7] 5)%N /\ graph_get g83_21 6%N = Some (nB 0 [4] 6)%N /\
  graph_get g83_12 9%N = Some (nA 8 [] [] 9)%N /\ graph_get g83_21 9%N = Some (nA 8 [] [] 9)%N.
Proof.
  pose proof o83_pair as Hp. pose proof (open_pair_history _ _ _ _ _ _ _ Hp) as H1.
  pose proof (hist_wf _ _ _ _ _ H1) as Hwf.
  pose proof (hist_wf _ _ _ _ _ (open_pair_commit _ _ _ _ _ _ _ _ Hp o83_c1)) as Hwf1.
  pose proof (hist_wf _ _ _ _ _ (open_pair_commit _ _ _ _ _ _ _ _ (open_pair_sym _ _ _ _ _ _ _ Hp) o83_c2)) as Hwf2.
  split; [exact Hp|]. split; [exact E1_fields|]. split; [exact E1_checks|]. split; [exact E1_one|].
  split; [apply (bidi_symmetricb_sound E1 [Link 0 0; Link 1 1] _ Hwf); [apply E1_support|computes]|].
  split; [exact o83_c1|]. split; [computes|]. split; [exact o83_c2|]. split; [computes|].
  split; [apply (apartb_sound E1 _ _ _ _ _ Hwf Hwf1 Hwf2); computes|].
  split; [apply (sp_validb_sound _ _ [(1, 5)]%N []); computes|]. split; [exact o83_avoids|].
  split.
  { assert (ts_del (ks E1 o83 2) = [2]%N) as -> by computes. assert (moved (ts_txn (ks E1 o83 1)) = [1]%N) as -> by computes.
    intros x Hx Hy. apply elem_of_list_singleton in Hx. apply elem_of_list_singleton in Hy. rewrite Hx in Hy. discriminate Hy. }
  split; [computes|]. split; [computes|]. split; [computes|]. split; [computes|]. split; computes.
Qed.

(** It is not enough that the two name different nodes: one links 3 to 2, the other empties
    the set of node 2, which holds the opposite of that link. *)
Definition no_users : mut_fn nat := fun n => if decide (nvar n = 1) then Done (Node 1 [LDirect 0%N; LSet SHash []] (ndata n)) tt else Panicked PTypeMacro n.
Lemma no_users_ok E T : e_kinds E = ex_kinds -> mut_ok E T no_users.
Proof.
  intros HE n n' Hok. unfold no_users. case_decide; [|done]. intros [= <-]. split; [|done].
  exists [KDirect; KSet SHash]. split; [by rewrite HE|]. repeat constructor; done.
Qed.
Definition o83x : list opn := setup83 ++ [ONewTrans 1 0; ONewTrans 2 0; OMutate 1 3 (relink 2 [] []); OMutate 2 2 no_users]%N.
Theorem C83_different_nodes_not_enough :
  open_pair E1 True (kg E1 o83x 1) (kt E1 o83x 1) (kt E1 o83x 2) (ks E1 o83x 1) (ks E1 o83x 2) /\ bidi_symmetric E1 (kg E1 o83x 1) /\
  (ts_mut (ks E1 o83x 1)).*1 = [3%N] /\ (ts_mut (ks E1 o83x 2)).*1 = [2%N] /\
  exists g1 g12 g2 g21,
    commit E1 (kt E1 o83x 1) (kg E1 o83x 1) = Done g1 tt /\ commit E1 (kt E1 o83x 2) g1 = Done g12 tt /\
    commit E1 (kt E1 o83x 2) (kg E1 o83x 1) = Done g2 tt /\ commit E1 (kt E1 o83x 1) g2 = Done g21 tt /\
    graph_get g12 3%N = Some (nA 0 [] [] 3)%N /\ graph_get g21 3%N = Some (nA 2 [] [] 3)%N.
Proof.
  assert (open_pair E1 True (kg E1 o83x 1) (kt E1 o83x 1) (kt E1 o83x 2) (ks E1 o83x 1) (ks E1 o83x 2)) as Hp.
  { apply (run_pair_open E1 True o83x); [unfold o83x, setup83|computes].
    repeat (constructor; [first [exact I | apply no_users_ok; reflexivity | apply relink_ok; [reflexivity|vm_compute; reflexivity]]|]); constructor. }
  split; [exact Hp|].
  split. { apply (bidi_symmetricb_sound E1 [Link 0 0; Link 1 1]); [exact (hist_wf _ _ _ _ _ (open_pair_history _ _ _ _ _ _ _ Hp))|apply E1_support|computes]. }
  split; [computes|]. split; [computes|].
  exists (done_g (commit E1 (kt E1 o83x 1) (kg E1 o83x 1))), (done_g (commit E1 (kt E1 o83x 2) (done_g (commit E1 (kt E1 o83x 1) (kg E1 o83x 1))))).
  exists (done_g (commit E1 (kt E1 o83x 2) (kg E1 o83x 1))), (done_g (commit E1 (kt E1 o83x 1) (done_g (commit E1 (kt E1 o83x 2) (kg E1 o83x 1))))).
  repeat (split; [computes|]). computes.
Qed.
Print Assumptions C83_different_nodes_not_enough.
