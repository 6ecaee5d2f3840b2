(** * Property theorems: an index redirected more than once (C66)

    [redir_ptrs reps P]: every call [(old, new)] of [reps], in call order, makes [old] point to
    where [new] leads at that moment, and this is never [old] itself; [P] are the pointers after
    the last call.  [leads P x z]: following [P] from [x] ends in [z].  No hypothesis that the
    sources are distinct. *)
From Verif Require Import ExHist Decide DecideValid PropsGraph PropsBidi PropsFindings Exact.

(** ** C66 *)
(** A link to a redirected index goes to where the target of the first call for that index
    leads after all calls. *)
Theorem C66_links_follow_first_call :
  forall {D} (E : env) (T : Prop) (g : graph D) (t : trans D) (s : tspec D) (g' : graph D) pre old new post,
  history E T g t s -> commit E t g = Done g' tt ->
  ts_redir s = pre ++ (old, new) :: post -> old ∉ pre.*1 ->
  exists P z, redir_ptrs (ts_redir s) P /\ leads P new z /\
    (z ∉ (ts_redir_all s).*1 -> z ∉ ts_del s ->
     forall i n f, graph_get g i = Some n -> untouched s i -> ~ declared E (Link (nvar n) f) ->
     exists n', graph_get g' i = Some n' /\ nvar n' = nvar n /\
       match nlinks n !! f, nlinks n' !! f with
       | Some (LDirect x), Some (LDirect x') => x = old -> x' = z
       | Some (LSet _ l), Some (LSet _ l') => old ∈ l -> z <> 0%N -> z ∈ l'
       | Some (LVec l), Some (LVec l') => forall j, l !! j = Some old -> l' !! j = Some z
       | None, None => True
       | _, _ => False
       end).
Proof.
  intros D E T g t s g' pre old new post Hh Hc Hs Hp.
  destruct (final_no_loop E T g t s Hh g' Hc) as [[P HP] _]. destruct (ptrs_total _ _ new HP) as [z Hz].
  exists P, z. split; [done|]. split; [done|]. intros Hza Hzd i n f Hi Hu Hdec.
  assert (forall z', redir_dest (ts_redir s) old z' -> z' = z) as H1.
  { intros z' Hz'. eapply redir_dest_det; [exact Hz'|]. right. by exists pre, new, post, P. }
  assert (redir_dest (ts_redir s) old z) as H1' by (right; by exists pre, new, post, P).
  assert (forall z', redir_dest (ts_redir_all s) z z' -> z' = z) as H2.
  { intros z' Hz'. eapply redir_dest_det; [exact Hz'|]. by left. }
  assert (redir_dest (ts_redir_all s) z z) as H2' by (by left).
  destruct (final_old_path E T g t s Hh g' i n Hc Hi Hu) as (n1&n2&n3&n'&(Hv1&_&F1)&(Hv2&_&F2)&(Hv3&_&F3)&Hi'&Hv&Hd&Hl).
  exists n'. split; [done|]. split; [congruence|]. rewrite Hl by congruence.
  assert (option_Forall2 (lv_redirected (ts_redir s)) (nlinks n !! f) (nlinks n1 !! f)) as G1 by (by apply Forall2_lookup).
  assert (option_Forall2 (lv_redirected (ts_redir_all s)) (nlinks n1 !! f) (nlinks n2 !! f)) as G2 by (by apply Forall2_lookup).
  assert (option_Forall2 (lv_cleared (ts_del s)) (nlinks n2 !! f) (nlinks n3 !! f)) as G3 by (by apply Forall2_lookup).
  clear - H1 H1' H2 H2' G1 G2 G3 Hzd.
  destruct G1 as [lv0 lv1 G1|]; [|inversion G2 as [|Ha Hb]; subst; rewrite <- Hb in G3; by inversion G3].
  inversion G2 as [a1 lv2 G2' Ha1 Hb1|]; subst. rewrite <- Hb1 in G3. inversion G3 as [a2 lv3 G3' Ha2 Hb2|]; subst.
  destruct lv0 as [x|k l|l], lv1 as [x1|k1 l1|l1]; try done; destruct lv2 as [x2|k2 l2|l2]; try done;
    destruct lv3 as [x3|k3 l3|l3]; try done; cbn in *.
  - intros ->. rewrite G3'. rewrite (H1 _ G1) in G2'. rewrite (H2 _ G2'). by rewrite decide_False.
  - destruct G1 as (_&_&G1), G2' as (_&_&G2'), G3' as (_&_&G3'). intros Ho Hz0. apply G3'. split; [|done].
    apply G2'. exists z. split; [|by auto]. apply G1. exists old. auto.
  - intros j Hj. destruct (Forall2_lookup_l _ _ _ _ _ G1 Hj) as (y1&Hy1&Hd1). rewrite (H1 _ Hd1) in Hy1.
    destruct (Forall2_lookup_l _ _ _ _ _ G2' Hy1) as (y2&Hy2&Hd2). rewrite (H2 _ Hd2) in Hy2.
    rewrite G3', list_lookup_fmap, Hy2. cbn. by rewrite decide_False.
Qed.
Print Assumptions C66_links_follow_first_call.

(** The pointers, and where they lead, are determined by the calls. *)
Theorem C66_pointers_determined :
  forall (reps : list (idx * idx)) P P' x z z',
  redir_ptrs reps P -> redir_ptrs reps P' -> leads P x z -> leads P' x z' -> P = P' /\ z = z'.
Proof.
  intros reps P P' x z z' HP HP' Hz Hz'. pose proof (ptrs_det _ _ _ HP HP') as <-. split; [done|]. by eapply leads_det.
Qed.
Print Assumptions C66_pointers_determined.

(** If some call redirects an index to itself through the calls before it, the commit panics
    with the loop message ... *)
Theorem C66_self_redirect_panics :
  forall {D} (E : env) (T : Prop) (g : graph D) (t : trans D) (s : tspec D) pre P old new post,
  history E T g t s -> e_dbg E = false \/ ts_res s = ∅ ->
  ts_redir s = pre ++ (old, new) :: post -> redir_ptrs pre P -> leads P new old ->
  commit E t g = Panicked PLoop g.
Proof.
  intros D E T g t s pre P old new post Hh Hg Hs HP Hl. eapply final_loop_panics; [done..|]. rewrite Hs. intros [P' HP'].
  replace (pre ++ (old, new) :: post) with ((pre ++ [(old, new)]) ++ post) in HP' by (by rewrite <- app_assoc).
  apply ptrs_prefix in HP' as [P1 HP1]. apply ptrs_snoc_inv in HP1 as (P2&z&HP2&Hz&Hne&_).
  rewrite <- (ptrs_det _ _ _ HP HP2) in Hz. apply Hne. by eapply leads_det.
Qed.
Print Assumptions C66_self_redirect_panics.
(** ... which it gives in no other case. *)
Theorem C66_loop_message_exact :
  forall {D} (E : env) (T : Prop) (g : graph D) (t : trans D) (s : tspec D) (g' : graph D),
  history E T g t s -> plain_closures s -> commit E t g = Panicked PLoop g' ->
  exists reps, (reps = ts_redir s \/ reps = ts_redir_all s) /\
    exists pre P old new post, reps = pre ++ (old, new) :: post /\ redir_ptrs pre P /\ leads P new old.
Proof.
  intros D E T g t s g' Hh Hp Hc.
  destruct (final_loop_cause E T g t s Hh PLoop g') as [H|H]; [by eapply final_plain|done|done| |].
  - exists (ts_redir s). split; [by left|]. by apply bad_culprit.
  - exists (ts_redir_all s). split; [by right|]. by apply bad_culprit.
Qed.
Print Assumptions C66_loop_message_exact.

(** Neither "the first call counts" nor "the last call counts" describes it: 2 is redirected to 1,
    and 1 to 3 and then to 4.  Links to 1 go to 3 (first call), links to 2 follow 1 to 4 (last call). *)
Definition e66 : list opn := setup ++ [ONewTrans 1 0; ORedirect 1 2 1; ORedirect 1 1 3; ORedirect 1 1 4]%N.
Definition P66 : gmap N idx := {[1 := 4; 2 := 1]}%N.
Example C66_case :
  history E0 True (kg E0 e66 1) (kt E0 e66 1) (ks E0 e66 1) /\ commit E0 (kt E0 e66 1) (kg E0 e66 1) = Done (kc E0 e66 1) tt /\
  ts_redir (ks E0 e66 1) = [(2, 1); (1, 3); (1, 4)]%N /\ redir_ptrs (ts_redir (ks E0 e66 1)) P66 /\
  leads P66 3%N 3%N /\ leads P66 1%N 4%N /\
  graph_get (kg E0 e66 1) 2%N = Some (nA 1 [1] [1; 0; 1] 2)%N /\ graph_get (kc E0 e66 1) 2%N = Some (nA 3 [3] [3; 0; 3] 2)%N /\
  graph_get (kg E0 e66 1) 3%N = Some (nA 2 [1; 2] [2] 3)%N /\ graph_get (kc E0 e66 1) 3%N = Some (nA 4 [3; 4] [4] 3)%N.
Proof.
  split; [hist|]. split; [computes|]. split; [computes|].
  split. { apply (ptrsb_sound 3 [] _ ∅); [apply ptrs_nil|decides]. }
  split; [apply (walk_leads 3); computes|]. split; [apply (walk_leads 3 P66 1%N); computes|]. repeat (split; [computes|]). computes.
Qed.
(** Following the calls may lead back to an index without a panic: 1 to 2, 1 to 3, 2 to 1. *)
Definition e66b : list opn := setup ++ [ONewTrans 1 0; ORedirect 1 1 2; ORedirect 1 1 3; ORedirect 1 2 1]%N.
Example C66_cycle_without_panic :
  history E0 True (kg E0 e66b 1) (kt E0 e66b 1) (ks E0 e66b 1) /\ redir_loop (ts_redir (ks E0 e66b 1)) /\
  commit E0 (kt E0 e66b 1) (kg E0 e66b 1) = Done (kc E0 e66b 1) tt /\
  graph_get (kc E0 e66b 1) 2%N = Some (nA 3 [3] [3; 0; 3] 2)%N.
Proof.
  split; [hist|]. split; [|split; computes]. assert (ts_redir (ks E0 e66b 1) = [(1, 2); (1, 3); (2, 1)]%N) as -> by computes.
  exists 1%N. eapply tc_l; [|apply tc_once]; cbn beta; apply elem_of_list_In; cbn; [by left|by right; right; left].
Qed.
(** The order of the calls decides: the same calls with 2 to 1 before 1 to 3. *)
Definition e66d : list opn := setup ++ [ONewTrans 1 0; ORedirect 1 1 2; ORedirect 1 2 1; ORedirect 1 1 3]%N.
Definition P66d : gmap N idx := {[1 := 2]}%N.
Example C66_loop_case :
  history E0 True (kg E0 e66d 1) (kt E0 e66d 1) (ks E0 e66d 1) /\ ts_res (ks E0 e66d 1) = ∅ /\
  ts_redir (ks E0 e66d 1) = [(1, 2)]%N ++ (2, 1)%N :: [(1, 3)]%N /\
  redir_ptrs [(1, 2)]%N P66d /\ leads P66d 1%N 2%N /\ plain_closures (ks E0 e66d 1) /\
  commit E0 (kt E0 e66d 1) (kg E0 e66d 1) = Panicked PLoop (kg E0 e66d 1).
Proof.
  split; [hist|]. split; [decides|]. split; [computes|].
  split. { apply (ptrsb_sound 1 [] _ ∅); [apply ptrs_nil|decides]. }
  split; [apply (walk_leads 1 P66d 1%N); computes|]. split; [|computes].
  split; [intros i f n n' p Hin|intros i f n p Hin]; by apply elem_of_nil in Hin.
Qed.
