(** * Property theorems: exactly what a panicking commit leaves (C70) *)
From Verif Require Import Grouped ExHist Decide PropsGraph PropsBidi GraphFinal PropsFindings PropsTrans PropsPanic.
From Verif Require Import Exact PropsExact Stops.

(** A commit is not atomic ([C40_atomic_refuted]).  Every panic leaves one of these:
    - the graph as it was (debug build, with reserved indices that were not filled);
    - the nodes [m'] given by the calls before one the commit cannot execute: a loop in a
      redirect list, a redirect, mutate, update or remove of an index without node
      ([commit_stops] goes through the phases in their order), with an exact index;
    - what a failing closure left ([closure_left], see C60);
    - everything the transaction specifies ([m']) with an exact index.  The link type panic
      comes after the maintenance of bidirectional links: the links are as after a successful
      commit (C53).  A panic of the maintenance itself: of the links of [m'] some opposites of
      dropped links are gone ([gone]; all of them if no opposite is a Vec field or unknown),
      and opposites of some added links ([made]) are there. *)
Theorem C70_panic_exact :
  forall {D} (E : env) (T : Prop) (g : graph D) (t : trans D) (s : tspec D) m p g',
  history E T g t s -> nodes_are g m -> commit E t g = Panicked p g' ->
  (e_dbg E = true /\ ts_res s <> ∅ /\ g' = g) \/
  closure_left E s p m g' \/
  (forall y x src, y <> 0%N ->
     (exists b, omap_get y (g_back g') = Some b /\ (x, src) ∈ b) <->
     (exists n, graph_get g' x = Some n /\ (y, src) ∈ iter_sources E n)) /\
  ((exists m', commit_stops (ts_txn s) p m m' /\ nodes_are g' m') \/
   exists m', sp_commit (ts_txn s) m m' /\ holds_nonbidi E g' m' /\
     ((forall l k, k ∈ e_opp E l -> nonvec E l) ->
      (p = PLinkType /\
       forall a b k, in_graph g' a b k <->
         (in_nodes m' a b k /\
          ~ exists l, (in_graph g b a l /\ ~ in_nodes m' b a l) /\ k ∈ e_opp E l /\ is_Some (m' !! b)) \/
         (exists l na, (in_nodes m' b a l /\ ~ in_graph g b a l) /\ m' !! a = Some na /\ opposites_on E l (nvar na) = [k])) \/
      exists gone made : idx -> idx -> link -> Prop,
        (forall a b k, gone a b k -> exists l, (in_graph g b a l /\ ~ in_nodes m' b a l) /\ k ∈ e_opp E l) /\
        (forall x y l, made x y l -> in_nodes m' x y l /\ ~ in_graph g x y l) /\
        (forall a b k, in_graph g' a b k <-> (in_nodes m' a b k /\ ~ gone a b k) \/
           exists l na, made b a l /\ m' !! a = Some na /\ opposites_on E l (nvar na) = [k]) /\
        (bidi_fields E -> forall a b k l, in_graph g b a l /\ ~ in_nodes m' b a l -> k ∈ e_opp E l -> is_Some (m' !! b) -> gone a b k))).
Proof.
  intros D E T g t s m p g' Hh Hm Hc.
  assert (WF E g' -> forall y x src, y <> 0%N ->
     (exists b, omap_get y (g_back g') = Some b /\ (x, src) ∈ b) <->
     (exists n, graph_get g' x = Some n /\ (y, src) ∈ iter_sources E n)) as Hix.
  { intros Hwf y x src Hy. split.
    - intros Hb. destruct (wf_b3 _ _ Hwf y x src Hy Hb) as (n&Hx&Hs). exists n. by rewrite elem_iter_sources.
    - intros (n&Hx&Hs). rewrite elem_iter_sources in Hs. exact (wf_b2 _ _ Hwf x n src y Hx Hs). }
  destruct (final_panic_left E T g t s Hh m p g' Hm Hc) as [?|[(m'&Hs&Hn&Hwf)|[Hl|(m'&Hsp&Hho&Hwf&Hr)]]].
  - by left.
  - right. right. split; [by apply Hix|]. left. by exists m'.
  - right. left. by eapply closure_left_commit.
  - right. right. split; [by apply Hix|]. right. exists m'. done.
Qed.
Print Assumptions C70_panic_exact.

Definition s70 (os : list opn) : list opn := setup ++ ONewTrans 1 0 :: OInsert 1 (nA 1 [3] [2] 5)%N 5 :: os.
(** redirecting 1 to 4 and the unknown index 99 to 2: the first is done, the new node 5 is not there *)
Definition s70a : list opn := s70 [ORedirect 1 1 4; ORedirect 1 99 2; OMutate 1 2 bump_mut]%N.
(** the update of 99 finds no node: node 5 and the mutate are there, nothing is redirected or removed *)
Definition s70b : list opn := s70 [OMutate 1 2 bump_mut; OUpdate 1 4 bump_upd; OUpdate 1 99 bump_upd; OUpdate 1 1 bump_upd; ORedirectAll 1 3 2; ORemove 1 4]%N.
(** a loop in the redirect_all_links calls *)
Definition s70c : list opn := s70 [OMutate 1 2 bump_mut; ORedirectAll 1 3 2; ORedirectAll 1 2 3; ORemove 1 4]%N.
(** the removal of 99: node 1 is removed already, node 4 is not *)
Definition s70d : list opn := s70 [ORemove 1 1; ORemove 1 99; ORemove 1 4]%N.
Example C70_case :
  (history E0 True (kg E0 s70a 1) (kt E0 s70a 1) (ks E0 s70a 1) /\
   commit E0 (kt E0 s70a 1) (kg E0 s70a 1) = Panicked PUnwrap (kc E0 s70a 1) /\
   graph_get (kc E0 s70a 1) 2%N = Some (nA 4 [4] [4; 0; 4] 2)%N /\ graph_get (kc E0 s70a 1) 5%N = None) /\
  (history E0 True (kg E0 s70b 1) (kt E0 s70b 1) (ks E0 s70b 1) /\
   commit E0 (kt E0 s70b 1) (kg E0 s70b 1) = Panicked PUnwrap (kc E0 s70b 1) /\
   graph_get (kc E0 s70b 1) 1%N = Some (nB 0 [] 1)%N /\ graph_get (kc E0 s70b 1) 2%N = Some (nA 1 [1] [1; 0; 1] 102)%N /\
   graph_get (kc E0 s70b 1) 4%N = Some (nB 0 [] 104)%N /\ graph_get (kc E0 s70b 1) 5%N = Some (nA 1 [3] [2] 5)%N) /\
  (history E0 True (kg E0 s70c 1) (kt E0 s70c 1) (ks E0 s70c 1) /\
   commit E0 (kt E0 s70c 1) (kg E0 s70c 1) = Panicked PLoop (kc E0 s70c 1) /\
   graph_get (kc E0 s70c 1) 2%N = Some (nA 1 [1] [1; 0; 1] 102)%N /\ graph_get (kc E0 s70c 1) 5%N = Some (nA 1 [3] [2] 5)%N) /\
  (history E0 True (kg E0 s70d 1) (kt E0 s70d 1) (ks E0 s70d 1) /\
   commit E0 (kt E0 s70d 1) (kg E0 s70d 1) = Panicked PRemoveMissing (kc E0 s70d 1) /\
   graph_get (kc E0 s70d 1) 1%N = None /\ graph_get (kc E0 s70d 1) 2%N = Some (nA 0 [] [0; 0; 0] 2)%N /\
   graph_get (kc E0 s70d 1) 4%N = Some (nB 0 [] 4)%N).
Proof.
  split; [|split; [|split]]; (split; [hist|]); repeat (split; [computes|]); computes.
Qed.
(** Bidirectional links: the commit makes 5 -> 2, 6 -> 4 and 3 -> 2 and drops 3 -> 1.  The
    opposite 1 -> 3 is gone and 2 -> 5 is there, but 4 -> 6 cannot be: the direct link of 4 is
    taken.  The opposite 2 -> 3 is still missing then. *)
Definition b70 : list opn := bsetup ++
  [ONewTrans 1 0; OInsert 1 (nA 2 [] [] 5) 5; OInsert 1 (nB 0 [4] 6) 6; OMutate 1 3 (relink 2 [4] [])]%N.
Example C70_case_maintenance :
  history E1 True (kg E1 b70 1) (kt E1 b70 1) (ks E1 b70 1) /\ bidi_fields E1 /\
  commit E1 (kt E1 b70 1) (kg E1 b70 1) = Panicked PAddOccupied (kc E1 b70 1) /\
  graph_get (kg E1 b70 1) 1%N = Some (nB 0 [3; 4] 1)%N /\ graph_get (kc E1 b70 1) 1%N = Some (nB 0 [4] 1)%N /\
  graph_get (kc E1 b70 1) 2%N = Some (nB 0 [5] 2)%N /\ graph_get (kc E1 b70 1) 3%N = Some (nA 2 [4] [] 3)%N /\
  graph_get (kc E1 b70 1) 4%N = Some (nA 1 [3] [3] 4)%N /\ graph_get (kc E1 b70 1) 6%N = Some (nB 0 [4] 6)%N.
Proof. split; [hist|]. split; [apply E1_fields|]. split; [computes|]. repeat (split; [computes|]). computes. Qed.
