(** * The library's own tests, run in the model

    Every test of /repo/tests and the doc tests of /repo/src that assert something, as a
    list of calls and the assertions, computed in the model.  Nothing is proved here about
    other inputs: the file checks the reading of the source against the results its
    authors expect.  [#[should_panic]] tests also name the panic.  Each test is run with three
    iteration orders of hash sets. *)
From Verif Require Import Schema DecideSchema ExecHist Api.
From Coq Require Import Ascii.

Definition upper (c : ascii) : ascii :=
  let n := N_of_ascii c in if (97 <=? n)%N && (n <=? 122)%N then ascii_of_N (n - 32) else c.
(** [upper_camel] on the names used below: words end at [_] *)
Fixpoint camel_from (up : bool) (s : string) : string :=
  match s with
  | EmptyString => EmptyString
  | String c r => if (N_of_ascii c =? 95)%N then camel_from true r else String (if up then upper c else c) (camel_from false r)
  end.
Definition camel (s : string) : string := camel_from true s.

Inductive outcome := Good (g : graph nat) | Bad (p : panic) | Stuck.
(** run the calls, then commit transaction [k] to graph 0 *)
Definition after (E : env) (os : list (op (D:=nat))) (k : nat) : outcome :=
  match run E world_new os with
  | Some w =>
    match w_trans w !! k, w_graphs w !! 0 with
    | Some (_, t), Some (_, g) => match commit E t g with Done g' _ => Good g' | Panicked p _ => Bad p end
    | _, _ => Stuck
    end
  | None => Stuck
  end.
Definition holds (o : outcome) (P : graph nat -> bool) : bool := match o with Good g => P g | _ => false end.
Definition panics (o : outcome) (p : panic) : bool := match o with Bad q => bool_decide (q = p) | _ => false end.

(** orders of hash sets: two fixed ones, and one depending on the hasher *)
Definition orders : list (N -> list idx -> list idx) := [fun _ l => l; fun _ => @rev idx; fun h l => if N.odd h then rev l else l].
Definition each_order (s : schema) (P : env -> bool) : bool := forallb (fun ho => P (env_of camel s ho true)) orders.

(** [assert_eq] on sets: hash sets ignore the order, the other set types list it *)
Definition val_eqb (a b : linkval) : bool :=
  match a, b with
  | LDirect i, LDirect j => (i =? j)%N
  | LSet (SetType SHash _) l, LSet (SetType SHash _) k => bool_decide (length l = length k) && forallb (fun x => bool_decide (x ∈ k)) l
  | LSet k l, LSet k' l' => bool_decide (st_kind k = st_kind k') && bool_decide (l = l')
  | LVec l, LVec k => bool_decide (l = k)
  | _, _ => false
  end.
(** [OrderSet::set_eq] *)
Definition val_set_eqb (a b : linkval) : bool :=
  match a, b with
  | LSet (SetType SOrder _) l, LSet (SetType SOrder _) k => bool_decide (length l = length k) && forallb (fun x => bool_decide (x ∈ k)) l
  | _, _ => val_eqb a b
  end.
Fixpoint vals_eqb (eqb : linkval -> linkval -> bool) (l k : list linkval) : bool :=
  match l, k with [], [] => true | a :: l', b :: k' => eqb a b && vals_eqb eqb l' k' | _, _ => false end.
Definition node_eqb eqb (n m : node nat) : bool :=
  (nvar n =? nvar m) && vals_eqb eqb (nlinks n) (nlinks m) && bool_decide (ndata n = ndata m).
Definition is_node (g : graph nat) (x : idx) (n : node nat) : bool :=
  match graph_get g x with Some m => node_eqb val_eqb m n | None => false end.
Definition is_node_set (g : graph nat) (x : idx) (n : node nat) : bool :=
  match graph_get g x with Some m => node_eqb val_set_eqb m n | None => false end.
Definition no_node (g : graph nat) (x : idx) : bool := match graph_get g x with Some _ => false | None => true end.
Fixpoint all_of (l : list bool) : bool := match l with [] => true | b :: l' => b && all_of l' end.

Definition start : list (op (D:=nat)) := [ONewCtx 7; ONewGraph 0 0; ONewTrans 0 0]%N.
Open Scope string_scope.
Open Scope N_scope.

(** ** tests/test_bidirectional.rs *)
Definition nodeType : schema := Schema
  [("GraphNode", Struct [Field "tos" (FLink (KSet SBTree)) []; Field "froms" (FLink (KSet SBTree)) []; Field "data" (FPath "usize") []] []);
   ("PairNode", Struct [Field "the_other" (FLink KDirect) []] []);
   ("TreeNode", Struct [Field "children" (FLink (KSet SHash)) []; Field "father" (FLink KDirect) []] []);
   ("BoxNode", Struct [Field "inside" (FLink (KSet SOrder)) []] []);
   ("DataNode", Struct [Field "parent" (FLink KDirect) []; Field "data" (FPath "usize") []] [])]
  [Bidi "GraphNode" "tos" "GraphNode" "froms"; Bidi "PairNode" "the_other" "PairNode" "the_other";
   Bidi "TreeNode" "father" "TreeNode" "children"; Bidi "BoxNode" "inside" "DataNode" "parent"] [] [].
Definition GN (tos froms : list idx) (d : nat) : node nat := Node 0 [LSet SBTree tos; LSet SBTree froms] [("usize", d)].
Definition PN (x : idx) : node nat := Node 1 [LDirect x] [].
Definition TN (ch : list idx) (f : idx) : node nat := Node 2 [LSet SHash ch; LDirect f] [].
Definition BN (l : list idx) : node nat := Node 3 [LSet SOrder l] [].
Definition DN (p : idx) (d : nat) : node nat := Node 4 [LDirect p] [("usize", d)].
Notation gn1 := 1. Notation gn2 := 2. Notation gn3 := 3. Notation pn1 := 4. Notation pn2 := 5. Notation pn3 := 6.
Notation tn1 := 7. Notation tn2 := 8. Notation tn3 := 9. Notation tn4 := 10. Notation bn := 11.
Notation dn1 := 12. Notation dn2 := 13. Notation dn3 := 14.
(** L84-184 *)
Definition build_graph : list (op (D:=nat)) := start ++
  [OAlloc 0 0 gn1; OAlloc 0 0 gn2; OAlloc 0 0 gn3; OAlloc 0 1 pn1; OAlloc 0 1 pn2; OAlloc 0 1 pn3;
   OAlloc 0 2 tn1; OAlloc 0 2 tn2; OAlloc 0 2 tn3; OAlloc 0 2 tn4; OAlloc 0 3 bn; OAlloc 0 4 dn1; OAlloc 0 4 dn2; OAlloc 0 4 dn3;
   OFill 0 gn1 (GN [gn2; gn3] [gn3] 1); OFill 0 gn2 (GN [gn2] [gn3] 2); OFill 0 gn3 (GN [] [gn1] 3);
   OFill 0 pn1 (PN 0); OFill 0 pn2 (PN pn1); OFill 0 pn3 (PN 0);
   OFill 0 tn1 (TN [tn2] 0); OFill 0 tn2 (TN [tn4] tn1); OFill 0 tn3 (TN [] tn1); OFill 0 tn4 (TN [] 0);
   OFill 0 bn (BN [dn1; dn3; tn1; gn1; pn3]); OFill 0 dn1 (DN bn 1); OFill 0 dn2 (DN bn 2); OFill 0 dn3 (DN 0 3)].
(** L187-297 *)
Example can_build_graph : each_order nodeType (fun E => holds (after E build_graph 0) (fun g => all_of
  [is_node g gn1 (GN [gn2; gn3] [gn3] 1); is_node g gn2 (GN [gn2] [gn1; gn2; gn3] 2); is_node g gn3 (GN [gn1; gn2] [gn1] 3);
   is_node g pn1 (PN pn2); is_node g pn2 (PN pn1); is_node g pn3 (PN 0);
   is_node g tn1 (TN [tn2; tn3] 0); is_node g tn2 (TN [tn4] tn1); is_node g tn3 (TN [] tn1); is_node g tn4 (TN [] tn2);
   is_node_set g bn (BN [dn1; dn2; dn3; tn1; gn1; pn3]); is_node g dn1 (DN bn 1); is_node g dn2 (DN bn 2); is_node g dn3 (DN bn 3);
   check_backlinks E g])) = true.
Proof. vm_compute. reflexivity. Qed.

Definition trans1 (os : list (op (D:=nat))) : list (op (D:=nat)) := build_graph ++ [OCommit 0 0; ONewTrans 1 0] ++ os.
(** L300-445 *)
Notation gn4 := 15 (only parsing). Notation pn4 := 16 (only parsing). Notation tn5 := 17 (only parsing).
Notation dn5 := 18 (only parsing). Notation bn2 := 19 (only parsing). Notation dn4 := 20 (only parsing).
Example can_add_node : each_order nodeType (fun E => holds (after E (trans1
  [OAlloc 1 0 gn4; OFill 1 gn4 (GN [gn2; gn3; gn4] [gn1; gn3] 4); OInsert 1 (PN pn3) pn4; OInsert 1 (TN [] tn2) tn5;
   OAlloc 1 4 dn5; OInsert 1 (BN [dn5]) bn2; OInsert 1 (DN bn 4) dn4; OFill 1 dn5 (DN 0 5)]) 1) (fun g => all_of
  [is_node g gn1 (GN [gn2; gn3; gn4] [gn3] 1); is_node g gn2 (GN [gn2] [gn1; gn2; gn3; gn4] 2);
   is_node g gn3 (GN [gn1; gn2; gn4] [gn1; gn4] 3); is_node g gn4 (GN [gn2; gn3; gn4] [gn1; gn3; gn4] 4);
   is_node g pn1 (PN pn2); is_node g pn2 (PN pn1); is_node g pn3 (PN pn4); is_node g pn4 (PN pn3);
   is_node g tn1 (TN [tn2; tn3] 0); is_node g tn2 (TN [tn4; tn5] tn1); is_node g tn3 (TN [] tn1); is_node g tn4 (TN [] tn2);
   is_node g tn5 (TN [] tn2);
   is_node_set g bn (BN [dn1; dn2; dn3; dn4; tn1; gn1; pn3]); is_node g bn2 (BN [dn5]);
   is_node g dn1 (DN bn 1); is_node g dn2 (DN bn 2); is_node g dn3 (DN bn 3); is_node g dn4 (DN bn 4); is_node g dn5 (DN bn2 5);
   check_backlinks E g])) = true.
Proof. vm_compute. reflexivity. Qed.

(** [mut_node!] and [update_node!] of a variant with a change of the link fields *)
Definition mutv (v : nat) (f : list linkval -> list linkval) : mut_fn nat := fun n =>
  if decide (nvar n = v) then Done (Node (nvar n) (f (nlinks n)) (ndata n)) tt else Panicked PTypeMacro n.
Definition updv (v : nat) (f : list linkval -> list linkval) : upd_fn nat := fun n =>
  if decide (nvar n = v) then Ok (Node (nvar n) (f (nlinks n)) (ndata n)) else Err PTypeMacro.
Definition del_in (f : nat) (x : idx) (l : list linkval) : list linkval :=
  alter (fun lv => match lv with LSet k s => LSet k (set_remove k x s) | _ => lv end) f l.
Definition ins_in (f : nat) (x : idx) (l : list linkval) : list linkval :=
  alter (fun lv => match lv with LSet k s => LSet k (set_insert k x s) | _ => lv end) f l.
Definition put_in (f : nat) (x : idx) (l : list linkval) : list linkval := <[f := LDirect x]> l.
(** L447-634; the indices are handed out in another order than in the previous test *)
Example can_modify_and_update_node :
  let gn4 := 15 in let pn4 := 16 in let tn5 := 17 in let dn4 := 18 in let bn2 := 19 in let dn5 := 20 in
  each_order nodeType (fun E => holds (after E (trans1
  [OAlloc 1 0 gn4;
   OMutate 1 gn1 (mutv 0 (fun l => del_in 1 gn3 (del_in 0 gn3 l)));
   OMutate 1 gn2 (mutv 0 (del_in 0 gn2));
   OUpdate 1 gn3 (updv 0 (fun _ => [LSet SBTree [gn2]; LSet SBTree [gn4]]));
   OFill 1 gn4 (GN [gn2; gn4] [gn1; gn3] 4);
   OInsert 1 (PN pn2) pn4; OMutate 1 pn1 (mutv 1 (put_in 0 0)); OMutate 1 pn2 (mutv 1 (put_in 0 0));
   OInsert 1 (TN [tn2; tn4] tn1) tn5;
   OMutate 1 tn2 (mutv 2 (fun l => del_in 0 tn4 (put_in 1 tn5 l))); OMutate 1 tn4 (mutv 2 (put_in 1 tn5));
   OInsert 1 (DN 0 4) dn4;
   OMutate 1 bn (mutv 3 (fun l => ins_in 0 dn4 (del_in 0 gn1 (del_in 0 dn3 (del_in 0 dn2 l)))));
   OInsert 1 (BN [dn2; dn3; gn1]) bn2;
   OUpdate 1 dn2 (updv 4 (fun _ => [LDirect bn2])); OMutate 1 dn3 (mutv 4 (put_in 0 0)); OInsert 1 (DN bn2 5) dn5]) 1) (fun g => all_of
  [is_node g gn1 (GN [gn2; gn4] [] 1); is_node g gn2 (GN [] [gn1; gn3; gn4] 2); is_node g gn3 (GN [gn2; gn4] [gn4] 3);
   is_node g gn4 (GN [gn2; gn3; gn4] [gn1; gn3; gn4] 4);
   is_node g pn1 (PN 0); is_node g pn2 (PN pn4); is_node g pn3 (PN 0); is_node g pn4 (PN pn2);
   is_node g tn1 (TN [tn5; tn3] 0); is_node g tn2 (TN [] tn5); is_node g tn3 (TN [] tn1); is_node g tn4 (TN [] tn5);
   is_node g tn5 (TN [tn2; tn4] tn1);
   is_node_set g bn (BN [dn1; dn4; tn1; pn3]); is_node_set g bn2 (BN [dn2; dn3; dn5; gn1]);
   is_node g dn1 (DN bn 1); is_node g dn2 (DN bn2 2); is_node g dn3 (DN bn2 3); is_node g dn4 (DN bn 4); is_node g dn5 (DN bn2 5);
   check_backlinks E g])) = true.
Proof. vm_compute. reflexivity. Qed.
(** L636-749 *)
Example can_remove_node : each_order nodeType (fun E => holds (after E (trans1
  [ORemove 1 gn3; ORemove 1 pn2; ORemove 1 tn2; ORemove 1 dn3]) 1) (fun g => all_of
  [is_node g gn1 (GN [gn2] [] 1); is_node g gn2 (GN [gn2] [gn1; gn2] 2); no_node g gn3;
   is_node g pn1 (PN 0); no_node g pn2; is_node g pn3 (PN 0);
   is_node g tn1 (TN [tn3] 0); no_node g tn2; is_node g tn3 (TN [] tn1); is_node g tn4 (TN [] 0);
   is_node_set g bn (BN [dn1; dn2; tn1; gn1; pn3]); is_node g dn1 (DN bn 1); is_node g dn2 (DN bn 2); no_node g dn3;
   check_backlinks E g])) = true.
Proof. vm_compute. reflexivity. Qed.
(** L751-888; here the order inside [OrderSet]s is asserted *)
Example can_redirect_node :
  let bn2 := 15 in
  each_order nodeType (fun E => holds (after E (trans1
  [ORedirect 1 gn2 gn3; ORedirect 1 pn2 pn3; ORedirect 1 tn2 tn3; OInsert 1 (BN []) bn2; ORedirect 1 bn bn2]) 1) (fun g => all_of
  [is_node g gn1 (GN [gn3] [gn3] 1); is_node g gn2 (GN [gn3] [] 2); is_node g gn3 (GN [gn1; gn3] [gn1; gn2; gn3] 3);
   is_node g pn1 (PN pn3); is_node g pn2 (PN 0); is_node g pn3 (PN pn1);
   is_node g tn1 (TN [tn3] 0); is_node g tn2 (TN [] 0); is_node g tn3 (TN [tn4] tn1); is_node g tn4 (TN [] tn3);
   is_node g bn (BN [tn1; gn1; pn3]); is_node g bn2 (BN [dn1; dn2; dn3]);
   is_node g dn1 (DN bn2 1); is_node g dn2 (DN bn2 2); is_node g dn3 (DN bn2 3);
   check_backlinks E g])) = true.
Proof. vm_compute. reflexivity. Qed.

(** [Left1] .. [Right4]: L894-992, also tests/test_link_type.rs:265-343 and the doc test of lib.rs:646-812 *)
Definition lr_struct (l r : string) : sdecl := Struct [Field "g1" (FLink KDirect) [[l]]; Field "g2" (FLink KDirect) [[r]]] [].
Definition lr_vars : list (string * sdecl) :=
  [("Left1", lr_struct "l1" "l2"); ("Left2", lr_struct "l1" "l2"); ("Left3", lr_struct "l1" "l2"); ("Left4", lr_struct "l1" "l2");
   ("Right1", lr_struct "r1" "r2"); ("Right2", lr_struct "r1" "r2"); ("Right3", lr_struct "r1" "r2"); ("Right4", lr_struct "r1" "r2")].
Definition lr_groups : list (string * list string) :=
  [("left", ["Left1"; "Left2"; "Left3"; "Left4"]); ("right", ["Right1"; "Right2"; "Right3"; "Right4"]);
   ("LU", ["Left1"; "Left2"]); ("LD", ["Left3"; "Left4"]); ("RU", ["Right1"; "Right2"]); ("RD", ["Right3"; "Right4"])].
Definition lr_anns : list adecl := [Anno "left" "l1" ["RU"]; Anno "left" "l2" ["RD"]; Anno "right" "r1" ["LU"]; Anno "right" "r2" ["LD"]].
Definition LR : schema := Schema lr_vars
  [Bidi "LU" "l1" "RU" "r1"; Bidi "LD" "l1" "RU" "r2"; Bidi "LU" "l2" "RD" "r1"; Bidi "LD" "l2" "RD" "r2"] lr_groups lr_anns.
Definition n8 (v : nat) (a b : idx) : node nat := Node v [LDirect a; LDirect b] [].
Notation l1 := 1. Notation l2 := 2. Notation l3 := 3. Notation l4 := 4. Notation r1 := 5. Notation r2 := 6. Notation r3 := 7. Notation r4 := 8.
Definition lr_build (l : list (idx * idx)) : list (op (D:=nat)) :=
  start ++ imap (fun v _ => OAlloc 0 v (N.of_nat (S v))) l ++ imap (fun v p => OFill 0 (N.of_nat (S v)) (n8 v p.1 p.2)) l.
(** L994-1062 *)
Example test_group_bidirectional : each_order LR (fun E => holds (after E (lr_build
  [(r1, r3); (r2, r4); (r1, r4); (r2, r3); (0, 0); (0, 0); (0, 0); (0, 0)]) 0) (fun g => all_of
  [is_node g l1 (n8 0 r1 r3); is_node g l2 (n8 1 r2 r4); is_node g l3 (n8 2 r1 r4); is_node g l4 (n8 3 r2 r3);
   is_node g r1 (n8 4 l1 l3); is_node g r2 (n8 5 l2 l4); is_node g r3 (n8 6 l1 l4); is_node g r4 (n8 7 l2 l3)])) = true.
Proof. vm_compute. reflexivity. Qed.

(** L1064-1088 *)
Definition XY : schema := Schema
  [("XNode", Struct [Field "y" (FLink KDirect) []] []);
   ("YNode", Struct [Field "x1" (FLink KDirect) [["x"]]; Field "x2" (FLink KDirect) [["x"]]] [])]
  [Bidi "XNode" "y" "YNode" "x"] [] [Anno "XNode" "y" ["YNode"]; Anno "YNode" "x" ["XNode"]].
Definition XN (y : idx) : node nat := Node 0 [LDirect y] [].
Definition YN (x1 x2 : idx) : node nat := Node 1 [LDirect x1; LDirect x2] [].
(** L1090-1107 *)
Example test_multilink_1 : each_order XY (fun E => panics (after E (start ++
  [OInsert 0 (YN 0 0) 1; OInsert 0 (XN 1) 2; OInsert 0 (XN 1) 3]) 0) PMultiChoice) = true.
Proof. vm_compute. reflexivity. Qed.
(** L1109-1126 *)
Example test_multilink_2 : each_order XY (fun E => holds (after E (start ++
  [OInsert 0 (XN 0) 1; OInsert 0 (XN 0) 2; OInsert 0 (YN 1 2) 3]) 0) (fun g => all_of
  [is_node g 1 (XN 3); is_node g 2 (XN 3); is_node g 3 (YN 1 2)])) = true.
Proof. vm_compute. reflexivity. Qed.

(** ** tests/test_link_type.rs *)
Definition lt_schema : schema := Schema
  [("A", Struct [Field "to_a" (FLink KDirect) []; Field "to_b" (FLink (KSet SBTree)) []; Field "x" (FLink KDirect) []] []);
   ("B", Struct [Field "to_a" (FLink KVec) []; Field "to_b" (FLink (KSet SHash)) []; Field "x" (FLink KDirect) []] []);
   ("C", Struct [Field "x" (FLink KDirect) []; Field "y" (FLink KDirect) []] [])]
  [] [("AB", ["A"; "B"]); ("BC", ["B"; "C"])]
  [Anno "A" "to_a" ["A"]; Anno "A" "to_b" ["B"]; Anno "A" "x" ["A"; "B"]; Anno "B" "to_a" ["A"]; Anno "B" "to_b" ["B"];
   Anno "B" "x" ["BC"]; Anno "C" "x" ["AB"]; Anno "C" "y" ["AB"; "C"]].
Definition LA (a : idx) (bs : list idx) (x : idx) : node nat := Node 0 [LDirect a; LSet SBTree bs; LDirect x] [].
Definition LB (ls bs : list idx) (x : idx) : node nat := Node 1 [LVec ls; LSet SHash bs; LDirect x] [].
Definition LC (x y : idx) : node nat := Node 2 [LDirect x; LDirect y] [].
Notation a := 1 (only parsing). Notation b := 2 (only parsing). Notation c := 3 (only parsing). Notation d := 4 (only parsing).
Definition abc (na nb nc : node nat) : list (op (D:=nat)) := start ++
  [OAlloc 0 0 a; OAlloc 0 1 b; OAlloc 0 2 c; OFill 0 a na; OFill 0 b nb; OFill 0 c nc].
Definition ab (na nb : node nat) : list (op (D:=nat)) := start ++ [OAlloc 0 0 a; OAlloc 0 1 b; OFill 0 a na; OFill 0 b nb].
Definition accepts (o : outcome) : bool := holds o (fun _ => true).
(** L53-79, L81-107, L109-135, L137-163, L165-191, L193-225, L227-256 *)
Example test_link_type : each_order lt_schema (fun E => accepts (after E (abc (LA a [b] 0) (LB [a] [b] c) (LC b a)) 0)) = true.
Proof. vm_compute. reflexivity. Qed.
Example test_link_type2 : each_order lt_schema (fun E => panics (after E (ab (LA b [b] 0) (LB [a] [b] b)) 0) PLinkType) = true.
Proof. vm_compute. reflexivity. Qed.
Example test_link_type3 : each_order lt_schema (fun E => panics (after E (ab (LA a [a] 0) (LB [a] [b] b)) 0) PLinkType) = true.
Proof. vm_compute. reflexivity. Qed.
Example test_link_type4 : each_order lt_schema (fun E => panics (after E (ab (LA a [b] 0) (LB [a; b] [b] b)) 0) PLinkType) = true.
Proof. vm_compute. reflexivity. Qed.
Example test_link_type5 : each_order lt_schema (fun E => panics (after E (ab (LA a [b] 0) (LB [a] [a; b] b)) 0) PLinkType) = true.
Proof. vm_compute. reflexivity. Qed.
Example test_link_type6 : each_order lt_schema (fun E =>
  accepts (after E (ab (LA a [b] 0) (LB [a] [b] b)) 0) &&
  panics (after E (ab (LA a [b] 0) (LB [a] [b] b) ++ [OCommit 0 0; ONewTrans 1 0; OMutate 1 a (mutv 0 (ins_in 1 a))]) 1) PLinkType) = true.
Proof. vm_compute. reflexivity. Qed.
Example test_link_type7 : each_order lt_schema (fun E => panics (after E (abc (LA a [b] 0) (LB [a] [b] c) (LC c c)) 0) PLinkType) = true.
Proof. vm_compute. reflexivity. Qed.
Definition LRt : schema := Schema lr_vars [] lr_groups lr_anns.
(** L345-374, L376-406, L408-438 *)
Example test_group_link_1 : each_order LRt (fun E => accepts (after E (lr_build
  [(r1, r3); (r2, r3); (r1, r4); (r2, r4); (l1, l3); (l2, l3); (l1, l4); (l2, l4)]) 0)) = true.
Proof. vm_compute. reflexivity. Qed.
Example test_group_link_2 : each_order LRt (fun E => panics (after E (lr_build
  [(r1, r1); (r2, r3); (r1, r4); (r2, r4); (l1, l3); (l2, l3); (l1, l4); (l2, l4)]) 0) PLinkType) = true.
Proof. vm_compute. reflexivity. Qed.
Example test_group_link_3 : each_order LRt (fun E => panics (after E (lr_build
  [(r1, r3); (r2, r3); (r1, r4); (r2, r4); (l1, l3); (l2, l3); (l1, l4); (l4, l4)]) 0) PLinkType) = true.
Proof. vm_compute. reflexivity. Qed.

(** ** tests/test_group.rs *)
Definition grp : schema := Schema
  [("A", Struct [Field "a" (FLink KDirect) [["group1"; "x"]]; Field "b" (FLink KVec) [["group1"; "x"]]; Field "c" (FLink KDirect) [["group2"]];
                 Field "inserted" (FLink KDirect) []; Field "d" (FLink (KSet SBTree)) [["group2"; "x"]]] [])] [] [] [].
Definition G5 (a : idx) (b : list idx) (c i : idx) (d : list idx) : node nat :=
  Node 0 [LDirect a; LVec b; LDirect c; LDirect i; LSet SBTree d] [].
(** L44-67 *)
Example test_link_group : each_order grp (fun E => holds (after E (start ++
  [OInsert 0 (G5 0 [] 0 0 []) 1; OInsert 0 (G5 0 [] 0 0 []) 2; OInsert 0 (G5 0 [] 0 0 []) 3; OInsert 0 (G5 0 [] 0 0 []) 4;
   OInsert 0 (G5 1 [2; 3] 4 2 [1; 3]) 5]) 0) (fun g =>
  match graph_get g 5 with
  | Some n => all_of
    [bool_decide (get_links_by_group (struct_of grp 0) E n "group1" = [1; 2; 3]);
     bool_decide (get_links_by_group (struct_of grp 0) E n "group2" = [4; 1; 3]);
     bool_decide (get_links_by_group (struct_of grp 0) E n "x" = [1; 2; 3; 1; 3])]
  | None => false
  end)) = true.
Proof. vm_compute. reflexivity. Qed.
(** L69-116, also the doc test of typed_graph.rs:291-343 *)
Definition dat (f : string) : sdecl := Struct [Field f (FPath "usize") []] [].
Definition multi : schema := Schema [("A", dat "a"); ("B", dat "b"); ("C", dat "c"); ("D", dat "d")] []
  [("first", ["A"; "B"]); ("second", ["C"; "D"]); ("third", ["A"; "D"]); ("one", ["B"]); ("all", ["A"; "B"; "C"; "D"])] [].
Definition dn (v n : nat) : node nat := Node v [] [("usize", n)].
Example test_node_group : each_order multi (fun E => holds (after E (start ++
  [OInsert 0 (dn 0 1) a; OInsert 0 (dn 1 2) b; OInsert 0 (dn 2 3) c; OInsert 0 (dn 3 4) d]) 0) (fun g => all_of
  [bool_decide ((iter_group multi g "first").*1 = [a; b]); bool_decide ((iter_group multi g "second").*1 = [c; d]);
   bool_decide ((iter_group multi g "third").*1 = [a; d]); bool_decide ((iter_group multi g "one").*1 = [b]);
   bool_decide ((iter_group multi g "all").*1 = [a; b; c; d])])) = true.
Proof. vm_compute. reflexivity. Qed.
(** L118-148: a schema with a phantom group (also lib.rs:820-847) *)
Definition NodeAB : schema := Schema
  [("A", Struct [Field "x" (FLink KDirect) [["a"]]] ["b"]); ("B", Struct [Field "x" (FLink KDirect) [["a"]]; Field "y" (FLink KDirect) [["b"]]] [])]
  [] [("All", ["A"; "B"])] [Anno "All" "a" ["A"]; Anno "All" "b" ["B"]].

(** ** tests/test_basic.rs *)
(** L14-77; what is printed there is computed here *)
Definition basic : schema := Schema
  [("A", Struct [Field "to" (FLink KDirect) []; Field "name" (FPath "String") []] []);
   ("B", Struct [Field "a" (FLink KDirect) []; Field "x" (FLink KDirect) []; Field "data1" (FPath "usize") []] []);
   ("Empty", Struct [Field "x" (FPath "usize") []] [])] [] [] [].
Definition bA (t : idx) (n : nat) : node nat := Node 0 [LDirect t] [("String", n)].
Definition bB (a x : idx) (n : nat) : node nat := Node 1 [LDirect a; LDirect x] [("usize", n)].
Definition can_compile_ops : list (op (D:=nat)) := start ++
  [OInsert 0 (Node 2 [] [("usize", 0%nat)]) 1; OCommit 0 0; ONewTrans 1 0; OAlloc 1 1 2; OInsert 1 (bA 2 65) 3; OFill 1 2 (bB 3 1 3)].
Example can_compile : each_order basic (fun E => holds (after E can_compile_ops 1) (fun g => all_of
  [bool_decide ((graph_iter g).*1 = [3; 2; 1]);
   match iter_nodes g 0 with Ok l => bool_decide (l.*1 = [3]) | _ => false end;
   match iter_nodes g 1 with Ok l => bool_decide (l.*1 = [2]) | _ => false end;
   match iter_nodes g 2 with Ok l => bool_decide (l.*1 = [1]) | _ => false end;
   bool_decide (link_names (struct_of basic 1) = ["a"; "x"]); bool_decide (data_names (struct_of basic 0) = ["name"]);
   bool_decide (data_names (struct_of basic 1) = ["data1"]);
   match get_node g 0 3 with
   | Some n => bool_decide (data_ref (struct_of basic 0) n "String" "name" = Some 65%nat) &&
               bool_decide (data_ref (struct_of basic 0) n "usize" "name" = None) && bool_decide (data_ref (struct_of basic 0) n "String" "data1" = None)
   | None => false
   end;
   match get_node g 1 2 with Some n => bool_decide (data_ref (struct_of basic 1) n "usize" "data1" = Some 3%nat) | None => false end])) = true.
Proof. vm_compute. reflexivity. Qed.

(** L79-126, with the assertions of the doc tests transaction.rs:353-386 and 402-448 (there with [BTreeSet]) *)
Definition tosty (k : setkind) : schema := Schema [("A", Struct [Field "tos" (FLink (KSet k)) []] [])] [] [] [].
Definition tos (k : setkind) (l : list idx) : node nat := Node 0 [LSet k l] [].
Definition abcd (k : setkind) : list (op (D:=nat)) := start ++
  [OAlloc 0 0 a; OAlloc 0 0 b; OAlloc 0 0 c; OInsert 0 (tos k []) d; OFill 0 c (tos k [d]); OFill 0 b (tos k [c; d]); OFill 0 a (tos k [b; c; d])].
Definition all_to_a (k : setkind) (g : graph nat) : bool :=
  all_of [is_node g a (tos k [a]); is_node g b (tos k [a]); is_node g c (tos k [a]); is_node g d (tos k [])].
Example redirect_test : forallb (fun k => each_order (tosty k) (fun E => holds (after E (abcd k ++
  [OCommit 0 0; ONewTrans 1 0; ORedirect 1 c b; ORedirect 1 b a; ORedirect 1 d c]) 1) (fun g => all_to_a k g &&
  match deserialize_graph E (serialize g) with Ok (_, g2) => all_to_a k g2 | Err _ => false end)))
  [SBTree; SHash; SOrder; SIndex] = true.
Proof. vm_compute. reflexivity. Qed.
Example redirect_all_doc : forallb (fun k => each_order (tosty k) (fun E => holds (after E (abcd k ++
  [ORedirectAll 0 c b; ORedirectAll 0 b a; ORedirectAll 0 d c]) 0) (all_to_a k)))
  [SBTree; SHash; SOrder; SIndex] = true.
Proof. vm_compute. reflexivity. Qed.
(** L128-141 *)
Example uncommit_test : each_order (tosty SOrder) (fun E =>
  match run E world_new (abcd SOrder ++ [OGiveUp 0]) with Some _ => true | None => false end) = true.
Proof. vm_compute. reflexivity. Qed.
(** L143-171 *)
Definition vecty : schema := Schema [("VecNode", Struct [Field "x" (FLink KVec) []] [])] [] [] [].
Definition push0 (l : list linkval) : list linkval := alter (fun lv => match lv with LVec l => LVec (l ++ [0]) | _ => lv end) 0%nat l.
Example test_vec_empty : each_order vecty (fun E => holds (after E (start ++
  [OAlloc 0 0 1; OInsert 0 (Node 0 [LVec [1]] []) 2; OFill 0 1 (Node 0 [LVec []] []); OCommit 0 0;
   ONewTrans 1 0; OMutate 1 2 (mutv 0 push0)]) 1) (fun g => is_node g 2 (Node 0 [LVec [1; 0]] []))) = true.
Proof. vm_compute. reflexivity. Qed.

(** ** Doc tests *)
Definition usz : schema := Schema [("A", dat "data"); ("B", dat "b")] [] [] [].
Definition one : list (op (D:=nat)) := start ++ [OInsert 0 (dn 0 1) 1].
Definition set_data (n : nat) : mut_fn nat := fun x => if decide (nvar x = 0%nat) then Done (dn 0 n) tt else Done x tt.
Definition add_data : upd_fn nat := fun x =>
  if decide (nvar x = 0%nat) then Ok (Node 0 [] (prod_map id S <$> ndata x)) else Err PTypeMacro.
(** typed_graph.rs:153-186, transaction.rs:163-188 *)
Example get_doc : each_order usz (fun E => holds (after E one 0) (fun g => is_node g 1 (dn 0 1) && no_node g 0)) = true.
Proof. vm_compute. reflexivity. Qed.
(** typed_graph.rs:196-235, 244-281, macros.rs:48-85 *)
Example iter_doc : each_order usz (fun E => holds (after E (start ++ [OInsert 0 (dn 0 1) 1; OInsert 0 (dn 0 2) 2; OInsert 0 (dn 1 0) 3]) 0)
  (fun g => all_of [bool_decide (take 2 (ndata ∘ snd <$> graph_iter g) = [[("usize", 1%nat)]; [("usize", 2%nat)]]);
     forallb (fun p => (nvar p.2 =? 0)%nat) (graph_iter_type g 0);
     match iter_nodes g 0 with Ok l => bool_decide (ndata ∘ snd <$> l = [[("usize", 1%nat)]; [("usize", 2%nat)]]) | Err _ => false end])) = true.
Proof. vm_compute. reflexivity. Qed.
(** typed_graph.rs:351-374 *)
Example len_doc : each_order usz (fun E => (graph_len (graph_new (D:=nat) E 7) =? 0)%nat &&
  holds (after E (start ++ [OInsert 0 (dn 0 1) 1; OInsert 0 (dn 0 1) 2; OInsert 0 (dn 0 1) 3]) 0) (fun g => (graph_len g =? 3)%nat)) = true.
Proof. vm_compute. reflexivity. Qed.
(** transaction.rs:198-226 *)
Example remove_doc : each_order usz (fun E =>
  holds (after E one 0) (fun g => negb (no_node g 1)) && holds (after E (one ++ [OCommit 0 0; ONewTrans 1 0; ORemove 1 1]) 1) (fun g => no_node g 1)) = true.
Proof. vm_compute. reflexivity. Qed.
(** transaction.rs:237-268, 289-322, macros.rs:98-136, 174-212 *)
Example mutate_doc : each_order usz (fun E =>
  holds (after E (one ++ [OCommit 0 0; ONewTrans 1 0; OMutate 1 1 (set_data 2)]) 1) (fun g => is_node g 1 (dn 0 2)) &&
  holds (after E (one ++ [OCommit 0 0; ONewTrans 1 0; OUpdate 1 1 add_data]) 1) (fun g => is_node g 1 (dn 0 2))) = true.
Proof. vm_compute. reflexivity. Qed.
(** transaction.rs:79-109, 115-142 *)
Definition ring : schema := Schema [("A", Struct [Field "last" (FLink KDirect) []; Field "next" (FLink KDirect) []] [])] [] [] [].
Example alloc_doc : each_order ring (fun E =>
  holds (after E (start ++ [OAlloc 0 0 1; OAlloc 0 0 2; OAlloc 0 0 3; OFill 0 1 (n8 0 3 2); OFill 0 2 (n8 0 1 3); OFill 0 3 (n8 0 2 1)]) 0)
    (fun g => check_backlinks E g && is_node g 1 (n8 0 3 2)) &&
  holds (after E (start ++ [OAllocUntyped 0 1; OAllocUntyped 0 2; OAllocUntyped 0 3;
    OFillUntyped 0 1 (n8 0 3 2); OFillUntyped 0 2 (n8 0 1 3); OFillUntyped 0 3 (n8 0 2 1)]) 0) (fun g => check_backlinks E g && is_node g 1 (n8 0 3 2))) = true.
Proof. vm_compute. reflexivity. Qed.
(** transaction.rs:458-495: graph 1 is merged into graph 0; in the second half the result is
    brought to another context and merged into a graph of that context *)
Definition merge_ops : list (op (D:=nat)) :=
  [ONewCtx 7; ONewGraph 1 0; ONewTrans 1 0; OInsert 1 (dn 0 1) 1; OCommit 1 1;
   ONewGraph 0 0; ONewTrans 0 0; OInsert 0 (dn 0 1) 2; OMerge 0 1].
Definition merge_ops2 : list (op (D:=nat)) :=
  [ONewCtx 7; ONewGraph 1 0; ONewTrans 1 0; OInsert 1 (dn 0 1) 1; OCommit 1 1;
   ONewGraph 2 0; ONewTrans 0 0; OInsert 0 (dn 0 1) 2; OMerge 0 1; OCommit 2 0;
   ONewCtx 8; ONewGraph 0 1; ONewTrans 3 1; OSwitch 2 1; OMerge 3 2].
Example merge_doc : each_order usz (fun E => holds (after E merge_ops 0) (fun g => negb (no_node g 1)) &&
  holds (after E merge_ops2 3) (fun g => negb (no_node g 1) && negb (no_node g 2))) = true.
Proof. vm_compute. reflexivity. Qed.
(** transaction.rs:534-555 *)
Example is_empty_doc : each_order usz (fun E =>
  trans_is_empty (trans_new (D:=nat) E 7) &&
  match run E world_new one with
  | Some w => match w_trans w !! 0%nat with Some (_, t) => negb (trans_is_empty t) | None => false end
  | None => false
  end) = true.
Proof. vm_compute. reflexivity. Qed.

(** lib.rs:61-127 and 383-448: the factory, with and without [bidirectional!] *)
Definition factory (bs : list bdecl) : schema := Schema
  [("Factory", Struct [Field "name" (FPath "String") []; Field "workers" (FLink (KSet SHash)) []; Field "products" (FLink (KSet SHash)) []] []);
   ("Worker", Struct [Field "name" (FPath "String") []; Field "factory" (FLink KDirect) []; Field "produced" (FLink KVec) []] []);
   ("Product", Struct [Field "id" (FPath "usize") []] [])] bs [] [].
Definition fac (ws ps : list idx) : node nat := Node 0 [LSet (SetType SHash 1) ws; LSet (SetType SHash 2) ps] [("String", 70%nat)].
Definition wrk (n : nat) (f : idx) (ps : list idx) : node nat := Node 1 [LDirect f; LVec ps] [("String", n)].
Definition prd (n : nat) : node nat := Node 2 [] [("usize", n)].
Example factory_doc : each_order (factory []) (fun E => holds (after E (start ++
  [OInsert 0 (prd 1) 1; OInsert 0 (prd 2) 2; OAlloc 0 1 3; OAlloc 0 1 4; OInsert 0 (fac [3; 4] [1; 2]) 5;
   OFill 0 3 (wrk 65 5 [2]); OFill 0 4 (wrk 66 5 [1])]) 0) (fun g => is_node g 5 (fac [3; 4] [1; 2]))) = true.
Proof. vm_compute. reflexivity. Qed.
Example factory_bidi_doc : each_order (factory [Bidi "Factory" "workers" "Worker" "factory"]) (fun E => holds (after E (start ++
  [OInsert 0 (prd 1) 1; OInsert 0 (prd 2) 2; OInsert 0 (fac [] [1; 2]) 3; OInsert 0 (wrk 65 3 [2]) 4; OInsert 0 (wrk 66 3 [1]) 5]) 0)
  (fun g => is_node g 3 (fac [4; 5] [1; 2]))) = true.
Proof. vm_compute. reflexivity. Qed.

(** all these declarations compile, hence must be [accepted] *)
Example accepted_all : forallb (acceptedb camel)
  [nodeType; LR; LRt; XY; lt_schema; grp; multi; NodeAB; basic; tosty SBTree; tosty SOrder; vecty; usz; ring; factory [];
   factory [Bidi "Factory" "workers" "Worker" "factory"]] = true.
Proof. vm_compute. reflexivity. Qed.
