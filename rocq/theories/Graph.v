(** * The graph

    Model of /repo/src/typed_graph.rs:126-824 and /repo/src/typed_graph/serialize.rs. *)
From Verif Require Export Trans.

(** typed_graph.rs:126-134 *)
Record graph (D : Type) := Graph {
  g_ctx : N;
  g_nodes : arena D;
  g_back : list (idx * list (idx * source)) }.
Arguments Graph {D} _ _ _.
Arguments g_ctx {D} _.
Arguments g_nodes {D} _.
Arguments g_back {D} _.

(** [LinkChangeRecorder], typed_graph.rs:764-767: ordered sets of (from, to, link) *)
Record lcr := Lcr { lc_adds : list (idx * idx * link); lc_rems : list (idx * idx * link) }.
Definition lcr_new : lcr := Lcr [] [].

(** typed_graph.rs:770-779 *)
Definition lcr_add (x y : idx) (l : link) (r : lcr) : lcr :=
  if (y =? 0)%N then r
  else if decide ((x, y, l) ∈ lc_rems r) then Lcr (lc_adds r) (oset_del (x, y, l) (lc_rems r))
  else Lcr (oset_insert (x, y, l) (lc_adds r)) (lc_rems r).

(** typed_graph.rs:785-794 *)
Definition lcr_rem (x y : idx) (l : link) (r : lcr) : lcr :=
  if (y =? 0)%N then r
  else if decide ((x, y, l) ∈ lc_adds r) then Lcr (oset_del (x, y, l) (lc_adds r)) (lc_rems r)
  else Lcr (lc_adds r) (oset_insert (x, y, l) (lc_rems r)).

(** ** Chain resolution of redirect lists, typed_graph.rs:614-648.
    [fa] is the parent map; [fuel] bounds the [while] loops, running out of it
    ([PDiverge]) stands for an endless loop. *)
Definition fa_init (reps : list (idx * idx)) : list (idx * idx) :=
  (* L615-620 *)
  fold_left (fun fa '(old, new) => omap_entry new new (omap_entry old old fa)) reps [].

(** L623-626: [x = new; while fa[&x] != x { x = fa[&x] }] *)
Fixpoint fa_root (fuel : nat) (fa : list (idx * idx)) (x : idx) : res idx :=
  match fuel with
  | O => Err PDiverge
  | S fuel' =>
    match omap_get x fa with
    | None => Err PUnwrap
    | Some p => if decide (p = x) then Ok x else fa_root fuel' fa p
    end
  end.

(** L622-629: build the forest *)
Fixpoint fa_build (reps : list (idx * idx)) (fa : list (idx * idx)) : res (list (idx * idx)) :=
  match reps with
  | [] => Ok fa
  | (old, new) :: reps' =>
    match fa_root (S (length fa)) fa new with
    | Err p => Err p
    | Ok x =>
      if decide (x = old) then Err PLoop
      else match omap_get old fa with
           | None => Err PUnwrap
           | Some _ => fa_build reps' (omap_insert old x fa)
           end
    end
  end.

(** L632-637: [x = new; y = fa[&x]; while x != y { x = y; y = fa[&y] }]; the result
    is the common final value of [x] and [y] *)
Fixpoint fa_chase (fuel : nat) (fa : list (idx * idx)) (x y : idx) : res idx :=
  match fuel with
  | O => Err PDiverge
  | S fuel' =>
    if decide (x = y) then Ok x
    else match omap_get y fa with
         | None => Err PUnwrap
         | Some z => fa_chase fuel' fa y z
         end
  end.

(** L641-646: path compression [x = new; while fa[&x] != y { z = fa[&x]; fa[x] = y; x = z }] *)
Fixpoint fa_compress (fuel : nat) (fa : list (idx * idx)) (x y : idx) : res (list (idx * idx)) :=
  match fuel with
  | O => Err PDiverge
  | S fuel' =>
    match omap_get x fa with
    | None => Err PUnwrap
    | Some z => if decide (z = y) then Ok fa else fa_compress fuel' (omap_insert x y fa) z y
    end
  end.

Section graph.
  Context {D : Type} (E : env).
  Implicit Types (g : graph D) (n : node D) (x y : idx) (s : source).

  Definition with_nodes g (a : arena D) : graph D := Graph (g_ctx g) a (g_back g).
  Definition with_back g (b : list (idx * list (idx * source))) : graph D := Graph (g_ctx g) (g_nodes g) b.

  (** typed_graph.rs:142-148 *)
  Definition graph_new (ctx : N) : graph D := Graph ctx (arena_new E) [].
  (** typed_graph.rs:187-189 *)
  Definition graph_get g x : option (node D) := arena_get (g_nodes g) x.
  (** typed_graph.rs:236-238, 808-824 *)
  Definition graph_iter g : list (idx * node D) := arena_items (g_nodes g).
  (** typed_graph.rs:282-286 *)
  Definition graph_iter_type g (d : nat) : list (idx * node D) := cont (g_nodes g) d.
  (** typed_graph.rs:375-382 *)
  Definition graph_len g : nat := arena_len (g_nodes g).
  Definition graph_is_empty g : bool := graph_len g =? 0.

  (** [get_node!], macros.rs:37-45 *)
  Definition get_node g (v : nat) x : option (node D) :=
    match graph_get g x with
    | Some n => if decide (nvar n = v) then Some n else None
    | None => None
    end.

  (** [iter_nodes!], macros.rs:87-91: panics on a node of another variant *)
  Definition iter_nodes g (v : nat) : res (list (idx * node D)) :=
    if decide (Forall (fun kv : idx * node D => nvar kv.2 = v) (graph_iter_type g v))
    then Ok (graph_iter_type g v) else Err PTypeMacro.

  (** The state threaded through a commit: the graph and the change record. *)
  Definition GM : Type -> Type := M (graph D * lcr).

  Definition rec_add x y l : GM unit := fun '(g, r) => Done (g, lcr_add x y l r) tt.
  Definition rec_rem x y l : GM unit := fun '(g, r) => Done (g, lcr_rem x y l r) tt.

  (** [self.back_links.get_mut(&y).unwrap().insert(e)] *)
  Definition back_insert y (e : idx * source) : GM unit := fun '(g, r) =>
    match omap_get y (g_back g) with
    | None => Panicked PUnwrap (g, r)
    | Some b => Done (with_back g (omap_insert y (oset_insert e b) (g_back g)), r) tt
    end.
  (** [self.back_links.get_mut(&y).unwrap().swap_remove(e)] *)
  Definition back_remove y (e : idx * source) : GM unit := fun '(g, r) =>
    match omap_get y (g_back g) with
    | None => Panicked PUnwrap (g, r)
    | Some b => Done (with_back g (omap_insert y (oset_del e b) (g_back g)), r) tt
    end.
  (** [self.back_links.entry(y).or_default()] *)
  Definition back_entry y : GM unit := fun '(g, r) =>
    Done (with_back g (omap_entry y [] (g_back g)), r) tt.
  (** [self.back_links.entry(y).or_default().insert(e)] *)
  Definition back_entry_insert y (e : idx * source) : GM unit :=
    run! back_entry y; back_insert y e.

  (** [self.nodes.get(x).unwrap()] *)
  Definition node_unwrap x : GM (node D) := fun '(g, r) =>
    match graph_get g x with Some n => Done (g, r) n | None => Panicked PUnwrap (g, r) end.

  (** [self.nodes.get_mut(y).unwrap().modify_link(s, old, new)] *)
  Definition node_modify y s (old new : idx) : GM (bool * bool) := fun '(g, r) =>
    match graph_get g y with
    | None => Panicked PUnwrap (g, r)
    | Some n =>
      match modify_link n s old new with
      | Err p => Panicked p (g, r)
      | Ok (n', fl) => Done (with_nodes g (arena_set (g_nodes g) y n'), r) fl
      end
    end.

  (** typed_graph.rs:689-691 *)
  Definition add_back_link x y s : GM unit := back_entry_insert y (x, s).
  (** typed_graph.rs:693-698 *)
  Definition add_back_links x n : GM unit :=
    run! back_entry x;
    mfor (iter_sources E n) (fun '(y, s) => back_entry_insert y (x, s)).
  (** typed_graph.rs:700-702 *)
  Definition remove_back_link x y s : GM unit := back_remove y (x, s).
  (** typed_graph.rs:704-708 *)
  Definition remove_back_links x n : GM unit :=
    mfor (iter_sources E n) (fun '(y, s) => back_remove y (x, s)).

  (** typed_graph.rs:538-547 *)
  Definition merge_nodes (a : arena D) : GM unit :=
    run! mfor (arena_items a) (fun '(x, n) =>
      run! add_back_links x n;
      mfor (iter_sources E n) (fun '(y, s) => rec_add x y (src_link s)));
    fun '(g, r) => Done (with_nodes g (arena_merge (g_nodes g) a), r) tt.

  (** typed_graph.rs:549-559 *)
  Definition remove_node x : GM unit :=
    do! n <- (fun '(g, r) =>
      let '(a', o) := arena_remove (g_nodes g) x in
      match o with
      | None => Panicked PRemoveMissing (with_nodes g a', r)
      | Some n => Done (with_nodes g a', r) n
      end);
    run! mfor (iter_sources E n) (fun '(y, s) => rec_rem x y (src_link s));
    run! remove_back_links x n;
    do! bl <- (fun '(g, r) =>
      match omap_get x (g_back g) with
      | None => Panicked PUnwrap (g, r)
      | Some bl => Done (with_back g (omap_del x (g_back g)), r) bl
      end);
    mfor bl (fun '(y, s) =>
      run! node_modify y s x 0%N;
      rec_rem y x (src_link s)).

  (** typed_graph.rs:565-568 = 582-585 *)
  Definition unlink_sources x : GM unit :=
    do! n <- node_unwrap x;
    mfor (iter_sources E n) (fun '(y, s) =>
      run! back_remove y (x, s);
      rec_rem x y (src_link s)).
  (** typed_graph.rs:572-575 = 589-592 *)
  Definition link_sources x : GM unit :=
    do! n <- node_unwrap x;
    mfor (iter_sources E n) (fun '(y, s) =>
      run! back_insert y (x, s);
      rec_add x y (src_link s)).

  (** typed_graph.rs:561-576 *)
  Definition modify_node x (f : mut_fn D) : GM unit :=
    run! unlink_sources x;
    run! (fun '(g, r) =>
      match graph_get g x with
      | None => Panicked PUnwrap (g, r)
      | Some n =>
        match f n with
        | Done n' _ => Done (with_nodes g (arena_set (g_nodes g) x n'), r) tt
        | Panicked p n' => Panicked p (with_nodes g (arena_set (g_nodes g) x n'), r)
        end
      end);
    link_sources x.

  (** typed_graph.rs:578-593 *)
  Definition update_node x (f : upd_fn D) : GM unit :=
    run! unlink_sources x;
    run! (fun '(g, r) =>
      match arena_update_with x f (g_nodes g) with
      | Done a' _ => Done (with_nodes g a', r) tt
      | Panicked p a' => Panicked p (with_nodes g a', r)
      end);
    link_sources x.

  (** typed_graph.rs:595-612 *)
  Definition redirect_links (old new : idx) : GM unit :=
    do! old_link <- (fun '(g, r) =>
      match omap_get old (g_back g) with
      | None => Panicked PUnwrap (g, r)
      | Some bl => Done (with_back g (omap_insert old [] (omap_del old (g_back g))), r) bl
      end);
    run! back_entry new;
    mfor old_link (fun '(y, s) =>
      run! back_insert new (y, s);
      do! (removed, added) <- node_modify y s old new;
      run! (if added : bool then rec_add y new (src_link s) else retM tt);
      if removed : bool then rec_rem y old (src_link s) else retM tt).

  (** typed_graph.rs:631-647 *)
  Fixpoint redirect_loop (reps : list (idx * idx)) (fa : list (idx * idx)) : GM unit :=
    match reps with
    | [] => retM tt
    | (old, new) :: reps' =>
      do! y0 <- unwrapM PUnwrap (omap_get new fa);
      do! root <- liftM (fa_chase (S (length fa)) fa new y0);
      run! redirect_links old root;
      do! fa' <- liftM (fa_compress (S (length fa)) fa new root);
      redirect_loop reps' fa'
    end.

  (** typed_graph.rs:614-648 *)
  Definition redirect_links_vec (reps : list (idx * idx)) : GM unit :=
    do! fa <- liftM (fa_build reps (fa_init reps));
    redirect_loop reps fa.

  (** typed_graph.rs:651-663: one removed link *)
  Definition bidi_remove1 (xyl : idx * idx * link) : GM unit := fun '(g, r) =>
    let '(x, y, l) := xyl in
    if negb (arena_contains (g_nodes g) x) || negb (arena_contains (g_nodes g) y) then Done (g, r) tt
    else
      (do! _ <- node_unwrap x;
       do! ny <- node_unwrap y;
       mfor (match_bd ny (e_opp E l)) (fun lk =>
         do! ny' <- node_unwrap y;
         do! (ny'', b) <- liftM (remove_link ny' lk x);
         run! (fun '(g', r') => Done (with_nodes g' (arena_set (g_nodes g') y ny''), r') tt);
         if b : bool then do! s <- liftM (to_source E lk); remove_back_link y x s
         else retM tt)) (g, r).

  (** typed_graph.rs:665-686: one added link *)
  Definition bidi_add1 (xyl : idx * idx * link) : GM unit := fun '(g, r) =>
    let '(x, y, l) := xyl in
    if negb (arena_contains (g_nodes g) x) || negb (arena_contains (g_nodes g) y) then Done (g, r) tt
    else
      (do! _ <- node_unwrap x;
       do! ny <- node_unwrap y;
       let bds := match_bd ny (e_opp E l) in
       match bds with
       | [] => retM tt
       | lk :: _ =>
         if existsb (fun lk' => contains_link ny lk' x) bds then retM tt
         else if length bds =? 1 then
           do! (ny'', b) <- liftM (add_link ny lk x);
           run! (fun '(g', r') => Done (with_nodes g' (arena_set (g_nodes g') y ny''), r') tt);
           if b : bool then do! s <- liftM (to_source E lk); add_back_link y x s
           else retM tt
         else panicM PMultiChoice
       end) (g, r).

  (** typed_graph.rs:650-687 *)
  Definition apply_bidirectional_links (r : lcr) : GM unit :=
    run! mfor (lc_rems r) bidi_remove1;
    mfor (lc_adds r) bidi_add1.

  (** typed_graph.rs:519-535: the body of [do_commit] after the two assertions *)
  Definition commit_body (t : trans D) : GM unit :=
    run! redirect_links_vec (t_redir t);
    run! merge_nodes (t_inc t);
    run! mfor (t_mut t) (fun '(i, f) => modify_node i f);
    run! mfor (t_upd t) (fun '(i, f) => update_node i f);
    run! redirect_links_vec (t_redir_all t);
    mfor (t_dec t) remove_node.

  (** typed_graph.rs:515-536 *)
  Definition do_commit (t : trans D) : M (graph D) lcr := fun g =>
    if e_dbg E && negb (t_ctx t =? g_ctx g)%N then Panicked PCtxMismatch g
    else if e_dbg E && negb (bool_decide (t_alloc t = [])) then Panicked PUnfilled g
    else
      match (run! commit_body t;
             do! (_, r) <- getM;
             run! apply_bidirectional_links r; retM r) (g, lcr_new) with
      | Done (g', _) r => Done g' r
      | Panicked p (g', _) => Panicked p g'
      end.

  (** typed_graph.rs:710-718 *)
  Definition check_link_type (r : lcr) : M (graph D) unit :=
    mfor (lc_adds r) (fun '(_, y, l) g =>
      match graph_get g y with
      | Some ny => if e_chk E (nvar ny) l then Done g tt else Panicked PLinkType g
      | None => Done g tt
      end).

  (** typed_graph.rs:423-426 *)
  Definition commit (t : trans D) : M (graph D) unit :=
    do! r <- do_commit t; check_link_type r.

  (** check.rs:5-18.  A check returns [true] for [Ok(())].  The [BTreeMap]s are lists
      in name order. *)
  Definition node_check : Type := idx -> node D -> bool.
  Definition link_check : Type := idx -> idx -> node D -> option (node D) -> bool.
  Record graph_check := GraphCheck {
    gc_node : list (string * node_check);
    gc_add : list (string * link_check);
    gc_rem : list (string * link_check) }.

  (** typed_graph.rs:728-733 / 736-741 / 744-749: first failing item decides; [None] =
      the [unwrap] in the loop panicked *)
  Fixpoint any_fails {A} (f : A -> option bool) (l : list A) : option bool :=
    match l with
    | [] => Some false
    | a :: l' =>
      match f a with
      | None => None
      | Some true => any_fails f l'
      | Some false => Some true
      end
    end.
  Fixpoint failed_names {A} (fails : A -> option bool) (l : list (string * A)) : option (list string) :=
    match l with
    | [] => Some []
    | (nm, a) :: l' =>
      match fails a with
      | None => None
      | Some b =>
        match failed_names fails l' with
        | None => None
        | Some r => Some (if b then nm :: r else r)
        end
      end
    end.

  (** typed_graph.rs:720-752.  [None] = panic on [self.get(x).unwrap()].  Note that
      the third loop iterates over [lcr.adds] (L744), as in the source. *)
  Definition check_change g (r : lcr) (c : graph_check) : option (list string) :=
    let changed := fold_left (fun acc '(x, _, _) => oset_insert x acc) (lc_adds r ++ lc_rems r) [] in
    let node_fails (f : node_check) :=
      any_fails (fun x => match graph_get g x with Some n => Some (f x n) | None => None end) changed in
    let link_fails (f : link_check) :=
      any_fails (fun '(x, y, _) =>
        match graph_get g x with Some n => Some (f x y n (graph_get g y)) | None => None end)
        (lc_adds r) in
    match failed_names node_fails (gc_node c) with
    | None => None
    | Some f1 =>
      match failed_names link_fails (gc_add c) with
      | None => None
      | Some f2 =>
        match failed_names link_fails (gc_rem c) with
        | None => None
        | Some f3 => Some (f1 ++ f2 ++ f3)
        end
      end
    end.

  (** typed_graph.rs:432-439 *)
  Definition commit_checked (t : trans D) (c : graph_check) : M (graph D) unit :=
    do! r <- do_commit t;
    run! check_link_type r;
    do! g <- getM;
    match check_change g r c with
    | None => panicM PUnwrap
    | Some [] => retM tt
    | Some _ => panicM PCheckFailed
    end.

  (** typed_graph.rs:454-457: move every node into the new arena, remember the new
      index.  State: counter of the new context and new arena. *)
  Fixpoint switch_insert (l : list (idx * node D)) (m : list (idx * idx)) :
      M (idx * arena D) (list (idx * idx)) :=
    match l with
    | [] => retM m
    | (i, n) :: l' => do! j <- arena_insert E n; switch_insert l' (omap_insert i j m)
    end.

  (** typed_graph.rs:459-463 *)
  Definition switch_relabel (bl : list (idx * list (idx * source))) (m : list (idx * idx)) :
      M (arena D) unit :=
    mfor m (fun '(i, j) =>
      do! es <- unwrapM PUnwrap (omap_get i bl);
      mfor es (fun '(y, s) =>
        do! y' <- unwrapM PUnwrap (omap_get y m);
        do! a <- getM;
        do! n <- unwrapM PUnwrap (arena_get a y');
        do! (n', _) <- liftM (modify_link n s i j);
        putM (arena_set a y' n'))).

  (** typed_graph.rs:465-475: build the result graph from an arena *)
  Definition rebuild (ctx : N) (a : arena D) : out (graph D * lcr) unit :=
    (run! merge_nodes a;
     do! (_, r) <- getM;
     apply_bidirectional_links r) (graph_new ctx, lcr_new).

  (** typed_graph.rs:450-476.  [self] is consumed, so on a panic nothing but the
      counter of the new context remains. *)
  Definition switch_context g (ctx : N) : M idx (graph D) := fun c =>
    match switch_insert (arena_items (g_nodes g)) [] (c, arena_new E) with
    | Panicked p (c', _) => Panicked p c'
    | Done (c', a) m =>
      match switch_relabel (g_back g) m a with
      | Panicked p _ => Panicked p c'
      | Done a' _ =>
        match rebuild ctx a' with
        | Panicked p _ => Panicked p c'
        | Done (g', r) _ =>
          match check_link_type r g' with
          | Panicked p _ => Panicked p c'
          | Done g'' _ => Done c' g''
          end
        end
      end
    end.

  (** typed_graph.rs:480-486 (feature debug, debug_assertions) *)
  Definition check_integrity g : bool :=
    negb (e_dbg E) ||
    forallb (fun '(_, n) =>
      forallb (fun '(y, _) => match graph_get g y with Some _ => true | None => false end)
        (iter_sources E n)) (graph_iter g).

  (** typed_graph.rs:494-510: [true] = returns normally *)
  Definition set_eqb (l1 l2 : list (idx * source)) : bool :=
    forallb (fun e => bool_decide (e ∈ l2)) l1 && forallb (fun e => bool_decide (e ∈ l1)) l2.
  Definition recompute_back g : list (idx * list (idx * source)) :=
    fold_left (fun b '(x, n) =>
      fold_left (fun b '(y, s) =>
        omap_insert y (oset_insert (x, s) (default [] (omap_get y b))) b)
        (iter_sources E n) (omap_entry x [] b)) (graph_iter g) [].
  Definition check_backlinks g : bool :=
    forallb (fun '(x, n) =>
      forallb (fun '(y, s) =>
        match omap_get y (g_back g) with
        | None => false
        | Some b => negb (e_dbg E) || bool_decide ((x, s) ∈ b)
        end) (iter_sources E n)) (graph_iter g) &&
    forallb (fun '(k, v) =>
      match omap_get k (g_back g) with None => false | Some v2 => set_eqb v2 v end)
      (recompute_back g).

  (** [merge], transaction.rs:496-499 (a hard [assert!], active in every build) *)
  Definition trans_merge g : M (trans D) unit := fun t =>
    if (t_ctx t =? g_ctx g)%N
    then Done (with_inc t (arena_merge (t_inc t) (g_nodes g))) tt
    else Panicked PCtxMismatch t.

  (** ** Serialization, serialize.rs *)

  (** serialize.rs:46-65 [GraphSerializer], 89-103 (same two fields) *)
  Record gserial := GSerial { gs_ctx : N; gs_nodes : list (idx * node D) }.
  Definition serialize g : gserial := GSerial (g_ctx g) (graph_iter g).

  (** typed_graph.rs:754-761 *)
  Definition do_deserialize (ctx : N) (nodes : list (idx * node D)) : res (graph D) :=
    match arena_new_from_iter E nodes with
    | Panicked p _ => Err p
    | Done a _ =>
      match rebuild ctx a with
      | Panicked p _ => Err p
      | Done (g, _) _ => Ok g
      end
    end.

  (** serialize.rs:106-113: result = (counter of the new context, graph) *)
  Definition deserialize_graph (s : gserial) : res (idx * graph D) :=
    let cnt := fold_left N.max ((gs_nodes s).*1) 0%N in
    match do_deserialize (gs_ctx s) (gs_nodes s) with
    | Err p => Err p
    | Ok g => Ok (dist_from_count cnt, g)
    end.
End graph.
Arguments graph_check D : clear implicits.
Arguments gserial D : clear implicits.
