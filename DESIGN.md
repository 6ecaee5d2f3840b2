# Formal model of TTGraph in Rocq/Coq — design

The Rust code is never run here.  The model is a hand translation of the source
text in `/repo` into total Gallina functions; every definition cites the lines
it models.  Theorems are proved by induction, invariants and refinement, for all
inputs; the only computed facts are the witnesses of refutations and the
examples that show the hypotheses of a theorem can be met.

## 1. What is modelled

| Rust | Coq file | how |
|---|---|---|
| panics, `&mut self` | `Base.v` | `res` (node level) and the state/panic monad `out`: a panic carries the state reached so far, so crash points are visible |
| `ordermap` maps/sets (library) | `OMap.v` | association lists / duplicate-free lists with the documented order behaviour (`insert` keeps position, `swap_remove` moves the last entry into the hole, `append` = insert each) |
| generated node methods (`typed_node.rs`, `node_enum.rs`) | `Node.v` | nodes = variant number + list of link values (direct / set / vec) + data; one Coq function per generated method |
| `IdDistributer` | `Ids.v`, `IdThreads.v` | counter in `N`, `fetch_add` mod 2^64, result `c+1` with/without overflow checks; threads as an interleaving of `fetch_add` and return steps |
| generated arena, `CateArena` trait, iterators | `Arena.v` | dispatcher map + one container per variant; iterators as a state machine |
| `Transaction` | `Trans.v` | record; closures are arbitrary Coq functions `node -> res node` |
| `Graph` (`commit`, `commit_checked`, `switch_context`, `check_*`, deserialization) | `Graph.v` | state/panic monad, one Coq function per Rust function |
| `GraphCheck` registry (`check.rs`) | `Api.v` | sorted name/check lists with the `BTreeMap` calls |
| `#[derive(TypedNode)]`, `node_enum!` with `bidirectional!`, `group!`, `link_type!` | `Schema.v` | declarations as data (strings), the token-generating code as functions computing the generated tables |
| `display.rs`, `debug.rs`, `Display for NodeIndex` | `Display.v` | strings; the texts of nodes, sources and ids are arbitrary functions |
| programs using several contexts, graphs, transactions | `World.v` | API calls as an inductive type of operations, `step` relation |

`COVERAGE.md` lists every Rust function with the definition that models it.

The rest of the files:

| files | contents |
|---|---|
| `Spec.v`, `TransSpec.v`, `PropDefs.v`, and the definitions at the head of `SchemaFacts.v`, `SwitchFinal.v`, `BidiFinal.v`, `CommitFinal.v` | vocabulary of the statements: links held by a node value, sequential meaning of a commit on `index -> node` maps, meaning of transaction calls, declared relations.  No arenas, dispatchers or reverse-link tables |
| `Ptrs`, `NodeProofs` … `Grouped`, `Exact`, `Api`, `Owner`, `Order`, `OrderHist`, `Sim`, `Release`, `Deser`, `Commute`, `Tidy`, `Caught`, `Slots`, `Stops`, `SwitchExact`, `SwitchBidi`, `Alike*`, `Listed`, `Known`, `SameSucc`, `SetOrder`, `Cut`, `Undo`, `CutDel`, `Calls`, `Ask`, `Inserts`, `CommuteBidi`, `DebugTrans`, `Machine`, `MachineBidi`, `MachineAll`, `Mixing`, `Text`, `Types`, `Threads`, `Rename*`, `FrontFacts`, `*Final`, `SchemaFacts` | proofs |
| `Exec`, `ExecHist`, `Examples`, `ExHist`, `ExTrans`, `Decide*` | executable histories, proved to be histories, for witnesses and examples |
| `PropsCommit`, `PropsBidi`, `PropsGraph`, `PropsTrans`, `PropsIds`, `PropsSer`, `PropsSchema`, `PropsFindings`, `PropsExact`, `PropsApi`, `PropsPanic`, `PropsOrder`, `PropsCommute`, `PropsMore`, `PropsTidy`, `PropsDisplay`, `PropsCaught`, `PropsRedirect`, `PropsSame`, `PropsDeser`, `PropsSlots`, `PropsStops`, `PropsSwitch`, `PropsAlike`, `PropsListed`, `PropsSucc`, `PropsSets`, `PropsKnown`, `PropsCut`, `PropsUndo`, `PropsCalls`, `PropsLen`, `PropsAsk`, `PropsInserts`, `PropsCommuteBidi`, `PropsDebugTrans`, `PropsMachine`, `PropsMachineBidi`, `PropsMachineAll`, `PropsMixing`, `PropsText`, `PropsTypes`, `PropsThreads`, `PropsRename`, `PropsFront` | the property theorems `Cxx_…`, each with an example `Cxx_case` and `Print Assumptions` |

Sets: the four set types differ in iteration and removal order.  `OrderSet`
(shift on remove), `IndexSet` (swap on remove) and `BTreeSet` (sorted) are
modelled exactly.  The iteration order of a `HashSet` is an arbitrary function of
its hasher (every set value has one, as `RandomState` gives it) and of its
contents in order of insertion; the function is a parameter, used whenever it
returns a permutation.  Capacity left over from removed elements is not
modelled: a set that gains and loses an element again is iterated as before.

Build configuration: `debug_assertions` (also standing for overflow checks) is
a Boolean parameter.  Cargo feature `debug` is taken as on (it is the default;
with it off `typed_graph.rs:31-32` imports a module that is compiled out, so the
crate does not build).

`env` bundles what is fixed for a program: link kinds per variant, opposite
links, link types, groups, hash order, debug flag.  Theorems quantify over every
`env` (with the side conditions they state); `Schema.v` computes the tables from
declarations and `SchemaFacts.v` says which relation on names they are.

## 2. Histories

Theorems about graphs and transactions quantify over all finite histories of API
calls from the empty world (`reachable`, `lreach`, and the wrappers `graph_of`,
`history`, `pair_log`, `open_trans`, `two_graphs`).  A `step` is one call that
returns normally.  It has these premises; a program that breaks one is outside
the theorems (the refutations show what then happens):

* nodes given to the library and closures are well-typed (Rust's type checker
  guarantees this);
* a transaction is committed to, or merges, a graph of the same context object
  (checked by the library by id, in debug builds only; a deserialized context
  carries the id of its original, finding 6; C91 shows that a debug build enforces this
  rule if the contexts have different ids);
* `fill_back_untyped` is called on a pending reservation of the same transaction
  (the code does not check this, finding 7);
* nothing is redirected *from* the empty index (finding 9);
* the counter does not reach 2^64 - 1 (C02 says what happens otherwise);
* deserialized data contain well-typed nodes at indices in 1 .. 2^64-1;
* for theorems over logged histories, in release builds only: a graph that is
  merged into a transaction has no reservation left over by an earlier commit
  (debug builds refuse such commits; finding 23).

The parameter `T` of histories is "closures keep the variant of a node": `False`
imposes nothing, `True` is assumed where a theorem needs it (C15, C18, C24, C39,
order part of C31).

## 3. What is not modelled

* serde itself (the JSON text), `uuid` randomness (ids are an abstract type with
  decidable equality), `data_types` TypeIds beyond equality, memory allocation, drop order, `iter_mut` aliasing.
* Rust type checking (see the premises above).
* Side effects of user closures outside the node (they are functions here).
* The crate `syn` (what a token stream, an item, a type or an attribute is): `Front.v`
  starts from its tokens and items and models the macros' own parsers.  Error spans and
  messages.  The case conversion of names is an arbitrary function `upper_camel`.  Declarations rejected by the macro or by rustc are
  described by `accepted`.
* `src/arena.rs` (not compiled: its `mod` line is commented out in `lib.rs`).
* Hardware memory model: `fetch_add` is atomic, so allocation requests are
  totally ordered; nothing else is shared between threads.
* Histories that go on after a caught panic of a commit that a queued closure caused
  (finding 21 says why).  After every other commit panic histories do go on
  (`st_commit_panic`).  Caught panics of transaction calls are in `creach` (C65), not in
  `history`; for fill_back, mutate and merge they leave a state that calls which return
  reach too.

## 4. Properties and how each is proved

`K g x l y` = node x of g contains y in link field l (spec relation, `Spec.v`).
`WF g` = two-level storage consistent, nodes well typed, reverse-link index exact.

| id | modelled by / statement shape | proof |
|---|---|---|
| C01, C02 | counter machine over thread interleavings and over histories | induction on the schedule; explicit mod 2^64 |
| C03 | `commit` refines `sp_commit` on `N -> option node` | simulation phase by phase |
| C04 | corollary of C03 + frame of the bidirectional phase | |
| C05, C06 | effect of `remove_node`, then invariance through later phases | loop invariant over the reverse links |
| C07 | `WF` preserved by every operation; `check_backlinks` succeeds | invariant over world histories |
| C08-C10, C66 | union-find vs. the pointers `redir_ptrs`; with distinct sources these are chains, `redir_final` (`Ptrs.v`) | acyclicity invariant of the parent map, fuel bound |
| C11 | C03 phases | |
| C12 | refuted witness + positive part | `vm_compute` witness |
| C13-C16 | iterator state machine drained = concatenated containers | C15 refuted in general, proved for `T = True` |
| C17 | refuted; holds right after `switch_context` | witness; `switch_order` |
| C18 | net-change exactness + effect of maintenance | invariant, case analysis |
| C19 | refuted; what multi-choice groups still guarantee | witnesses; maintenance invariant |
| C20-C22 | maintenance loop | loop invariants |
| C23, C27, C45-C47, C49-C51 | generated tables vs. declaration-level spec | list reasoning |
| C24, C26 | from C28 and C21 | |
| C25 | refuted; holds without Vec links when bidirectional declarations agree with the types | witnesses; corollary of C24 |
| C28 | recorder invariant: adds = K1\K0, removes = K0\K1 | invariant through all phases |
| C29, C30 | check loop; C30 refuted | |
| C31-C33 | `deserialize (serialize g)` | C32 partly refuted |
| C34 | isomorphism when no set field meets the renamed range; refuted otherwise | |
| C35, C43, C44 | ownership invariant of `World.v` | induction over histories |
| C36-C39, C48 | transaction calls refine `TransSpec.v` | simulation |
| C40 | refuted; positive: panics before the first mutation; C70 says what every panic leaves | |
| C41, C42 | total correctness of each phase | |
| C52 | refuted; equal results when both commits succeed; valid transactions succeed on both or neither; every transaction does if the known indices of C74 agree too (`C52_known_partial`) | determinism of `sp_commit`, `final_same_success` |
| C53 | proved for non-Vec bidirectional links: the exact links after a commit | `bidi_links` of the maintenance loops, rewritten with the exact change record |
| C55 | `check_integrity` against closedness of the graph | list reasoning on the `WF` storage |
| C56 | `extend` = consecutive inserts | induction on the list, over open transactions |
| C57 | programs of typed macros keep variants, so C15 holds for them | induction on the history |
| C58 | registry = last call per name; order of names irrelevant | sorted association lists are canonical |
| C59 | link methods of a node against `has_link` | case analysis on the field kinds |
| C60 | the graph in `Panicked p g'`; `closure_fault` excludes panics of queued closures, `closure_left` describes what these leave | panic postconditions of every phase, `left_ok`; the graph is again a graph of a history; for closures `holed` (Fault.v): the index is exact but for one node |
| C61 | `replay`: node orders as a function of the list of calls, over `runs os w` | every phase of commit as a list of order steps (`commit_order`), simulation over the calls |
| C62 | two transactions open on one graph (`open_pair`), `apart`, `independent` on node maps | `sp_commit` is local at every index (`sp_commit_at`), then C03 |
| C63 | `tidy`: an inductive set of worlds, `step` plus closedness after commits | induction over calls; C18, C24, C34 for the single steps |
| C64 | `display_graph`, `debug_graph` over arbitrary node texts | the lines and the index before the first colon are determined |
| C65 | `creach`: `step` plus caught panics of transaction calls | exact state after each panic; the world invariant again |
| C67 | two environments with the same declarations | simulation; loops over permuted lists, bodies commute |
| C68 | entries of serialized data | the links recorded while rebuilding are those of the entries; as C53 |
| C69 | programs of arena calls, run on arenas and on tables of slots | simulation, call by call; what can be seen of an arena is a function of its table |
| C70 | `commit_stops`: the nodes after the calls before the failing one, phase by phase; `gone` and `made` for the maintenance | panic postconditions of every loop (Stops.v), exact in the nodes; the rest as C60 and C53 |
| C71 | `switch_context` on every graph: without declared opposites `node_switched`, `comes_after` (`SwitchExact.v`); with them in addition `completed` (`SwitchBidi.v`) | loop invariant: the keys already replaced at each source, in order; then the maintenance of a rebuilt graph |
| C72 | two environments with the same bidirectional declarations; `alike` nodes (`Alike.v`, `AlikeRuns.v`) | commit, switch and deserialization preserve alikeness, since their links are determined (C53, C68, C71); simulation of logged runs |
| C73 | two environments that differ in the hash order; refuted with several possible opposites (finding 30), `C73_succeeds_in_every_order_partial` (`SameSucc.v`) | success conditions of C74, C71 and C68 transferred along the simulation of C72 |
| C74 | `known`: the indices a graph knows, over histories; `commit_listed` (`Listed.v`, `Known.v`) | the keys of the reverse index after every phase; success conditions of every phase on the node map |
| C75 | `set_moves`: what removals and insertions do to the order, as relations (`SetOrder.v`) | `linkval_ok` (BTreeSets sorted) as invariant; composition along `sp_commit` |
| C76 | `cuts`: the calls of one transaction divided into two (`Cut.v`) | composition of `sp_commit` and of the known indices of C74; exact links of C53 for the removals (`CutDel.v`) |
| C77 | `only_inserts`, `only_removes`, `same_node`; nothing refers to the new nodes yet (`no_early`) | exact links of C53 for both commits; success conditions of C41 |
| C78 | `splits`: a sequence of calls with its immediate and its kept calls; `same_kinds` (`Calls.v`) | frame of the immediate calls; the kept calls only append to their queue |
| C79 | `graph_len`, `ts_new`, `ts_del` | sizes of the maps of `sp_commit`, phase by phase |
| C80 | `asks`: the nodes that the calls make (`sp_commit`); `mutates_as_updates`, `mutates_rearranged_to` | `final_links_exact`: the links after the commit are a function of the old graph and of these nodes; `C80_same_success` assumes at most one opposite per variant |
| C81 | `map_symmetric`, `restores` | on symmetric requests `mirrored` is the request and `no_conflict` holds; needs closures that keep variants (`C81_variants_needed`) |
| C82 | `only_inserts`, `no_reference`, `open_pair` | both orders and the whole leave `mirrored E g` of all the nodes; `C82_reference_differs` shows why the first part may not refer to the second |
| C83 | `open_pair`, `leaves`, `apart_commits` on the three graphs | the second commit adds and drops the same links as on the first graph (`cb_added`, `cb_dropped`), and by symmetry maintains no opposite on a node it leaves alone |
| C84 | `debug_trans` (`DebugTrans.v`) over an arbitrary text of the inserted nodes | the fields before the inserted nodes are read from the front, those after it from the end (`last_field`): no list of indices has a colon |
| C85 | `aruns` (`Machine.v`), a deterministic machine on finite maps, against `runs` | both directions, one call at a time: `fwd`, `bwd`, `astep_det`; the commit step is C03 and C74, a checked commit is C30 (schemas without `Vec` links), the transaction calls are C38; release builds through C67 |
| C86 | `bruns` (`MachineBidi.v`), the machine of C85 whose commit may choose the order inside maintained sets, against `runs` | forward with equality (`fwd_bidi`: the library's order is one of the choices), `bwd_bidi`; two choices are alike (`maintained_alike`); for closures that look at sets as sets also all choices at once (`bwd_alike`); the commit step is C53, C54 and C74, deserialization is C68 |
| C87 | texts as lists of tokens (`Front.v`); `written W xs ts` (`FrontFacts.v`): the items xs with commas | each parser accepts exactly the written texts (`terminated_iff`, induction on the text with the fuel its length); `node_enum_iff` |
| C88 | attributes and fields as tokens; `field_reads`, `lists` | `typed_node_iff` from the exactness of the attribute parser |
| C89 | `field_ty` against the documented spellings | form of all recognised paths by going through the generated lists; leading `::` REFUTED (finding 34), `_partial` for sets |
| C90 | `cruns` (`MachineAll.v`), the machine of C86 with the iteration order, `switch_context` and `commit_checked`, against `runs` | forward with equality (`fwd_all`), `bwd_all`; two choices are alike (`choices_all`); for closures and checks that look at sets as sets also all choices at once (`bwd_alike_all`); the order is C61 (`osim_step`), the switch is C71 (`switch_kept`, `switch_goes`), the checks are C30 |
| C91 | `free_runs` (`Mixing.v`), programs that hand any transaction to any graph, against `runs` | the invariant ties the id in a graph or transaction to its context (`iv_graph`, `iv_trans`); ids are kept (`free_ids`); equal ids REFUTED (finding 35) |
| C92 | `text_bidi`, `text_type` (`Text.v`): what lines of the text say about struct fields; conclusions in terms of `get_links_by_name` | C87/C88 turn the text into a schema (`text_schema`, `text_link`), C23/C27 the schema into tables (`wd_opp`, `wd_chk`), C63 the tables into graphs |
| C93 | `retype`, `eased`, `stopped` (`Types.v`): the same calls under other link types; `uncaught` against the machine of C90 | link types are consulted after the graph is complete (`retype_commit`), so the state a link-type panic leaves is that of the commit; simulation both ways (`step_retype`, `step_strict`); no other panic of a commit is a link-type panic (`phases_stop`, `untyped_no_panic`) |
| C94 | `graphs_named`, `trans_named`, `draws`, `parted`, `in_part` (`Threads.v`): what a call names and whose indices it uses up; `runs` of two programs with the same calls of one part | a call changes only what it names (`step_frame`), depends only on that (`step_alike`, `step_transfer`); exchange of neighbours by comparing the worlds piece by piece (`step_swap`), interleavings by moving calls to the front (`many_move`) |
| C95 | `renamed`, `renaming`, `op_renamed`, `ts_renamed` (`Rename.v`): nodes, calls and transactions with every index replaced by its image; `runs` of two programs whose parts correspond | the specification of a commit (`sp_commit`, resolved redirections, `mirrored`) commutes with renaming; `commit_renamed` for one commit, `commit_follows` by the success criterion of C41/C66 (both directions with the inverse renaming, `RenameBack.v`), induction over both programs as for C94 (`lruns_renamed`) |
| C54 | proved: hash order and build profile do not matter | C53 for both runs, determinism of `sp_commit`; success by the exact success condition of C41 |

Findings (statements the faithful model refutes) are theorems named
`..._refuted` with a concrete witness evaluated by `vm_compute`; a claim with one
has status `partial` in `MANIFEST.json`, with what remains true in `..._partial`.

## 5. Findings

Refuted by a theorem:

1. `switch_context` can lose a link of a set field: the old and the new indices
   overlap, and replacing one element by an index already in the set merges them (C34).
2. `commit_checked` runs link-*remove* checks on the *added* links (C30).
3. `commit_checked` panics (`get(x).unwrap()`) if a removed node had links; node
   checks skip nodes whose data change only, and inserted nodes without links (C30).
4. Links added as bidirectional opposites, and links to a node whose variant an
   `update` changes, are not type-checked (C25).
5. Symmetry of bidirectional links fails with several possible opposites, and for
   a node filled in at an index that is already a link target (C19).
6. A deserialized context has the id of its original, so transactions of one are
   accepted by graphs of the other and overwrite nodes silently (C32).
7. `fill_back_untyped` on an occupied index succeeds for another variant (C39).
8. A redirect to the empty index leaves entries under the empty index of the
   reverse-link table (C12); in general the outcome of a commit depends on
   invisible entries of that table (C52).
9. A redirect *from* the empty index then restores links or panics (C12).
10. A Vec link changed from `[]` to `[a, a]` to `[a]` in one transaction is not
    recorded as added, so its type is not checked (C25).
11. A commit that panics half-way leaves the earlier phases applied (C40).
12. `iter` does not follow index order (C17).
13. `iter_type` misses/misreports nodes whose variant a closure changed (C15).
14. Two `#[group]` attributes on one field misalign the generated tables (C23, C45, C49, C50).
15. Of two `link_type!` annotations of one link only the lexicographically
    smallest is enforced; one of an unknown variant is dropped silently (C27).
16. Two variant groups of the same name: `iter_group` uses the first,
    `link_type!`/`bidirectional!` the last (C51, C23).
17. `get_links_by_group` returns the empty entries of Vec links (C45).
18. A data field whose type is not a path is not reachable by name (C46).
19. A deserialized context hands out indices that dangling links already mention (C32).
20. `contains_link` answers true for the empty index on sets and Vecs that hold it (C59).
21. A panic in a queued closure of a commit, or a closure that links its node to an
    unknown index, leaves the graph inconsistent if the panic is caught: a mutated
    node has lost its entries in the reverse-link index (later removals then leave
    dangling links), an updated node is lost (C60).
27. `fill_back` on an occupied index panics after it has overwritten the node, and an
    `update` closure that panics on a node of the same transaction loses this node
    without a trace (C65).
24. Two redirects of one index in a transaction: links to the index follow the first
    call, chains of redirects through it may follow a later one, and a cycle among the calls need not be reported as a loop (C66).
28. With bidirectional declarations the iteration order of an `IndexSet`/`OrderSet` can depend on
    the hash order of a `HashSet` link elsewhere: entries leave the change record by swapping (C67).
30. If a link has several possible opposites, the hash order of a `HashSet` link elsewhere can
    decide whether a commit panics: the order of the change record decides which of two
    links is completed first, and the other one may or may not find its opposite there (C73).
31. `IndexSet` links lose their order when a member is redirected or removed, because
    `IndexSet::remove` swaps the last member in; `OrderSet` links keep it (C75).
32. Two pairs of nodes connected by direct bidirectional links can exchange partners in one
    transaction, but a transaction with only the first half of the changes panics (C76).
33. `Debug` for `Transaction` asks for `Debug` of its arena, but the generated arenas do not
    implement it, so `{:?}` of a transaction does not compile unless the user writes one (by reading; C84
    takes an arbitrary one).
34. Fields are recognised as links by the way their type is written.  `::ttgraph::NodeIndex`,
    `::std::vec::Vec<NodeIndex>` and `HashSet<::ttgraph::NodeIndex>` are silently taken for
    data and not tracked, though `ttgraph::NodeIndex`, `std::vec::Vec<NodeIndex>` and
    `::std::collections::HashSet<NodeIndex>` are links (C89).  The list of recognised paths
    also has `tgraph::…` entries, a former name of the crate.
35. `Context` derives `Default`, which gives every such context the nil UUID as its id.  The check
    that a transaction belongs to the graph compares ids only, so transactions of one
    default context are accepted by graphs of another and replace their nodes (C91).
22. Inserting a node with a dangling link is accepted, `mutate`/`update` to an
    unknown target panics (C74).
25. Deserialization adds missing bidirectional links but does not check link types (C68).
23. In release builds a typed reservation that is never filled leaves its index in the
    graph without a node; after a `merge` of the graph, `fill_back` on this index is accepted
    by a transaction that never reserved it (C38).
29. Arenas used on their own: `fill_back_untyped` over a node of another variant and `merge` of
    arenas with a common index do not panic, but leave a node that is iterated over and
    counted and that no index finds; an arena made by `new_from_iter` with a
    distributer that is not ahead of the indices loses a node by a later `insert` (C69).

Seen while reading, without a theorem of their own:

26. Cargo feature `debug` off: the change recorder is a no-op
    (`typed_graph.rs:781-782, 796-797`), so by the text neither link types would be
    checked nor bidirectional links maintained.  Such a build fails anyway, because
    `typed_graph.rs:31-32` imports the module `check`, which `check.rs:1` compiles out.

## 6. Trusted base

Evidence for the reading of the source: `RepoTests.v` runs every test of
`/repo/tests` and the asserting doc tests of `/repo/src` in the model; all their
assertions and expected panics hold there, for three iteration orders of hash sets.

* Coq 8.16.1 kernel, including its VM (`vm_compute` in witnesses and examples).
* `Print Assumptions` under each theorem of `Props*.v`: every one is "Closed under
  the global context".  No axioms, neither own nor of the standard library.
* std++ (definitions and lemmas, no axioms).
* The reading of the Rust source recorded in the comments of the model files, and
  the statements' vocabulary (files in section 1).
