{"id": "C01", "title": "Node indices handed out by one context are unique and never empty", "statement": "However the threads sharing a Context interleave their insert/alloc/alloc_untyped calls, the NodeIndex values returned are pairwise distinct and none equals NodeIndex::empty(), as long as fewer than 2^64 indices have been handed out.", "quantifier": "every schedule of allocation requests by any number of threads, every starting count, up to the counter limit", "why_tests_cant": "interleavings and the 2^64 boundary cannot be enumerated by tests", "anchors": ["src/id_distributer.rs: IdDistributer::alloc, from_count", "ttgraph_macros/src/cate_arena.rs: alloc, alloc_untyped", "src/typed_graph.rs: NodeIndex::empty"]}
{"id": "C02", "title": "Counter exhaustion is the only way to get an empty or repeated index", "statement": "When the counter wraps (2^64 allocations), a build with overflow checks panics on exactly the allocation that would return NodeIndex::empty(), and a build without them returns the empty index; indices start repeating only after 2^64 allocations.", "quantifier": "every counter value and both build modes", "why_tests_cant": "2^64 allocations cannot be executed", "anchors": ["src/id_distributer.rs: IdDistributer::alloc"]}
{"id": "C03", "title": "Commit realises the documented sequential semantics of the transaction", "statement": "A successful commit leaves exactly the nodes obtained by this simple sequential specification on an index->node map: redirect links of the old nodes, add the new nodes, run the mutate closures in call order, run the update closures in call order, redirect links of all nodes, delete the removed nodes and clear links to them; afterwards only links declared bidirectional may additionally differ.", "quantifier": "every well-formed graph, every transaction, every closure, every schema", "why_tests_cant": "the space of graphs, closures and operation mixes is infinite; tests fix a handful of scripts", "anchors": ["src/typed_graph.rs: commit, do_commit, merge_nodes, modify_node, update_node, redirect_links_vec, remove_node", "src/typed_graph/transaction.rs: whole file"]}
{"id": "C04", "title": "Insert then commit then get returns exactly the inserted node", "statement": "For every node inserted in a transaction that is committed successfully and not otherwise touched, graph.get(returned index) is that node with its data unchanged and all its non-bidirectional links unchanged; every node that was in the graph before and is not named by the transaction is still there with the same data and the same non-bidirectional links.", "quantifier": "every graph, every set of inserted nodes, every other index in the graph", "why_tests_cant": "frame conditions quantify over all untouched nodes and all graph shapes", "anchors": ["src/typed_graph/transaction.rs: insert", "src/typed_graph.rs: commit, get, merge_nodes", "src/cate_arena.rs: insert, get"]}
{"id": "C05", "title": "Removing a node leaves no link to it anywhere", "statement": "After a successful commit of a transaction containing remove(x) for a graph node x, graph.get(x) is None, and no node of the graph has x in any of its direct, set or vector links, no matter what else the transaction did.", "quantifier": "every reachable graph, every transaction, every removed index, every link field of every remaining node", "why_tests_cant": "absence of dangling links is universally quantified over all nodes and link fields and over all histories that led to the graph", "anchors": ["src/typed_graph/transaction.rs: remove", "src/typed_graph.rs: remove_node, remove_back_links", "ttgraph_macros/src/typed_node.rs: modify_link"]}
{"id": "C06", "title": "Removal touches nothing but links to the removed node", "statement": "The remove step of a commit changes a remaining node only by replacing the removed index: direct and vector entries equal to it become empty (vector length and the other positions are unchanged), set entries equal to it disappear, everything else in the node is identical.", "quantifier": "every graph, every removed node, every remaining node, every link field", "why_tests_cant": "frame condition over arbitrary graphs", "anchors": ["src/typed_graph.rs: remove_node", "ttgraph_macros/src/typed_node.rs: modify_link"]}
{"id": "C07", "title": "The reverse-link index always agrees with the links stored in nodes", "statement": "After every history of API calls the graph's reverse-link index contains, for each non-empty target index, exactly the link occurrences that nodes of the graph really hold; in particular the debugging call check_backlinks() never panics on a graph whose sets hold no empty index.", "quantifier": "every history of transactions (any closures), context switches and deserializations that does not panic", "why_tests_cant": "an invariant over unbounded histories with arbitrary user closures", "anchors": ["src/typed_graph.rs: back_links, check_backlinks, add_back_links, remove_back_links, redirect_links, modify_node, update_node, remove_node, apply_bidirectional_links"]}
{"id": "C08", "title": "Redirection moves every link to its final destination", "statement": "When the redirect list gives each old index at most one target, committing it makes every link that pointed to an old index point to the index reached by following the redirect list until an index that is not redirected; all other links are unchanged.", "quantifier": "every graph, every redirect list with distinct sources in any order, chains of any length", "why_tests_cant": "chains of any length and order; path compression mutates the structure while it is used", "anchors": ["src/typed_graph.rs: redirect_links_vec, redirect_links", "src/typed_graph/transaction.rs: redirect_links, redirect_all_links"]}
{"id": "C09", "title": "After redirection nobody links to a redirected index", "statement": "Immediately after the redirect step, for every (old,new) in the list, including lists that mention the same old index twice, no node of the graph links to old.", "quantifier": "every graph, every redirect list", "why_tests_cant": "universally quantified over all links of the graph and arbitrary lists", "anchors": ["src/typed_graph.rs: redirect_links_vec, redirect_links"]}
{"id": "C10", "title": "Redirection loops are detected exactly", "statement": "For a redirect list with distinct sources, the commit panics with 'Loop redirection detected!' if and only if following the list from some old index comes back to it; in all cases the chain resolution terminates.", "quantifier": "every redirect list", "why_tests_cant": "termination and completeness of loop detection over all finite functional graphs", "anchors": ["src/typed_graph.rs: redirect_links_vec"]}
{"id": "C11", "title": "redirect_links leaves nodes inserted by the same transaction alone, redirect_all_links does not", "statement": "In one commit, redirect_links(a,b) changes only links of nodes that were in the graph before the commit; redirect_all_links(a,b) also changes links of nodes inserted by the transaction and links produced by its mutate/update closures.", "quantifier": "every graph, transaction and redirect list", "why_tests_cant": "the relative order of phases must hold for every combination of operations", "anchors": ["src/typed_graph.rs: do_commit", "src/typed_graph/transaction.rs: redirect_links, redirect_all_links"]}
{"id": "C12", "title": "Redirecting to the empty index behaves like dropping the links", "statement": "redirect_links(a, NodeIndex::empty()) clears every link to a and leaves the graph in a state in which later operations behave as if those links had never existed.", "quantifier": "every graph and every later operation", "why_tests_cant": "needs all later histories", "anchors": ["src/typed_graph.rs: redirect_links, redirect_links_vec", "ttgraph_macros/src/typed_node.rs: modify_link"]}
{"id": "C13", "title": "get, iter, into_iter, len and is_empty agree", "statement": "On every reachable graph, iter() yields each contained index exactly once, a pair (i,n) is yielded iff get(i) returns n, len() is the number of yielded pairs and is_empty() holds iff there are none.", "quantifier": "every reachable graph", "why_tests_cant": "quantifies over all histories; duplicates would need the two-level storage to disagree", "anchors": ["src/typed_graph.rs: iter, get, len, is_empty, IntoIterator", "src/cate_arena.rs: get", "ttgraph_macros/src/cate_arena.rs: iter, len, dispatch"]}
{"id": "C14", "title": "The node iterator is an exact-size fused enumeration", "statement": "At every point of an iteration, size_hint() is the exact number of remaining items; next() eventually returns None and keeps returning None; the items come out grouped by variant in declaration order and within a variant in container order.", "quantifier": "every arena content and every number of next() calls", "why_tests_cant": "state machine over arbitrary contents, including empty variants anywhere", "anchors": ["ttgraph_macros/src/cate_arena.rs: make_cate_arena_iter, make_cate_arena_iter_mut, make_cate_arena_intoiter, make_node_discriminant"]}
{"id": "C15", "title": "iter_type yields exactly the nodes of a variant", "statement": "iter_type(d) yields exactly the pairs (i,n) of the graph with n of variant d, each once.", "quantifier": "every reachable graph, every variant, every closure used in mutate/update", "why_tests_cant": "depends on every closure ever run on the graph", "anchors": ["src/typed_graph.rs: iter_type", "src/cate_arena.rs: update_with, get_container", "src/typed_graph/macros.rs: iter_nodes!, mut_node!, update_node!"]}
{"id": "C16", "title": "iter_group yields exactly the nodes of the declared group", "statement": "iter_group(name) yields exactly the pairs (i,n) of the graph whose variant is listed in the group declared with that name, each once; an undeclared name yields nothing.", "quantifier": "every schema, every reachable graph, every name", "why_tests_cant": "all schemas and graphs", "anchors": ["src/typed_graph.rs: iter_group", "ttgraph_macros/src/group.rs: make_in_group"]}
{"id": "C17", "title": "iter follows the order of NodeIndex", "statement": "iter() enumerates the nodes in increasing NodeIndex order (documented: 'Iterate all nodes in the graph following the order of NodeIndex').", "quantifier": "every reachable graph", "why_tests_cant": "order after arbitrary removals", "anchors": ["src/typed_graph.rs: iter", "ttgraph_macros/src/cate_arena.rs: make_cate_arena_iter, remove"]}
{"id": "C18", "title": "Bidirectional links stay symmetric", "statement": "If every declared link has at most one declared opposite per variant and none is a Vec, then after every successful commit a node a links to b through a declared link exactly when b links back to a through the opposite link, provided this held before the commit, closures keep the variant of a node, and no old node held a dangling link to a node inserted by this transaction.", "quantifier": "every schema of that kind, every graph, every transaction, every pair of nodes", "why_tests_cant": "symmetry of the whole graph after arbitrary transactions including removals and redirects", "anchors": ["src/typed_graph.rs: apply_bidirectional_links, LinkChangeRecorder", "ttgraph_macros/src/bidirectional.rs: whole file", "README.md: bidirectional links"]}
{"id": "C19", "title": "Bidirectional links stay symmetric for every accepted declaration", "statement": "The symmetry guarantee also holds when links or variants are grouped so that a link has several possible opposites on the same node (documented group form), and for nodes inserted after a link to their reserved index.", "quantifier": "every schema accepted by the macro, every graph, every transaction", "why_tests_cant": "needs adversarial combinations of grouped links in one transaction", "anchors": ["src/typed_graph.rs: apply_bidirectional_links", "ttgraph_macros/src/bidirectional.rs: expand_bidirectional_links, make_bidirectional_link"]}
{"id": "C20", "title": "A conflicting direct opposite link makes the commit panic", "statement": "If a commit adds a link a->b whose only opposite on b is a direct link already holding another node (after removals), the commit panics; it never silently overwrites an occupied direct link.", "quantifier": "every graph and transaction, single-opposite schemas", "why_tests_cant": "all graphs and transactions", "anchors": ["src/typed_graph.rs: apply_bidirectional_links", "ttgraph_macros/src/typed_node.rs: add_link"]}
{"id": "C21", "title": "Bidirectional maintenance only touches declared opposite links", "statement": "The automatic maintenance never changes a node's data, variant, the set of nodes, or any link field that is not declared bidirectional; and it only adds or removes links between the two end points of a link the transaction itself added or removed.", "quantifier": "every graph, transaction and schema", "why_tests_cant": "frame over arbitrary graphs", "anchors": ["src/typed_graph.rs: apply_bidirectional_links"]}
{"id": "C22", "title": "Set-to-set bidirectional links never make a commit fail", "statement": "If all declared bidirectional links are sets and each has one opposite per variant, the bidirectional maintenance never panics.", "quantifier": "every graph and transaction over such schemas", "why_tests_cant": "absence of panics over all inputs", "anchors": ["src/typed_graph.rs: apply_bidirectional_links", "README.md: rules of bidirectional links"]}
{"id": "C23", "title": "The opposite-link relation generated from bidirectional! is the declared one and symmetric", "statement": "Link m of variant W is treated as opposite of link l of variant V iff some declaration A.x <-> B.y relates them after replacing variant groups and link groups by their members, in either direction; in particular the relation is symmetric.", "quantifier": "every schema accepted by the macros", "why_tests_cant": "all declarations, groups nested in products n*m", "anchors": ["ttgraph_macros/src/bidirectional.rs: expand_bidirectional_links, make_bidirectional_link", "ttgraph_macros/src/typed_node.rs: make_log_mirror, to_link_or_groups", "ttgraph_macros/src/node_enum.rs: expand_link_groups", "ttgraph_macros/src/lib.rs: typed_node"]}
{"id": "C24", "title": "Links always point to the declared variants", "statement": "If link_type! annotations are given, then after every successful commit every direct or set link of the graph whose target is in the graph targets an allowed variant, provided this held before, closures keep variants, bidirectional declarations are compatible with the annotations and no old node held a dangling link to a node inserted by this transaction.", "quantifier": "every schema, graph and transaction", "why_tests_cant": "type invariant over whole graphs and all transactions", "anchors": ["src/typed_graph.rs: check_link_type, LinkChangeRecorder", "ttgraph_macros/src/link_check.rs: make_check_link_type", "src/typed_graph/macro_traits.rs: check_link_type"]}
{"id": "C25", "title": "Link types are enforced for every link in the graph, however it got there", "statement": "Without further provisos, every link in the graph after a successful commit satisfies its link_type! annotation: also links added automatically as bidirectional opposites, links in Vec fields, and links to nodes whose variant is changed by a closure.", "quantifier": "every schema, graph, transaction and closure", "why_tests_cant": "needs adversarial combinations", "anchors": ["src/typed_graph.rs: check_link_type, apply_bidirectional_links, LinkChangeRecorder"]}
{"id": "C26", "title": "A link type panic is raised only for a real violation", "statement": "commit panics with 'Link type check failed!' only if the graph then contains a link (of a node present in the graph or removed only in bookkeeping) with a target of a variant its annotation forbids; a transaction whose resulting links all respect the annotations is never rejected for its link types.", "quantifier": "every schema, graph and transaction over direct and set links", "why_tests_cant": "absence of false alarms over all inputs", "anchors": ["src/typed_graph.rs: check_link_type"]}
{"id": "C27", "title": "link_type! annotations mean what they say", "statement": "A link is accepted for target variant W iff W is among the listed variants (groups replaced by members) of every annotation that names the link, directly or through one of its groups; several annotations of one link are all enforced.", "quantifier": "every schema accepted by the macro, every link and target variant", "why_tests_cant": "all declarations", "anchors": ["ttgraph_macros/src/link_check.rs: expand_group, make_check_link_type", "src/typed_graph/macro_traits.rs: check_link_type"]}
{"id": "C28", "title": "The change record of a commit is exact", "statement": "For direct and set links, the links reported as added (removed) by a commit before bidirectional maintenance are exactly those present after but not before (before but not after), regardless of how often the link was added and removed inside the transaction.", "quantifier": "every graph and transaction", "why_tests_cant": "net-change accounting under arbitrary interleavings of mutate, update, redirect and remove", "anchors": ["src/typed_graph.rs: LinkChangeRecorder, modify_node, update_node, redirect_links, merge_nodes, remove_node"]}
{"id": "C29", "title": "commit_checked runs the link-add checks on every added link", "statement": "If commit_checked returns normally, every link-add check accepted every direct or set link that the transaction net-added.", "quantifier": "every graph, transaction and check function", "why_tests_cant": "all check functions and transactions", "anchors": ["src/typed_graph.rs: commit_checked, check_change", "src/typed_graph/check.rs: GraphCheck"]}
{"id": "C30", "title": "commit_checked runs link-remove checks on removed links and node checks on all changed nodes", "statement": "Documented: link-remove checks apply when a link has been removed, node checks apply when a node has been changed or newly inserted; and a check run never panics by itself.", "quantifier": "every graph, transaction and check function", "why_tests_cant": "all transactions, in particular those that remove nodes or change only data", "anchors": ["src/typed_graph.rs: check_change, commit_checked", "src/typed_graph/check.rs: GraphCheck"]}
{"id": "C31", "title": "Serialize/deserialize is the identity", "statement": "deserialize_graph applied to the serialized form of a graph whose bidirectional links are symmetric succeeds and gives a graph with the same context id, the same nodes at the same indices, in the same per-variant order, and a correct reverse-link index; new indices handed out by the new context differ from all indices in the graph.", "quantifier": "every reachable symmetric graph; the order of nodes for graphs of programs whose closures keep variants", "why_tests_cant": "all graphs", "anchors": ["src/typed_graph/serialize.rs: GraphSerializer, deserialize_graph", "src/typed_graph.rs: do_deserialize", "ttgraph_macros/src/cate_arena.rs: new_from_iter"]}
{"id": "C32", "title": "A deserialized context never reuses an index known to the graph or to its original context", "statement": "After deserialization, new indices never coincide with an index mentioned anywhere in the graph (including links to nodes outside the graph), and the context check rejects mixing objects of the original and the deserialized context.", "quantifier": "every graph and every later allocation", "why_tests_cant": "needs graphs with external links and two live contexts", "anchors": ["src/typed_graph/serialize.rs: deserialize_graph", "src/typed_graph.rs: Context::from_id, do_commit", "src/typed_graph/transaction.rs: merge"]}
{"id": "C33", "title": "Duplicated indices in serialized data are rejected", "statement": "deserialize_graph panics if and only if (for bidirectional-free schemas) two entries carry the same index.", "quantifier": "every list of index/node pairs", "why_tests_cant": "all inputs", "anchors": ["src/typed_graph/serialize.rs: deserialize_graph", "ttgraph_macros/src/cate_arena.rs: new_from_iter"]}
{"id": "C34", "title": "switch_context relabels the graph isomorphically", "statement": "switch_context(new_ctx) yields a graph with the same nodes up to a bijective renaming of indices applied to every link, with indices freshly allocated from the new context.", "quantifier": "every closed graph, every state of the new context", "why_tests_cant": "requires overlapping old and new index ranges of every shape", "anchors": ["src/typed_graph.rs: switch_context", "ttgraph_macros/src/typed_node.rs: modify_link"]}
{"id": "C35", "title": "merge brings every node of the other graph over unchanged", "statement": "After merge(graph2) and a successful commit (same context), every node of graph2 is in graph1 under the same index, no node of graph1 is lost or overwritten, and links are unchanged apart from bidirectional maintenance.", "quantifier": "every pair of graphs sharing a context, every history that built them", "why_tests_cant": "index disjointness over all histories", "anchors": ["src/typed_graph/transaction.rs: merge", "ttgraph_macros/src/cate_arena.rs: merge", "src/typed_graph.rs: commit"]}
{"id": "C36", "title": "An empty transaction is a no-op and is_empty is accurate", "statement": "Committing a transaction of the graph's context for which is_empty() is true succeeds and leaves the graph exactly as it was; any insert, pending alloc, queued mutate/update/redirect or removal of an existing node makes is_empty() false.", "quantifier": "every graph and every call sequence on the transaction", "why_tests_cant": "all call sequences", "anchors": ["src/typed_graph/transaction.rs: is_empty, remove", "src/typed_graph.rs: do_commit"]}
{"id": "C37", "title": "Context mismatch and unfilled reservations are rejected without effect (debug builds)", "statement": "With debug assertions on, commit panics and leaves the graph untouched if the transaction's context id differs from the graph's or if a reserved index was not filled; merge of a graph with another context id always panics. Without debug assertions commit does not detect either.", "quantifier": "every graph and transaction, both build modes", "why_tests_cant": "all states", "anchors": ["src/typed_graph.rs: do_commit", "src/typed_graph/transaction.rs: merge"]}
{"id": "C38", "title": "Reservation protocol", "statement": "alloc/alloc_untyped reserve an index; fill_back panics unless the index was reserved with alloc for the same variant in this transaction and not filled yet; a filled node is committed under the reserved index; remove of a reserved or newly inserted index cancels it and never removes anything from the graph.", "quantifier": "every call sequence on a transaction", "why_tests_cant": "all call sequences", "anchors": ["src/typed_graph/transaction.rs: alloc, alloc_untyped, fill_back, remove", "src/cate_arena.rs: fill_back", "ttgraph_macros/src/cate_arena.rs: alloc, remove"]}
{"id": "C39", "title": "fill_back_untyped cannot occupy an index twice", "statement": "Filling an already occupied index through fill_back_untyped panics ('Fillback an occupied index'), and so does filling an index that belongs to a node of the graph the transaction is committed to.", "quantifier": "every call sequence", "why_tests_cant": "needs filling with a different variant", "anchors": ["ttgraph_macros/src/cate_arena.rs: fill_back_untyped, merge", "src/typed_graph/transaction.rs: fill_back_untyped"]}
{"id": "C40", "title": "Commit is atomic", "statement": "A commit that panics leaves the graph as it was before (all-or-nothing).", "quantifier": "every graph and transaction, every panic point", "why_tests_cant": "crash points", "anchors": ["src/typed_graph.rs: do_commit, commit, modify_node"]}
{"id": "C41", "title": "Well-formed transactions never panic", "statement": "For schemas without bidirectional links and link types: a commit succeeds if the transaction has the graph's context, has no unfilled reservation (in debug builds), its redirect lists have no loop and redirect from known nodes, its closures do not panic and produce only links to nodes that exist at that point, every mutated/updated/removed node exists, and no removed node is listed twice.", "quantifier": "every graph and transaction meeting the conditions", "why_tests_cant": "absence of panics over all inputs", "anchors": ["src/typed_graph.rs: do_commit and everything it calls"]}
{"id": "C42", "title": "Link integrity is preserved", "statement": "If every link of the graph targets a node of the graph and every link produced by the transaction (inserted nodes, closures, redirect targets) targets a node of the graph or of the transaction, then after a successful commit every link still targets a node of the graph, so check_integrity() passes.", "quantifier": "every graph and transaction", "why_tests_cant": "closure property over all histories", "anchors": ["src/typed_graph.rs: check_integrity, commit"]}
{"id": "C43", "title": "Nodes are never overwritten or aliased", "statement": "In any program that uses each transaction and graph with the context object it was created from and fills only its own reservations, no index is ever owned by two graphs/transactions at once; hence commit and merge never overwrite an existing node.", "quantifier": "every history over any number of contexts, graphs and transactions", "why_tests_cant": "unbounded histories with several owners", "anchors": ["src/typed_graph.rs: commit, switch_context", "src/typed_graph/transaction.rs: merge, insert, alloc", "src/id_distributer.rs: alloc"]}
{"id": "C44", "title": "Transactions can be dropped freely", "statement": "Giving up a transaction changes no graph and no other transaction; indices it reserved are never handed out again.", "quantifier": "every history", "why_tests_cant": "interaction with all later allocations", "anchors": ["src/typed_graph/transaction.rs: give_up", "src/id_distributer.rs: alloc"]}
{"id": "C45", "title": "Groups of links return exactly the declared links", "statement": "get_links_by_group(g) returns exactly the non-empty targets of the link fields declared in group g; get_links_by_name(f) exactly the non-empty targets of field f; unknown names return nothing.", "quantifier": "every struct declaration, every node value, every name", "why_tests_cant": "all declarations and values", "anchors": ["ttgraph_macros/src/group.rs: make_get_links_by_group", "ttgraph_macros/src/typed_node.rs: get_links_by_name", "ttgraph_macros/src/lib.rs: typed_node"]}
{"id": "C46", "title": "data_ref_by_name returns the field iff name and type match", "statement": "data_ref_by_name::<T>(name) returns the value of the data field with that name iff the node has such a field and its type is T; link fields are never returned. data_names lists, in declaration order and without repetition, exactly the names by which some value can be returned.", "quantifier": "every declaration, node value, name and type", "why_tests_cant": "all declarations", "anchors": ["ttgraph_macros/src/typed_node.rs: data_ref_by_name", "ttgraph_macros/src/lib.rs: typed_node"]}
{"id": "C47", "title": "Link reflection tables are aligned", "statement": "link_names, link_types and link_mirrors of a node type list the same link fields in declaration order, and each listed link's occurrences in iter_sources map back to it.", "quantifier": "every declaration and node value", "why_tests_cant": "all declarations", "anchors": ["ttgraph_macros/src/typed_node.rs: link_types, link_mirrors, link_names, iter_sources, make_node_source_enum"]}
{"id": "C48", "title": "mutate/update closures run exactly once, in order, on the right node", "statement": "Closures queued on an index run exactly once at commit, mutates before updates, each in call order; a closure on a node of the same transaction runs immediately; with mut_node!/update_node! a wrong variant panics and the variant is never changed.", "quantifier": "every transaction and closure", "why_tests_cant": "all interleavings of calls", "anchors": ["src/typed_graph/transaction.rs: mutate, update", "src/typed_graph.rs: do_commit", "src/typed_graph/macros.rs: mut_node!, update_node!"]}
{"id": "C49", "title": "Link groups and links translate into each other without loss", "statement": "A name resolves to a link-or-group of a node type iff it is a link field, a link group or a phantom group of it; the links a group expands to are exactly the fields that list the group, and a link reports exactly its own name and its groups.", "quantifier": "every struct declaration accepted by the macro, every name and link", "why_tests_cant": "all declarations, including several group attributes per field", "anchors": ["ttgraph_macros/src/typed_node.rs: make_log_mirror, to_link_or_groups", "ttgraph_macros/src/group.rs: get_link_or_group_by_name", "ttgraph_macros/src/node_enum.rs: expand_link_groups, to_log_mirror_enums"]}
{"id": "C50", "title": "get_bidiretional_links lists every bidirectional link of a node with its opposites", "statement": "Every pair returned by get_bidiretional_links consists of the targets of one link of the node and exactly the declared opposites of that link, and every link with a declared opposite has such a pair.", "quantifier": "every schema accepted by the macros, every node", "why_tests_cant": "all declarations and nodes", "anchors": ["ttgraph_macros/src/bidirectional.rs: make_bidirectional_link"]}
{"id": "C51", "title": "A variant group means the same everywhere", "statement": "A node belongs to a group for iter_group iff a link annotated with that group accepts it as target.", "quantifier": "every schema accepted by the macros, every node", "why_tests_cant": "all declarations", "anchors": ["ttgraph_macros/src/group.rs: make_in_group", "ttgraph_macros/src/link_check.rs: expand_group", "ttgraph_macros/src/bidirectional.rs: expand_bidirectional_links"]}
{"id": "C52", "title": "What a transaction does depends only on the visible nodes", "statement": "If two graphs of the same context hold the same nodes at the same indices, committing the same transaction on both gives the same outcome: both succeed with the same nodes, or both panic. Earlier operations that left no trace in the nodes (removed nodes, cleared links) make no difference.", "quantifier": "every pair of histories leading to graphs with equal contents, every transaction", "why_tests_cant": "needs pairs of unboundedly long histories with the same visible result", "anchors": ["src/typed_graph.rs: back_links, modify_node, update_node, redirect_links, remove_node"]}
{"id": "C53", "title": "The exact links after a commit with bidirectional declarations", "statement": "After a successful commit, a link x -> y exists iff either the transaction specifies it and it is not the opposite of a link the transaction dropped, or it is the only possible opposite of a link the transaction added. Everything not declared bidirectional is exactly as specified.", "quantifier": "every schema whose bidirectional links are no Vec links, every history of API calls, every transaction", "why_tests_cant": "an iff over all pairs of nodes and links after arbitrary histories and transactions", "anchors": ["src/typed_graph.rs: commit, do_commit, apply_bidirectional_links, LinkChangeRecorder"]}
{"id": "C54", "title": "The iteration order of hash sets is invisible", "statement": "Committing the same operations on the same visible nodes gives the same nodes up to the order inside sets, whatever order HashSets are iterated in and in debug and release builds; for valid transactions on schemas with at most one opposite per link and variant, whether the commit succeeds does not depend on it either.", "quantifier": "every pair of iteration orders (each depending on the hasher of the single set) and build profiles, every pair of histories leading to the same visible nodes, every transaction whose closures do not themselves look at the iteration order of a HashSet", "why_tests_cant": "a test run sees one hash order; the claim is about all of them", "anchors": ["src/typed_graph.rs: do_commit, redirect_links, apply_bidirectional_links"]}
{"id": "C55", "title": "check_integrity is exact", "statement": "In a debug build check_integrity returns normally exactly if every non-empty link of every node leads to a node of the graph and no set link holds the empty index; in a release build it always returns.", "quantifier": "every schema, every graph obtained by any history of API calls, both build profiles", "why_tests_cant": "all graphs; a test checks that a few good graphs pass", "anchors": ["src/typed_graph.rs: check_integrity"]}
{"id": "C56", "title": "extend is a sequence of inserts", "statement": "Transaction::extend returns one new index per node, consecutive and in iteration order; each node is stored under its index, and nothing else of the transaction changes; the result is that of inserting the nodes one by one.", "quantifier": "every open transaction, every list of nodes, as long as the counter does not overflow", "why_tests_cant": "all transactions and list lengths", "anchors": ["src/typed_graph/transaction.rs: extend"]}
{"id": "C57", "title": "Typed macros: iter_nodes! and get_node! are exact and never panic", "statement": "In a program whose mutations and updates are all written with mut_node! and update_node!, iter_nodes! never panics and yields each node of the requested variant exactly once and no other; get_node! returns the node at an index iff it has the requested variant.", "quantifier": "every schema, every such history of API calls, every variant, every index", "why_tests_cant": "all histories; a single variant-changing update elsewhere makes iter_nodes! panic (C15)", "anchors": ["src/typed_graph/macros.rs: get_node!, iter_nodes!, mut_node!, update_node!"]}
{"id": "C58", "title": "GraphCheck registry", "statement": "A node, link-add or link-remove check is in force under a name exactly if the last insert/remove call of that kind about the name inserted it; the order of calls about different names does not influence commit_checked; and a passing commit_checked means every link-add check in force accepted every added direct or set link.", "quantifier": "every sequence of registry calls, every graph and transaction", "why_tests_cant": "all call sequences and check functions", "anchors": ["src/typed_graph/check.rs: GraphCheck"]}
{"id": "C59", "title": "Link methods of node values", "statement": "contains_link, iter_links and iter_sources report exactly the links of a node; add_link panics exactly on a Vec link or an occupied direct link, remove_link exactly on a Vec link, iter_links exactly on a link of another variant, modify_link exactly on a source of another variant or a Vec position out of range; otherwise the node afterwards has exactly one link more/less/replaced, nothing else changes, and the returned flags say whether it changed. check_link tells exactly on which links iter_links does not panic; on the others nothing is found, added or removed.", "quantifier": "every schema, every well-typed node, every link, every index", "why_tests_cant": "all combinations of field kinds, contents and targets, including the empty index", "anchors": ["ttgraph_macros/src/typed_node.rs: iter_sources, iter_links, modify_link, add_link, remove_link, contains_link", "ttgraph_macros/src/node_enum.rs", "src/typed_graph/macro_traits.rs"]}
{"id": "C60", "title": "What a commit leaves behind when its panic is caught", "statement": "If commit panics and the program catches the panic (catch_unwind or a thread boundary), the graph it leaves is still consistent: the reverse-link index is exact, the integrity check passes, get/iter/len agree, every node is an old one or came from the transaction, every old node not queued for removal is still there (with its data if not queued for mutate/update), and later transactions work on it as on any graph. When the panic comes from the closure of a queued mutate or update (it panics, or returns a node with a link to an index without node), exactly one node is affected: the graph holds the nodes as all earlier steps of the commit made them, that node is as the closure left it (mutate), as it returned it, or missing (panicking update), and the index lists all links of the other nodes and, of that node, the links before the bad one.", "quantifier": "every schema, every history of graphs and transactions (with earlier caught panics), every transaction, every panic", "why_tests_cant": "a panic can occur at any point of any phase of a commit, for any graph and transaction; tests look at the state after a panic rarely if ever", "anchors": ["src/typed_graph.rs: commit, do_commit, modify_node, update_node, remove_node, redirect_links", "src/typed_graph/transaction.rs"]}
{"id": "C61", "title": "Iteration order of a graph", "statement": "The order in which iter, iter_type and the serialized form list nodes is determined by the sequence of calls alone: variants in declaration order; within a variant a commit appends the new nodes in the order of their insert/fill calls, an update moves its node to the end and lets the last node of the variant take its place, a removal lets the last node take the place of the removed one, merge appends the merged graph's order, switch_context renumbers in iteration order, deserialization keeps the serialized order; mutate, redirect and maintenance of bidirectional links move nothing. It does not depend on hash order, declared links or build profile. After a caught commit panic it is the order the commit had reached.", "quantifier": "every schema, every sequence of calls on any number of contexts, graphs and transactions in which closures keep variants or switch_context is not called", "why_tests_cant": "order is an unwritten consequence of two-level swap-remove storage; equality over all call sequences and schemas is not testable", "anchors": ["src/cate_arena.rs: insert, remove, update_with, merge, iter", "src/typed_graph.rs: do_commit, iter, iter_type, switch_context", "src/typed_graph/serialize.rs", "src/typed_graph/transaction.rs: insert, fill_back, update, remove, merge"]}
{"id": "C62", "title": "Transactions about different nodes can be committed in either order", "statement": "Two transactions are open on one graph, in a schema without bidirectional declarations. If they touch different nodes and neither redirects nor removes a node that the other's edited nodes link to, then committing the first and then the second gives the same nodes, field by field (sets as sets), as committing the second and then the first. If moreover neither has unfilled allocations (needed in debug builds only), each of them could be committed to the graph as it is, and neither links to nodes the other removes, all four commits succeed (link_type! annotations aside).", "quantifier": "every schema without bidirectional declarations, every graph reached by a history of calls, every two open transactions on it with any calls and closures", "why_tests_cant": "quantifies over all pairs of transactions, link values and closures", "anchors": ["src/typed_graph.rs: commit, do_commit, redirect_links_vec, merge_nodes, modify_node, update_node, remove_node", "src/typed_graph/transaction.rs: Transaction"]}
{"id": "C63", "title": "Graphs without dangling links stay symmetric and well typed for a whole program", "statement": "Take a schema in which every declared link has at most one opposite per variant, no Vec is declared bidirectional, and bidirectional declarations agree with the link types. Consider a program whose graphs have no dangling link after any commit (in a debug build it is enough that check_integrity returns), whose closures keep variants, that deserializes only graphs in order, that does not go on with a graph after a caught commit panic, and that switches contexts only if no set holds both a node and the new index of another node. Then at every moment every graph of the program, whatever inserts, merges, redirects, switches and commits made it, has symmetric bidirectional links and only allowed direct and set links.", "quantifier": "every such schema, every program of API calls over any number of contexts, graphs and transactions, every moment", "why_tests_cant": "an invariant of whole programs of any length", "anchors": ["src/typed_graph.rs: commit, commit_checked, switch_context, check_integrity, apply_bidirectional_links, check_link_type", "src/typed_graph/transaction.rs: merge, redirect_links"]}
{"id": "C64", "title": "Printed graphs are faithful", "statement": "If the text of every node is one line, the Display output of a graph determines which indices it holds, the text of the node at each index and the iteration order: graphs that print alike agree in all three. The Debug output determines in addition the context and the reverse links.", "quantifier": "every two graphs of any histories of one schema, every Display/Debug implementation of nodes with one-line output", "why_tests_cant": "all pairs of graphs", "anchors": ["src/typed_graph/display.rs", "src/typed_graph/debug.rs", "src/typed_graph.rs: Display for NodeIndex"]}
{"id": "C65", "title": "Caught panics of transaction calls", "statement": "If a call on a transaction panics and the caller catches the panic, the transaction holds the same reservations, new nodes and queued calls as before, except: fill_back on an index that already has a node of the same variant has replaced that node; mutate of a node of the same transaction leaves the node as the closure left it; update of a node of the same transaction has lost the node. The program can go on, any number of times: every graph keeps an exact reverse-link index, get, iter and len agree, no index is at two places, and a commit that returns has the effect of what its transaction then holds.", "quantifier": "every program, every number and position of caught panics of transaction calls, every schema, every closure", "why_tests_cant": "all programs with caught panics at all positions", "anchors": ["src/typed_graph/transaction.rs: fill_back, mutate, update, merge", "src/cate_arena.rs: fill_back, update_with"]}
{"id": "C66", "title": "Redirecting one index several times", "statement": "Every redirect call makes its old index point to where its new index leads at that moment through the calls before it. After a successful commit every link of a node the transaction leaves alone that went to a redirected index goes to where the new index of the first call for it leads after all calls. The commit panics with 'Loop redirection detected!' if and only if some call redirects an index to itself through the calls before it.", "quantifier": "every history, every list of redirect calls, with any number of calls for the same index in any order", "why_tests_cant": "the outcome depends on the interleaving of repeated calls and chains of any length", "anchors": ["src/typed_graph.rs: redirect_links_vec", "src/typed_graph/transaction.rs: redirect_links, redirect_all_links"]}
{"id": "C67", "title": "The same program builds the same graphs", "statement": "The iteration order of HashSet links and the kind of build (debug or release) cannot be observed: running the same calls twice, with different hash orders, gives the same nodes, the same iteration order of every container, the same transactions and the same index counters, and the same calls panic. (For hash orders: proved for schemas without bidirectional declarations; false with them.) For every schema, a program that succeeds in a debug build succeeds in a release build through the same states; the only calls the debug build refuses in addition are commits of transactions with unfilled reservations.", "quantifier": "every schema, every program over any number of contexts, graphs and transactions in which no panic is caught and no closure looks at the iteration order of a HashSet, every two iteration orders of hash sets, each depending on the hasher of the single set", "why_tests_cant": "a test run sees one hash seed; the claim compares all orders for programs of any length", "anchors": ["src/typed_graph.rs: commit, do_commit, switch_context, LinkChangeRecorder", "src/typed_graph/serialize.rs: deserialize_graph"]}
{"id": "C68", "title": "Deserialized graphs obey the declarations", "statement": "deserialize_graph accepts any entries with distinct indices unless two nodes claim the same direct opposite of a bidirectional link. The graph then holds a node for each entry with the same variant, data and other fields, and its links are those of the entries together with the missing opposites; so its bidirectional links are symmetric whatever the entries were. The graph also respects the declared link types. (The last sentence is false: link types are not checked, they hold only if they held in the entries.)", "quantifier": "every schema in which a link has at most one opposite per variant, every list of entries", "why_tests_cant": "all inputs, including inconsistent ones no graph was written from", "anchors": ["src/typed_graph/serialize.rs: deserialize_graph", "src/typed_graph.rs: do_deserialize, merge_nodes, apply_bidirectional_links"]}
{"id": "C69", "title": "An arena is a table of slots", "statement": "Used through its public trait CateArena, an arena is a table that gives every index it knows a slot of one variant, holding at most one node: new, new_from_iter, alloc, alloc_untyped, insert, fill_back, fill_back_untyped, remove, get_mut, update_with, iter_mut and merge return the indices and nodes, and raise the panics, that the table prescribes, and after every sequence of calls dispatch, contains, get, get_container, len and iter report exactly the table, also when panics were caught on the way. Provisos: indices given to new_from_iter and fill_back_untyped have been handed out, fill_back_untyped is not used on a node of another variant, merged arenas have no index in common, and fewer than 2^64 indices are handed out.", "quantifier": "every sequence of calls on any number of arenas sharing a distributer, with any nodes and closures, meeting the provisos at every call", "why_tests_cant": "all call sequences, including those continuing after panics; the two levels (dispatcher and containers) must agree at every point", "anchors": ["src/cate_arena.rs: CateArena", "ttgraph_macros/src/cate_arena.rs: generated arena and iterators"]}
{"id": "C70", "title": "What a panicking commit leaves", "statement": "A commit that panics stops at one definite point and leaves exactly the effect of everything before it. In a debug build with unfilled reservations the graph is unchanged. A loop among redirect_links (or redirect_all_links) calls leaves the phases before these calls applied and none of the calls; a redirect, mutate, update or remove of an index without node leaves all earlier phases and the earlier calls of its own phase applied, in call order, and nothing later. A failing closure leaves what C60 describes. A panic while bidirectional links are maintained leaves everything the transaction specifies; of the opposites of dropped links some (all, if no declared opposite is a Vec field) are gone, opposites of some of the added links are there, and no other link differs. The link type panic leaves the same graph a successful commit would have left. In all cases but the failing closure the reverse-link index is exact.", "quantifier": "every graph and transaction of every call history, every panic of commit, every schema, both build profiles", "why_tests_cant": "every panic point of every transaction; the tests do not look at the graph after a panic", "anchors": ["src/typed_graph.rs: commit, do_commit, redirect_links_vec, modify_node, update_node, remove_node, apply_bidirectional_links, check_link_type"]}
{"id": "C71", "title": "Exactly what switch_context does to every link", "statement": "In a schema without bidirectional declarations, switch_context(new_ctx) gives the k-th node of the iteration order the k-th next index of the new context and keeps its variant and data. Every direct link and every Vec position is renamed; links to indices without node stay as they are. A link of a set field to x is renamed, unless the new index of x was itself a member of the same set and its node comes later in the iteration order: these links, and no others, are lost. The call panics exactly when a link then connects two nodes with a target of the wrong type (also a link that left the old graph and now hits a node); the new context's counter advances by the number of nodes in either case. In a schema with bidirectional declarations the links of the new graph are these renamed links together with the opposites of these where there is exactly one possible opposite (so an opposite lost while relabelling a set comes back); the call then also panics if a renamed link has several possible opposites and none of them is there, or a direct opposite is claimed by two nodes.", "quantifier": "every graph of every call history (links may leave the graph, old and new indices may overlap), every counter of the new context that leaves room, every schema without bidirectional declarations", "why_tests_cant": "every overlap of old and new indices inside set fields; the only use in the repository is a doc example", "anchors": ["src/typed_graph.rs: switch_context, merge_nodes, check_link_type", "ttgraph_macros/src/typed_node.rs: modify_link"]}
{"id": "C72", "title": "The same program builds equal graphs, with bidirectional links", "statement": "Running the same calls twice, with different hash orders of HashSet links, different declared link types, or in a debug and a release build, gives equal contexts and index counters, graphs with the same iteration orders, and under every index nodes that are equal as == compares them: the same variant, data, direct links and Vec links, and sets with the same members. The same holds for the new nodes of open transactions. Only the order inside a set can differ.", "quantifier": "every schema whose bidirectional declarations are between direct and set links, every program over any number of contexts, graphs and transactions that succeeds in both settings, catches no panic, whose closures give equal nodes for equal nodes, and that switches contexts only if closures keep the variants of nodes; in a release build programs without merge", "why_tests_cant": "a test run sees one hash seed; the claim compares all orders for programs of any length", "anchors": ["src/typed_graph.rs: do_commit, apply_bidirectional_links, switch_context, LinkChangeRecorder", "src/typed_graph/serialize.rs: deserialize_graph"]}
{"id": "C73", "title": "Whether a call panics does not depend on the hash order", "statement": "Running the same calls with different iteration orders of HashSet links, every call that returns normally in one run returns normally in the other; a program that succeeds in a debug build succeeds in a release build with any hash order.", "quantifier": "every schema with bidirectional declarations between direct and set links, every program over any number of contexts, graphs and transactions whose closures treat equal nodes alike (equal results, or a panic for both), any two hash orders", "why_tests_cant": "a test runs with the hash orders it happens to get; a panic that needs one particular order among many shows up rarely and cannot be reproduced", "anchors": ["src/typed_graph.rs: commit, do_commit, apply_bidirectional_links, switch_context, LinkChangeRecorder", "src/typed_graph/serialize.rs: deserialize_graph"]}
{"id": "C74", "title": "Exactly when a commit succeeds", "statement": "A graph knows certain indices: a new graph none; after a commit also the indices of inserted nodes, every index an inserted node refers to (even without node) and the final destination of every redirection, but not the removed nodes; after switch_context or deserialization those of its nodes and those they refer to. A commit returns normally exactly if: in a debug build every reserved index was filled; neither list of redirections has a loop, and all of them start at indices known at that point; every closure of mutate or update meets its node, does not panic, and returns no reference to an unknown index; every removed node exists; and no added link conflicts with the opposite of another link or has the wrong target type. In every other case it panics. So an unknown index in the node a closure returns makes the commit panic, while the same index in an inserted node does not.", "quantifier": "every graph and transaction of every call history without caught panics, arbitrary closures, every schema where bidirectional links and checked links are direct or set links and no variant has two opposites of one link", "why_tests_cant": "a necessary and sufficient condition over all transactions; which dangling indices are known depends on the whole history of the graph", "anchors": ["src/typed_graph.rs: do_commit, redirect_links_vec, merge_nodes, modify_node, update_node, remove_node, apply_bidirectional_links, check_link_type", "src/typed_graph.rs: add_link, remove_link"]}
{"id": "C75", "title": "The order inside a set link", "statement": "A set link lists its members in an order the program can see (except a HashSet). A BTreeSet link is increasing in every graph. A commit changes the order only by the redirect_links calls in call order, then the redirect_all_links calls, then the removals; each takes its source out of the set and, if it was a member and the final destination is not empty and not yet a member, puts the destination in. Taking out closes the gap, except in an IndexSet, where the last member moves into it; putting in appends, except in a BTreeSet. So an OrderSet keeps the order of the members that stay and appends the new ones in call order, and an IndexSet does not. Nodes of the transaction are changed by redirect_all_links and removals only. add_link, remove_link and modify_link change a set in the same way.", "quantifier": "every graph and transaction of every call history, every node no closure touched, every set link field not declared bidirectional, any number of redirections and removals", "why_tests_cant": "the order after any number of redirections and removals on sets of any size; tests compare sets without order", "anchors": ["ttgraph_macros/src/typed_node.rs: modify_link, add_link, remove_link", "src/typed_graph.rs: redirect_links_vec, redirect_links, remove_node"]}
{"id": "C76", "title": "A transaction can be committed in two parts", "statement": "Take the calls of a transaction in the order in which a commit carries them out (redirect_links, new nodes, mutates, updates, redirect_all_links, removes) and cut them after redirect_links, after any mutate, after any update or after any remove. Committing the two parts one after the other, each in its own transaction, gives the same nodes as committing the whole, and the graph then accepts the same later commits. Without link types the whole succeeds exactly if both parts do. With bidirectional links only the removals can be left to the second part: then the nodes are again the same, up to the order inside bidirectional set links, and the whole succeeds if both parts do. The other cuts fail: two pairs of direct opposites can exchange partners in one transaction, but not in two.", "quantifier": "every graph and transaction of every call history, arbitrary closures, every cut, every schema without bidirectional links (for success also without link types); for cuts between removals every schema whose bidirectional links are direct or set links", "why_tests_cant": "an equation between commits of any number of calls with arbitrary closures, for every place to cut", "anchors": ["src/typed_graph.rs: do_commit, redirect_links_vec, merge_nodes, modify_node, update_node, remove_node", "src/typed_graph/transaction.rs"]}
{"id": "C77", "title": "Inserting nodes and removing them again changes nothing", "statement": "Commit a transaction that only inserts nodes to which no existing node refers yet, and then one that only removes exactly these nodes. The second commit succeeds, and afterwards every node is as before: same variant, data and links, also in bidirectional fields, where the first commit may have added links to existing nodes and the second takes exactly these away. Without bidirectional links the nodes are identical. If an existing node did refer to an inserted node (its index was reserved earlier), that reference is lost.", "quantifier": "every graph and pair of transactions of every call history, any number of inserted nodes with any links, every schema whose bidirectional links are direct or set links", "why_tests_cant": "a round trip through two commits for every graph and every set of inserted nodes; the opposites that have to disappear again lie in arbitrary other nodes", "anchors": ["src/typed_graph.rs: do_commit, merge_nodes, remove_node, apply_bidirectional_links"]}
{"id": "C78", "title": "Only the order of calls of the same kind matters", "statement": "Each call on a transaction is either carried out at once (insert, alloc, fill_back, merge, and remove, mutate or update of what the transaction itself holds) or kept for the commit (redirections, and remove, mutate or update of other nodes). All kept calls can be made after all the others, and mixed in any way that leaves the calls of one kind in their order: the transaction is identical, the same indices are handed out, and so every commit of it is identical. The condition is that the transaction does not come to hold the nodes of the kept calls later. Two call sequences with the same immediate calls and, kind by kind, the same kept calls leave the identical transaction without any condition.", "quantifier": "every transaction state, every sequence of calls that return, arbitrary closures, every permitted reordering", "why_tests_cant": "equality of whole transactions for all reorderings of call sequences of any length", "anchors": ["src/typed_graph/transaction.rs: insert, remove, mutate, update, redirect_links, redirect_all_links, alloc, fill_back, merge"]}
{"id": "C79", "title": "len after a commit", "statement": "After a successful commit len is the old len plus the number of nodes the transaction holds minus the number of its removals; no index is removed twice. This also holds with bidirectional links, redirections and arbitrary closures.", "quantifier": "every graph and transaction of every call history, every schema", "why_tests_cant": "a count over all graphs and transactions; a lost or doubled node in any phase of any commit would break it", "anchors": ["src/typed_graph.rs: len, do_commit, merge_nodes, remove_node", "src/typed_graph/transaction.rs: remove"]}
{"id": "C80", "title": "A commit depends on its calls only through the nodes they ask for", "statement": "Let the calls of two transactions, applied in the documented order to the nodes of the graph, make the same nodes. If both commits succeed they leave the same nodes: variant, data and links, including the maintained bidirectional links. If both sequences can be applied and no variant has two opposites of one link, one commit succeeds exactly if the other does. In particular the mutates may be written as updates, neighbouring mutates of one node merged into one, and neighbouring mutates of different nodes exchanged.", "quantifier": "every two transactions of any call histories on graphs with the same nodes, every schema without bidirectional Vec links, arbitrary closures", "why_tests_cant": "compares all pairs of transactions; bidirectional maintenance works on the record of link changes, which differs between such pairs", "anchors": ["src/typed_graph.rs: do_commit, modify_node, update_node, apply_bidirectional_links, LinkChangeRecorder"]}
{"id": "C81", "title": "A request that is already symmetric is carried out literally", "statement": "If in the nodes that the calls of a transaction ask for every declared bidirectional link has its opposite and vice versa, a successful commit leaves exactly these nodes, and if the links have allowed types and the calls can be applied it does succeed, however many opposites a link has. Consequently a graph with symmetric, correctly typed links to existing nodes can be restored: after any changes that keep the indices and variants, a transaction that only updates the changed nodes to their old content succeeds and leaves the old nodes.", "quantifier": "every graph and transaction of every call history with closures that keep variants, every schema without bidirectional Vec links", "why_tests_cant": "shows the absence of a conflict for all request graphs; the maintenance sees only added and removed links and must find every opposite already in place", "anchors": ["src/typed_graph.rs: do_commit, apply_bidirectional_links, check_link_type, update_node"]}
{"id": "C82", "title": "Nodes can be inserted in one transaction or in several, in either order", "statement": "If the first of two transactions inserts only nodes that do not refer to those of the second, committing one after the other leaves the same nodes as inserting all of them in one transaction, with the same maintained opposites. If no variant has two opposites of one link, the whole succeeds exactly if both parts do. Two open transactions that only insert nodes, not referring to each other's, can be committed in either order, with the same nodes and the same success.", "quantifier": "every graph and every such transactions of every call history, every schema without bidirectional Vec links", "why_tests_cant": "equality of results for all partitions of all node sets, with bidirectional maintenance between the commits", "anchors": ["src/typed_graph.rs: merge_nodes, apply_bidirectional_links, check_link_type, commit", "src/typed_graph/transaction.rs: insert, fill_back"]}
{"id": "C83", "title": "Transactions that leave each other's nodes alone commute, with bidirectional links", "statement": "Two transactions are open on a graph whose bidirectional links are symmetric, and both could be committed to it. Suppose every node is left alone by one of them (not named, not linking to what it redirects or removes, and unchanged by its commit), and the nodes one works on do not link to what the other inserts, redirects or removes. Then committing the second after the first gives, on the nodes each works on, exactly what it gives alone, and both orders leave the same nodes (sets as sets). If no variant has two opposites of one link and the second transaction is valid and refers to nothing the first removes, it also succeeds after the first. Naming different nodes alone is not enough, because a commit also changes the opposites of the links it changes.", "quantifier": "every schema without bidirectional Vec links, every graph reached by a history of calls, every two open transactions on it with any calls and variant-keeping closures", "why_tests_cant": "all pairs of transactions and all graphs; the interference goes through opposites maintained by the library, which tests would have to enumerate", "anchors": ["src/typed_graph.rs: commit, do_commit, apply_bidirectional_links, check_link_type"]}
{"id": "C84", "title": "The printed form of a transaction shows everything but the closures", "statement": "If two transactions print the same with {:?} (context ids printed without commas, the inserted nodes printed in any way), they have the same printed context and the same printed inserted nodes, the same reserved indices, the same nodes to remove, the same nodes with queued mutate and update calls and the same redirects, each in the same order. If moreover the closures are the same and the printed context and inserted nodes determine them, is_empty and commit do the same for both.", "quantifier": "every two transactions, every graph, every text of node type, contexts and inserted nodes", "why_tests_cant": "the text of the inserted nodes stands in the middle and is arbitrary, so it may imitate any of the other fields", "anchors": ["src/typed_graph/transaction.rs: Debug for Transaction", "src/typed_graph.rs: Debug for NodeIndex"]}
{"id": "C85", "title": "Whole programs run like a machine on finite maps", "statement": "Take a machine whose graphs are finite maps from indices to nodes with a set of known indices, and whose transactions are the reserved indices, inserted nodes and queued calls. In a debug build and without bidirectional links, every call of a program returns normally (with the index the machine hands out) exactly if the machine can make the step; afterwards contexts and counters, the nodes of every graph and the contents of every transaction are those of the machine. The machine is deterministic, so nothing else (arenas, back-links, recorded changes, hash order) can be observed through these calls. A release build makes at least the steps of the machine, with the same nodes and transactions.", "quantifier": "every schema without bidirectional links and with link types on links other than Vec links; every program, of any length, on any number of contexts, graphs and transactions, using any transaction calls, merge, commit, give-up, drop and deserialization (commit_checked only in schemas without Vec links, with any checks; not switch_context or a graph after a caught commit panic), with any closures", "why_tests_cant": "equivalence of two machines on all programs; tests compare finitely many runs and have no independent model", "anchors": ["src/typed_graph.rs: commit, do_commit, merge_nodes, modify_node, update_node, redirect_links_vec, remove_node", "src/typed_graph/transaction.rs", "src/typed_graph.rs: Context", "src/typed_graph/serialize.rs: deserialize_graph", "src/cate_arena.rs"]}
{"id": "C86", "title": "Whole programs with bidirectional links run like a machine on finite maps", "statement": "Take the machine of C85 for schemas with bidirectional links: its commit carries out what the transaction asks for and then gives the nodes any contents that have exactly the links the declarations prescribe (the opposites of dropped links gone, the only possible opposites of added links added) and are otherwise unchanged; its deserialization completes links in the same way. In a debug build every program is a run of this machine with exactly the same contexts, nodes and transactions, and after it the next call returns normally exactly if the machine can make the step. Two results of one step of the machine differ at most in the order inside sets. If the closures look at sets as sets, all calls of a program return normally exactly if the machine can make all its steps, and whatever the machine chose, graphs and transactions are the same up to the order inside sets.", "quantifier": "every schema whose bidirectional and typed links are not Vec links and in which no variant has two opposites of one link; every program, of any length, on any number of contexts, graphs and transactions, using any transaction calls, merge, commit, give-up, drop and deserialization (not commit_checked, switch_context or a graph after a caught commit panic), with any closures (the last sentence: closures that cannot see the order inside sets)", "why_tests_cant": "equivalence of two machines on all programs and all orders inside sets; tests compare finitely many runs and have no independent model", "anchors": ["src/typed_graph.rs: commit, do_commit, merge_nodes, apply_bidirectional_links, check_link_type", "src/typed_graph/transaction.rs", "src/typed_graph/serialize.rs: deserialize_graph", "src/cate_arena.rs"]}
{"id": "C87", "title": "Declaration blocks are read exactly as written", "statement": "bidirectional!, group! and link_type! accept exactly comma-separated lists (with or without a last comma) of A.x <-> B.y, of g{A, B, ...} and of A.x: B or A.x: {B, ...}, and yield the declarations written there, in their order; no text can be read in two ways. node_enum! accepts exactly an enum with one unnamed field per variant followed by such blocks, provided bidirectional! names only variants and groups; several blocks of one kind add up, and the order between blocks of different kinds does not matter. discriminant!(e::V) is the last segment of a path with at least two.", "quantifier": "every token sequence and every list of items, every notion of which words are identifiers", "why_tests_cant": "all texts, accepted and rejected; a test is one text, and a rejected one needs a compile-fail test", "anchors": ["ttgraph_macros/src/bidirectional.rs", "ttgraph_macros/src/group.rs", "ttgraph_macros/src/link_check.rs", "ttgraph_macros/src/lib.rs"]}
{"id": "C88", "title": "The derive macro reads fields and groups exactly as written", "statement": "#[derive(TypedNode)] accepts exactly structs with named fields whose group and phantom_group attributes list words with commas, with group attributes on link fields only. It reads the fields in their order; a field belongs to exactly the groups its group attributes list, the struct has exactly the phantom groups its attributes list.", "quantifier": "every struct: any fields, types and attributes given as tokens", "why_tests_cant": "all structs and attribute texts, accepted and rejected", "anchors": ["ttgraph_macros/src/lib.rs"]}
{"id": "C89", "title": "Whether a field is a link does not depend on the spelling of its type", "statement": "Fields whose type is written in one of the documented ways are links of the documented kind, every field taken for a link is NodeIndex or one of the supported containers applied to it, and writing a leading :: before a crate name in a type changes nothing.", "quantifier": "every type of a field, as the tokens it is written with", "why_tests_cant": "all spellings of all types; a spelling that is not recognised compiles and only loses the tracking", "anchors": ["ttgraph_macros/src/lib.rs", "README.md"]}
{"id": "C90", "title": "Whole programs with context switches and checked commits run like a machine on finite maps", "statement": "Take the machine of C86 and let it also keep, for every graph, the order of its nodes, which is computed from the calls made so far (indices, variants, queued updates and removals) and never looks at a node. The machine switches a graph to another context by giving its nodes, in this order, the next indices of that context, renaming direct and Vec links, renaming links in sets (a link is lost if its new index was in the same set and belonged to a later node), and completing the bidirectional links; it can do so exactly if the indices suffice, the links respect the link types and no direct opposite is claimed twice. A checked commit is a commit whose added links and changed nodes pass the checks. In a debug build every program is a run of this machine with exactly the same contexts, nodes and transactions, its graphs iterate in the machine's order, and after it the next call returns normally exactly if the machine can make the step. Two results of one step differ at most in the order inside sets. If closures and checks look at sets as sets, all calls of a program return normally exactly if the machine can make all its steps, and whatever the machine chose, graphs and transactions are the same up to the order inside sets and the iteration order is the same. Every run of the machine is in the same way a run of the release build.", "quantifier": "every schema whose bidirectional and typed links are not Vec links and in which no variant has two opposites of one link; every program, of any length, on any number of contexts, graphs and transactions, using any calls except going on with a graph after a caught commit panic (commit_checked: schemas without Vec links, checks that cannot see the order inside sets), with any closures that keep the variant of a node (the last sentence: closures that cannot see the order inside sets)", "why_tests_cant": "equivalence of two machines on all programs, orders and renumberings; tests compare finitely many runs and have no independent model", "anchors": ["src/typed_graph.rs: switch_context, commit_checked, commit, iter, apply_bidirectional_links, check_link_type", "src/typed_graph/transaction.rs", "src/typed_graph/serialize.rs: deserialize_graph", "src/cate_arena.rs"]}
{"id": "C91", "title": "A transaction only works on graphs of its own context", "statement": "In a debug build a transaction is accepted by commit or commit_checked only if the graph belongs to the Context object (or a clone of it) the transaction was created from, and in every build merge accepts only such graphs; so the rule that contexts must not be mixed, which all other properties about programs take for granted, is enforced by the library. (Proved for programs whose contexts have different ids, such as those drawn by Context::new; false for contexts made by Context::default, which all have the nil UUID: a transaction of one can silently replace a node of a graph of the other.)", "quantifier": "every schema, every program over any number of contexts, graphs and transactions that may hand any transaction to any graph", "why_tests_cant": "needs all programs and all ways to make contexts; the repository's tests use one context each or expect a single mismatch", "anchors": ["src/typed_graph.rs: do_commit, Context", "src/typed_graph/transaction.rs: merge", "src/typed_graph/serialize.rs: deserialize_graph"]}
{"id": "C92", "title": "What node_enum! and the structs say holds in every graph", "statement": "If the text of node_enum! contains a line X.x <-> Y.y, where X and Y are variants or groups listing them and x and y are link fields of the variants' structs or groups in their #[group(..)] attributes, then in every graph of a program that leaves no dangling links, get_links_by_name of the one field of a node i contains j exactly if that of the other field of node j contains i. If it contains a line X.x: {W, ..} and x stands for a direct or set link field, everything get_links_by_name returns for that field (except empty entries in sets) is a node whose variant is one of those listed or belongs to a listed group. (For declarations that compile and are free of the ambiguities of findings 14-16: groups with different names, one #[group] attribute per field, names spelled as in the structs, one partner per variant, one annotation per name, no bidirectional Vec links, bidirectional links that fit the annotations.)", "quantifier": "every text of node_enum! and of the structs that meets the conditions, every program over any number of contexts, graphs and transactions, every node and field", "why_tests_cant": "ranges over all declarations and all programs; tests fix a few enums", "anchors": ["ttgraph_macros/src/lib.rs", "ttgraph_macros/src/bidirectional.rs", "ttgraph_macros/src/link_check.rs", "src/typed_graph.rs: do_commit"]}
{"id": "C93", "title": "Link types only decide which commits panic", "statement": "link_type! declarations never change what a graph contains. If the declarations of an enum are made laxer, a program behaves the same, with the same contexts, nodes and transactions, except that a commit whose link-type panic the program caught may return normally, and then leaves exactly the graph it had left when it panicked. If they are made stricter, a program without context switches behaves the same except that commits (checked or not) that returned normally may panic because of a link type, after having done everything. A program that goes on after commits that panicked because of link types, and after no other panic, runs like the machine of C90 without link types in which these commits are ordinary ones.", "quantifier": "every schema and every two choices of link types one of which allows all that the other allows; every program of any length, closures and contexts (last sentence: debug builds, no bidirectional Vec links, no variant with two opposites of one link, closures that keep the variant of a node, commit_checked as in C90)", "why_tests_cant": "relates all programs under all pairs of declarations; a test fixes one enum and one program", "anchors": ["src/typed_graph.rs: commit, commit_checked, check_link_type, do_commit, switch_context", "ttgraph_macros/src/link_check.rs"]}
{"id": "C94", "title": "Parts of a program that work on different graphs and transactions do not influence each other", "statement": "Take some of the graphs and transactions of a program as a part of their own, such that no call (commit, commit_checked, merge) names both one of them and another graph or transaction. What these graphs and transactions contain is decided by the calls that name them and the indices these calls returned, whatever other calls are made in between and even if the contexts are shared; and so is whether their next call that returns no new index returns normally or panics. If a program has any number of parts that also use different contexts, all ways to interleave their calls are possible if one is, return the same indices, and end in the same graphs, transactions and contexts. Two neighbouring calls that name different graphs and transactions and take indices from different contexts can be exchanged.", "quantifier": "every schema, every two programs of any length made of two parts, with all calls of the library including caught panics of commits; for the interleavings every list of calls after a common beginning that makes the contexts", "why_tests_cant": "the number of interleavings grows exponentially with the length of the program, and the other part is arbitrary", "anchors": ["src/typed_graph.rs: commit, commit_checked, switch_context, Context", "src/typed_graph/transaction.rs", "src/id_distributer.rs"]}
{"id": "C95", "title": "Which numbers the indices are does not matter", "statement": "Take the graphs and transactions of one part of a program; calls that name one of them name no other graph or transaction. The rest of the program may take indices from the same contexts, so it decides which indices the part gets. Take a second program in which the part makes the same calls, with every index replaced by its image under a bijection that keeps the empty index (in arguments, in returned indices, in the links of inserted nodes, and in what the closures do), and in which the rest does something else, or the part uses other contexts. When both programs have run, the part's graphs contain the same nodes up to this renaming (same variants, data, links and completed bidirectional links; sets as sets), and so do its open transactions. The part's next commit, and its next call on a transaction, returns normally after the first program iff it does after the second, provided the closures return on renamed nodes iff they return on the original ones.", "quantifier": "every schema whose bidirectional links are between non-Vec fields, every bijection of indices that keeps the empty index, every two programs of any length; the part may use all calls except switch_context, deserialisation and caught panics; merges in debug builds (as in C38). Whether commits return: schemas as in C41", "why_tests_cant": "the renaming, the programs and what the rest of the program does are arbitrary; tests always start from a fresh context and see the same small numbers", "anchors": ["src/typed_graph.rs: commit, commit_checked, merge_nodes, Context", "src/typed_graph/transaction.rs", "src/id_distributer.rs"]}
