{
 "claims": [
  {
   "property": "C01",
   "status": "proved",
   "theorems": [
    "C01_calls_fresh",
    "C01_calls_increasing",
    "C01_threads_unique_nonempty"
   ],
   "note": ""
  },
  {
   "property": "C02",
   "status": "proved",
   "theorems": [
    "C02_nth_call",
    "C02_one_call",
    "C02_repeats_far_apart",
    "C02_threads"
   ],
   "note": ""
  },
  {
   "property": "C03",
   "status": "proved",
   "theorems": [
    "C03_commit_exact",
    "C03_commit_refines_spec",
    "C03_spec_functional"
   ],
   "note": "For every history in which closures are well-typed; fields declared bidirectional are covered by C18-C22."
  },
  {
   "property": "C04",
   "status": "proved",
   "theorems": [
    "C04_insert_commit_get",
    "C04_old_nodes_kept"
   ],
   "note": ""
  },
  {
   "property": "C05",
   "status": "proved",
   "theorems": [
    "C05_remove_leaves_no_link"
   ],
   "note": ""
  },
  {
   "property": "C06",
   "status": "proved",
   "theorems": [
    "C06_removal_frame"
   ],
   "note": ""
  },
  {
   "property": "C07",
   "status": "proved",
   "theorems": [
    "C07_check_backlinks_passes",
    "C07_reverse_index_exact"
   ],
   "note": ""
  },
  {
   "property": "C08",
   "status": "proved",
   "theorems": [
    "C08_destination_end_of_chain",
    "C08_destination_unique",
    "C08_redirect_final_destination"
   ],
   "note": ""
  },
  {
   "property": "C09",
   "status": "proved",
   "theorems": [
    "C09_redirect_all_nobody_left",
    "C09_redirect_nobody_left"
   ],
   "note": ""
  },
  {
   "property": "C10",
   "status": "proved",
   "theorems": [
    "C10_loop_all_panics",
    "C10_loop_message_real",
    "C10_loop_panics",
    "C10_success_no_loop",
    "C10_terminates"
   ],
   "note": "A loop among redirect_links calls gives the loop panic; so does a loop among redirect_all_links calls if what precedes them is valid, and in any case it excludes success; the loop panic implies a loop."
  },
  {
   "property": "C11",
   "status": "proved",
   "theorems": [
    "C11_redirect_spares_new_nodes"
   ],
   "note": ""
  },
  {
   "property": "C12",
   "status": "partial",
   "theorems": [
    "C12_later_commits_partial",
    "C12_redirect_to_empty_partial",
    "C12_redirect_to_empty_refuted"
   ],
   "note": "REFUTED: finding. Cleared links stay recorded under the empty index, so a later redirect from the empty index restores or panics depending on history. Proved: the links are cleared (C12_redirect_to_empty), and two graphs with the same nodes give the same result for every transaction that commits on both, without redirects of the empty index (C12_later_commits_partial)."
  },
  {
   "property": "C13",
   "status": "proved",
   "theorems": [
    "C13_get_iter_len_agree"
   ],
   "note": ""
  },
  {
   "property": "C14",
   "status": "proved",
   "theorems": [
    "C14_iterator_exact_fused"
   ],
   "note": ""
  },
  {
   "property": "C15",
   "status": "partial",
   "theorems": [
    "C15_iter_type_exact_partial",
    "C15_iter_type_refuted"
   ],
   "note": "REFUTED: finding. A variant-changing closure leaves the node in the container of its old variant. Proved for histories whose closures keep variants (C15_iter_type_exact_partial)."
  },
  {
   "property": "C16",
   "status": "proved",
   "theorems": [
    "C16_iter_group_exact"
   ],
   "note": "Of several groups with one name the first counts; C51 shows that link_type! and bidirectional! use the last."
  },
  {
   "property": "C17",
   "status": "partial",
   "theorems": [
    "C17_after_switch_partial",
    "C17_iter_index_order_refuted"
   ],
   "note": "REFUTED: finding. Iteration runs variant by variant, and within a variant in table order, not in index order. C17_after_switch_partial: the documented order holds right after switch_context."
  },
  {
   "property": "C18",
   "status": "proved",
   "theorems": [
    "C18_bidirectional_symmetric",
    "C18_declared_symmetric"
   ],
   "note": ""
  },
  {
   "property": "C19",
   "status": "partial",
   "theorems": [
    "C19_added_links_answered_partial",
    "C19_answered_kept_partial",
    "C19_grouped_links_refuted",
    "C19_late_node_refuted"
   ],
   "note": "REFUTED: finding. With two links of one group to the same node, dropping one drops the opposite link although the other stays; and a node filled in at an index that is already a link target is not linked back. Proved: added links are always answered, and symmetry is kept by transactions that take no declared link away."
  },
  {
   "property": "C20",
   "status": "proved",
   "theorems": [
    "C20_conflict_panics",
    "C20_occupied_kept"
   ],
   "note": ""
  },
  {
   "property": "C21",
   "status": "proved",
   "theorems": [
    "C21_maintenance_frame"
   ],
   "note": ""
  },
  {
   "property": "C22",
   "status": "proved",
   "theorems": [
    "C22_set_set_never_panics"
   ],
   "note": ""
  },
  {
   "property": "C23",
   "status": "partial",
   "theorems": [
    "C23_opposites_declared_partial",
    "C23_opposites_symmetric_partial",
    "C23_repeated_group_refuted",
    "C23_two_attributes_refuted"
   ],
   "note": "REFUTED: finding. With two #[group] attributes on one field the generated relation differs from the declared one and is not symmetric; with a repeated variant group name a declared pair is lost. Proved for schemas with at most one attribute per field, distinct group names (README asks for names apart from variants) and names spelled as declared."
  },
  {
   "property": "C24",
   "status": "proved",
   "theorems": [
    "C24_declared_types_kept",
    "C24_link_types_kept"
   ],
   "note": ""
  },
  {
   "property": "C25",
   "status": "partial",
   "theorems": [
    "C25_added_opposite_refuted",
    "C25_all_links_partial",
    "C25_variant_change_refuted",
    "C25_vec_refuted"
   ],
   "note": "REFUTED: finding. Links added as bidirectional opposites are not checked, nor links to nodes whose variant an update changes, nor a Vec link that is changed from [] to [a, a] and then to [a] in one transaction. C25_all_links_partial: without Vec links, with bidirectional declarations that agree with the link types and with closures that keep variants, every link is checked; C24 is the part for schemas with Vec links."
  },
  {
   "property": "C26",
   "status": "proved",
   "theorems": [
    "C26_link_type_panic_real"
   ],
   "note": "Proved when no annotation constrains a Vec link."
  },
  {
   "property": "C27",
   "status": "partial",
   "theorems": [
    "C27_annotations_meant_partial",
    "C27_two_annotations_refuted",
    "C27_unknown_variant_refuted"
   ],
   "note": "REFUTED: finding. Of two annotations of one link only the lexicographically smallest is enforced; an annotation of an unknown variant is silently dropped. Proved when a variant and a name are annotated at most once."
  },
  {
   "property": "C28",
   "status": "proved",
   "theorems": [
    "C28_change_record_exact"
   ],
   "note": ""
  },
  {
   "property": "C29",
   "status": "proved",
   "theorems": [
    "C29_add_checks_run"
   ],
   "note": ""
  },
  {
   "property": "C30",
   "status": "partial",
   "theorems": [
    "C30_checked_exact_partial",
    "C30_data_change_refuted",
    "C30_failure_means_check_partial",
    "C30_insert_refuted",
    "C30_node_checks_partial",
    "C30_remove_checks_on_added_refuted",
    "C30_remove_checks_refuted",
    "C30_removed_node_panics_refuted"
   ],
   "note": "REFUTED: finding. Link-remove checks run on the added links; node checks skip nodes whose data change and inserted nodes without links; a removed node that had links makes the check run panic. Proved: node checks run on every node whose links changed, and a check failure is caused by a check that answers false. C30_checked_exact_partial says exactly which checks decide (schemas without Vec links)."
  },
  {
   "property": "C31",
   "status": "proved",
   "theorems": [
    "C31_graph",
    "C31_round_trip",
    "C31_round_trip_any"
   ],
   "note": ""
  },
  {
   "property": "C32",
   "status": "partial",
   "theorems": [
    "C32_contexts_mix_refuted",
    "C32_graph",
    "C32_link_targets_refuted",
    "C32_nodes_not_reused_partial"
   ],
   "note": "REFUTED: finding. The deserialized context hands out indices that links of the graph already mention, and it shares its id with the original context, so transactions of one are accepted by graphs of the other and overwrite nodes. Proved: indices of nodes are never reused, and in a closed graph no link target is."
  },
  {
   "property": "C33",
   "status": "proved",
   "theorems": [
    "C33_duplicates_rejected",
    "C33_exactly_the_entries"
   ],
   "note": ""
  },
  {
   "property": "C34",
   "status": "partial",
   "theorems": [
    "C34_isomorphic_refuted",
    "C34_renames_apart_partial",
    "C34_renames_partial"
   ],
   "note": "REFUTED: finding. Even for two nodes and a brand-new context a set field can lose a link when the new index of one element is the old index of another. Proved isomorphic whenever no set field has such a collision. C71 says exactly which links are lost."
  },
  {
   "property": "C35",
   "status": "proved",
   "theorems": [
    "C35_merge_adds_nodes",
    "C35_merge_commit",
    "C35_merge_possible"
   ],
   "note": "Proved. C35_merge_adds_nodes assumes, in release builds, that the merged graph has no left-over reservation (see C38)."
  },
  {
   "property": "C36",
   "status": "proved",
   "theorems": [
    "C36_empty_commit_noop",
    "C36_is_empty_accurate"
   ],
   "note": ""
  },
  {
   "property": "C37",
   "status": "proved",
   "theorems": [
    "C37_merge_wrong_context",
    "C37_release_unchecked",
    "C37_unfilled_rejected",
    "C37_wrong_context_rejected"
   ],
   "note": ""
  },
  {
   "property": "C38",
   "status": "partial",
   "theorems": [
    "C38_calls_refine_spec",
    "C38_fill_back_exact",
    "C38_leftover_refuted",
    "C38_remove_cancels"
   ],
   "note": "REFUTED in one corner of release builds: finding 23 (C38_leftover_refuted). Proved for all histories in debug builds, and in release builds if merged graphs have no left-over reservation."
  },
  {
   "property": "C39",
   "status": "partial",
   "theorems": [
    "C39_graph_index_refuted",
    "C39_occupied_refuted",
    "C39_occupied_same_variant_partial"
   ],
   "note": "REFUTED: finding. fill_back_untyped on an occupied index succeeds for a node of another variant, and on an index of the graph it leads to a silent overwrite at commit. The panic is proved for a node of the same variant."
  },
  {
   "property": "C40",
   "status": "partial",
   "theorems": [
    "C40_atomic_refuted",
    "C40_early_panics_atomic_partial"
   ],
   "note": "REFUTED: finding. A commit that panics in a later phase leaves the earlier phases applied. Proved for the context/reservation checks and for redirect_links loops. C70 describes exactly what every panic leaves."
  },
  {
   "property": "C41",
   "status": "proved",
   "theorems": [
    "C41_bidirectional_succeed",
    "C41_success_exact",
    "C41_valid_commits_succeed"
   ],
   "note": "Exact condition for schemas without bidirectional links and link types, and for schemas with at most one opposite per link and variant."
  },
  {
   "property": "C42",
   "status": "proved",
   "theorems": [
    "C42_integrity_kept"
   ],
   "note": ""
  },
  {
   "property": "C43",
   "status": "proved",
   "theorems": [
    "C43_commit_no_overwrite",
    "C43_merge_no_overwrite",
    "C43_one_owner"
   ],
   "note": ""
  },
  {
   "property": "C44",
   "status": "proved",
   "theorems": [
    "C44_give_up_frame",
    "C44_never_handed_out_again"
   ],
   "note": ""
  },
  {
   "property": "C45",
   "status": "partial",
   "theorems": [
    "C45_by_group_partial",
    "C45_by_name_partial",
    "C45_group_empties_refuted",
    "C45_two_attributes_refuted"
   ],
   "note": "REFUTED: finding. get_links_by_group returns the empty entries of Vec links, and a wrong field when a field has two #[group] attributes. Proved otherwise."
  },
  {
   "property": "C46",
   "status": "partial",
   "theorems": [
    "C46_data_by_name_partial",
    "C46_data_names",
    "C46_other_types_refuted"
   ],
   "note": "REFUTED: finding. A data field whose type is not a path (tuple, array, reference) cannot be reached by name. Proved for path types."
  },
  {
   "property": "C47",
   "status": "proved",
   "theorems": [
    "C47_tables_aligned"
   ],
   "note": ""
  },
  {
   "property": "C48",
   "status": "proved",
   "theorems": [
    "C48_closures_once_in_order",
    "C48_closures_own_node",
    "C48_immediate",
    "C48_immediate_update",
    "C48_macros_keep_variant"
   ],
   "note": ""
  },
  {
   "property": "C49",
   "status": "partial",
   "theorems": [
    "C49_groups_inverse_partial",
    "C49_groups_inverse_refuted"
   ],
   "note": "REFUTED: finding for fields with two #[group] attributes; proved for at most one."
  },
  {
   "property": "C50",
   "status": "partial",
   "theorems": [
    "C50_bidirectional_links_listed_partial",
    "C50_two_attributes_refuted"
   ],
   "note": "REFUTED: finding. With two #[group] attributes on one field, a link with a declared opposite is listed without it. Proved for schemas with at most one #[group] attribute per field, distinct group names and names spelled as declared."
  },
  {
   "property": "C51",
   "status": "partial",
   "theorems": [
    "C51_group_meaning_partial",
    "C51_repeated_group_refuted"
   ],
   "note": "REFUTED: finding. With two groups of one name iter_group uses the first and link_type! the last. Proved for distinct names."
  },
  {
   "property": "C52",
   "status": "partial",
   "theorems": [
    "C52_hidden_state_refuted",
    "C52_known_partial",
    "C52_same_results_partial",
    "C52_valid_partial"
   ],
   "note": "REFUTED: finding. A mutate that sets a link to an index without node succeeds if some earlier node once linked there and panics otherwise. Proved: if both commits succeed, the results are equal (no bidirectional links, no redirects of the empty index). Valid transactions (also with bidirectional links, at most one opposite per link and variant) succeed on both graphs or on neither, with the same result. With the same nodes and the same known indices (C74) every transaction succeeds on both graphs or on neither, with the same result (C52_known_partial): the known indices are the only hidden state."
  },
  {
   "property": "C53",
   "status": "proved",
   "theorems": [
    "C53_links_exact"
   ],
   "note": "Bidirectional links that are Vec links are excluded (the change record does not track them exactly, see C28)."
  },
  {
   "property": "C54",
   "status": "proved",
   "theorems": [
    "C54_result_determined",
    "C54_success_determined"
   ],
   "note": "Success of invalid transactions may depend on hidden state, see C52."
  },
  {
   "property": "C55",
   "status": "proved",
   "theorems": [
    "C55_check_integrity_exact"
   ],
   "note": "Proved for every graph of every history."
  },
  {
   "property": "C56",
   "status": "proved",
   "theorems": [
    "C56_extend",
    "C56_extend_is_inserts"
   ],
   "note": "Proved: exact indices, contents and frame, and equality with a sequence of inserts."
  },
  {
   "property": "C57",
   "status": "proved",
   "theorems": [
    "C57_get_node",
    "C57_typed_macros"
   ],
   "note": "Proved for programs using the macros only; C15 has the counterexample for arbitrary closures."
  },
  {
   "property": "C58",
   "status": "proved",
   "theorems": [
    "C58_checks_in_force",
    "C58_order_irrelevant",
    "C58_registry"
   ],
   "note": "Proved."
  },
  {
   "property": "C59",
   "status": "partial",
   "theorems": [
    "C59_add_link",
    "C59_check_link",
    "C59_contains_empty_refuted",
    "C59_contains_link",
    "C59_iter_links",
    "C59_iter_sources",
    "C59_modify_any",
    "C59_modify_link",
    "C59_remove_link"
   ],
   "note": "REFUTED for the empty index: contains_link answers true for it on sets and Vecs that hold it (finding). Everything else proved, for non-empty targets."
  },
  {
   "property": "C60",
   "status": "partial",
   "theorems": [
    "C60_histories_go_on_partial",
    "C60_mutate_panic_refuted",
    "C60_panic_exact",
    "C60_panic_leaves_consistent_partial",
    "C60_panic_leaves_consistent_refuted",
    "C60_unknown_target_refuted",
    "C60_update_panic_refuted"
   ],
   "note": "REFUTED for panics caused by queued mutate/update closures (finding: the node stays out of the index, or is lost). Proved for every other panic: closure_fault names the excluded cases exactly. C60_panic_exact says for every panic what is left, in the excluded cases too."
  },
  {
   "property": "C61",
   "status": "proved",
   "theorems": [
    "C61_iterator_order",
    "C61_old_nodes_first",
    "C61_order_after_panic",
    "C61_order_is_replayed",
    "C61_order_same_everywhere"
   ],
   "note": "replay is a function of the list of calls; caught commit panics are described by C61_order_after_panic for debug builds."
  },
  {
   "property": "C62",
   "status": "proved",
   "theorems": [
    "C62_commits_commute",
    "C62_independent_succeed"
   ],
   "note": "Equality of the nodes is up to the order inside sets. C62_order_matters shows that the condition on links is needed: there both orders succeed and the results differ."
  },
  {
   "property": "C63",
   "status": "proved",
   "theorems": [
    "C63_always_orderly",
    "C63_check_integrity"
   ],
   "note": "tidy (Tidy.v) is the condition on programs; C63_check_integrity connects it with the library call."
  },
  {
   "property": "C64",
   "status": "proved",
   "theorems": [
    "C64_debug_faithful",
    "C64_display_faithful"
   ],
   "note": "C64_one_line_needed shows that multi-line node texts can make different graphs print alike."
  },
  {
   "property": "C65",
   "status": "proved",
   "theorems": [
    "C65_commit_refines_spec",
    "C65_fill_back",
    "C65_fill_back_untyped",
    "C65_graphs_consistent",
    "C65_merge",
    "C65_mutate",
    "C65_one_place",
    "C65_update"
   ],
   "note": "Commit panics are C60. The reservations stay the same as a set; what is known of the variant of the lost node is not part of the statement (C65_lost_refilled)."
  },
  {
   "property": "C66",
   "status": "proved",
   "theorems": [
    "C66_links_follow_first_call",
    "C66_loop_message_exact",
    "C66_pointers_determined",
    "C66_self_redirect_panics"
   ],
   "note": "No assumption that sources are distinct. C66_case shows that neither the first nor the last call for an index decides alone, C66_cycle_without_panic that a cycle among the calls need not be a loop: finding."
  },
  {
   "property": "C67",
   "status": "partial",
   "theorems": [
    "C67_bidirectional_refuted",
    "C67_debug_build",
    "C67_release_build",
    "C67_same_graphs_partial",
    "C67_same_panics_partial",
    "C67_same_success_partial"
   ],
   "note": "REFUTED with bidirectional declarations: finding 28 (C67_bidirectional_refuted). Partial: proved for schemas without declarations and programs without caught panics. The statement about debug and release builds is proved in full (C67_release_build, C67_debug_build). With declarations the graphs are equal up to the order inside sets (C72)."
  },
  {
   "property": "C68",
   "status": "partial",
   "theorems": [
    "C68_failures",
    "C68_link_types_refuted",
    "C68_links_exact",
    "C68_success_exact",
    "C68_symmetric",
    "C68_typed_partial"
   ],
   "note": "REFUTED for link types: finding 25 (C68_link_types_refuted); they are kept if the entries respect them (C68_typed_partial). The other parts are proved in full."
  },
  {
   "property": "C69",
   "status": "proved",
   "theorems": [
    "C69_arenas_are_slot_tables",
    "C69_collision_refuted",
    "C69_ghost_refuted",
    "C69_merge_refuted"
   ],
   "note": "The provisos are needed: C69_ghost_refuted, C69_collision_refuted, C69_merge_refuted (finding 29)."
  },
  {
   "property": "C70",
   "status": "proved",
   "theorems": [
    "C70_panic_exact"
   ],
   "note": ""
  },
  {
   "property": "C71",
   "status": "proved",
   "theorems": [
    "C71_lost_iff",
    "C71_switch_bidirectional",
    "C71_switch_exact"
   ],
   "note": ""
  },
  {
   "property": "C72",
   "status": "proved",
   "theorems": [
    "C72_same_up_to_set_order"
   ],
   "note": "As stated: for programs that succeed in both settings. In release builds for programs without merge."
  },
  {
   "property": "C73",
   "status": "partial",
   "theorems": [
    "C73_next_call_same_partial",
    "C73_several_opposites_refuted",
    "C73_succeeds_in_every_order_partial"
   ],
   "note": "REFUTED if a link has several possible opposites on one variant: finding 30 (C73_several_opposites_refuted). Partial: proved for schemas in which no variant has two opposites of one link and Vec links accept every type, for programs without caught panics and without commit_checked (user checks may look at the order inside sets), merging only in debug builds, and switching contexts only if closures keep variants."
  },
  {
   "property": "C74",
   "status": "proved",
   "theorems": [
    "C74_commit_succeeds_iff",
    "C74_known_indices",
    "C74_plain_commit_succeeds_iff"
   ],
   "note": "As stated, for programs without caught panics (C74_known_indices) and schemas in which no variant has two opposites of one link."
  },
  {
   "property": "C75",
   "status": "proved",
   "theorems": [
    "C75_btree_increasing",
    "C75_existing_node",
    "C75_index_set_swaps",
    "C75_new_node",
    "C75_node_functions",
    "C75_one_result",
    "C75_order_set_keeps_order"
   ],
   "note": "As stated. IndexSet links do not keep their order: finding 31 (C75_index_set_swaps)."
  },
  {
   "property": "C76",
   "status": "proved",
   "theorems": [
    "C76_bidirectional_differs",
    "C76_cut_same_nodes",
    "C76_cut_succeeds",
    "C76_removals_bidirectional",
    "C76_removals_succeed"
   ],
   "note": "As stated. C76_removals_bidirectional and C76_removals_succeed are the cuts between removals, C76_bidirectional_differs the other cuts (finding 32)."
  },
  {
   "property": "C77",
   "status": "proved",
   "theorems": [
    "C77_earlier_link_lost",
    "C77_insert_remove_undone",
    "C77_plain_identical",
    "C77_remove_succeeds"
   ],
   "note": "As stated. C77_earlier_link_lost shows why no existing node may refer to the inserted ones."
  },
  {
   "property": "C78",
   "status": "proved",
   "theorems": [
    "C78_filled_later_differs",
    "C78_kept_calls_last",
    "C78_now_or_kept",
    "C78_same_transaction"
   ],
   "note": "As stated, on the model of the code itself: the transactions are equal as values, not only up to what they mean. C78_filled_later_differs shows that the condition is needed."
  },
  {
   "property": "C79",
   "status": "proved",
   "theorems": [
    "C79_len_after_commit"
   ],
   "note": "As stated."
  },
  {
   "property": "C80",
   "status": "proved",
   "theorems": [
    "C80_mutate_as_update",
    "C80_mutates_rearranged",
    "C80_same_request",
    "C80_same_success"
   ],
   "note": "As stated."
  },
  {
   "property": "C81",
   "status": "proved",
   "theorems": [
    "C81_restore",
    "C81_symmetric_request",
    "C81_symmetric_succeeds"
   ],
   "note": "As stated."
  },
  {
   "property": "C82",
   "status": "proved",
   "theorems": [
    "C82_either_first",
    "C82_either_succeeds",
    "C82_first_part_succeeds",
    "C82_one_or_two",
    "C82_reference_differs",
    "C82_second_part_succeeds"
   ],
   "note": "As stated; C82_reference_differs shows that the condition on references is needed."
  },
  {
   "property": "C83",
   "status": "proved",
   "theorems": [
    "C83_commits_commute",
    "C83_different_nodes_not_enough",
    "C83_second_commit",
    "C83_second_succeeds"
   ],
   "note": "Equality of the nodes is up to the order inside sets. C83_different_nodes_not_enough shows that naming different nodes is not enough."
  },
  {
   "property": "C84",
   "status": "proved",
   "theorems": [
    "C84_debug_faithful",
    "C84_same_commit"
   ],
   "note": "The generated arenas have no Debug (finding 33); the text of the inserted nodes is an arbitrary function."
  },
  {
   "property": "C85",
   "status": "proved",
   "theorems": [
    "C85_machine_deterministic",
    "C85_next_call",
    "C85_release",
    "C85_runs_like_machine",
    "C85_same_contents"
   ],
   "note": "As stated. C85_next_call is the statement for one more call after any program."
  },
  {
   "property": "C86",
   "status": "proved",
   "theorems": [
    "C86_choices",
    "C86_runs_like_machine",
    "C86_same_contents",
    "C86_succeeds_iff"
   ],
   "note": "As stated. C86_runs_like_machine (exact contents, any closures) with C86_choices; C86_succeeds_iff and C86_same_contents are the part for closures that look at sets as sets (op_same)."
  },
  {
   "property": "C87",
   "status": "proved",
   "theorems": [
    "C87_bidirectional_read",
    "C87_block_order",
    "C87_discriminant",
    "C87_group_read",
    "C87_link_type_read",
    "C87_node_enum_read",
    "C87_unambiguous"
   ],
   "note": "As stated, on token lists; syn's tokens and items are trusted."
  },
  {
   "property": "C88",
   "status": "proved",
   "theorems": [
    "C88_derive_read",
    "C88_groups_read"
   ],
   "note": "As stated, on token lists; syn's attributes and types are trusted."
  },
  {
   "property": "C89",
   "status": "partial",
   "theorems": [
    "C89_documented_links",
    "C89_leading_colons_partial",
    "C89_more_spellings_refuted",
    "C89_only_links",
    "C89_spelling_refuted"
   ],
   "note": "REFUTED: finding 34. The documented spellings are links (C89_documented_links) and nothing else is (C89_only_links); that a leading :: changes nothing is false for NodeIndex and Vec and proved for sets (C89_leading_colons_partial)."
  },
  {
   "property": "C90",
   "status": "proved",
   "theorems": [
    "C90_choices",
    "C90_release_build",
    "C90_runs_like_machine",
    "C90_same_contents",
    "C90_succeeds_iff"
   ],
   "note": "As stated. C90_runs_like_machine (exact contents and order, any variant-keeping closures) with C90_choices; C90_succeeds_iff and C90_same_contents are the part for closures and checks that look at sets as sets (calls_same). C90_release_build: the release build."
  },
  {
   "property": "C91",
   "status": "partial",
   "theorems": [
    "C91_accepted_partial",
    "C91_default_contexts_refuted",
    "C91_enforced_partial",
    "C91_merge_partial"
   ],
   "note": "REFUTED: finding 35 (Context::default). Partial: proved for programs whose contexts have pairwise different ids (C91_enforced_partial for whole programs, C91_accepted_partial for one commit, C91_merge_partial for merge in every build)."
  },
  {
   "property": "C92",
   "status": "proved",
   "theorems": [
    "C92_bidirectional_as_written",
    "C92_types_as_written"
   ],
   "note": "As stated, with the conditions in well_declared (Text.v). Without them the declarations do not mean what they say: C23_*_refuted, C27_*_refuted."
  },
  {
   "property": "C93",
   "status": "proved",
   "theorems": [
    "C93_caught_type_panics",
    "C93_laxer_types",
    "C93_stricter_types"
   ],
   "note": "Both directions; the stricter one leaves out switch_context, which consumes the graph when it panics. The machine of C90 covers programs that go on after link-type panics."
  },
  {
   "property": "C94",
   "status": "proved",
   "theorems": [
    "C94_exchange",
    "C94_interleavings",
    "C94_own_calls_decide",
    "C94_same_calls_return"
   ],
   "note": "The first two theorems allow shared contexts; the interleavings, for any number of parts, need separate ones (C94_shared_context shows why)."
  },
  {
   "property": "C95",
   "status": "proved",
   "theorems": [
    "C95_commit",
    "C95_next_call_returns",
    "C95_next_commit_returns",
    "C95_numbers_do_not_matter"
   ],
   "note": "The part makes no switch_context, deserialisation or caught-panic calls."
  }
 ]
}