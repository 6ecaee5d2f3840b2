# Which Coq definition models which Rust function

Generated from the citations in the comments of `rocq/theories/*.v`. Line numbers refer to `/repo`.

`src/arena.rs` is not compiled (its `mod` line is commented out in `src/lib.rs`) and not modelled.

## `src/cate_arena.rs`

| function | lines | model |
|---|---|---|
| `first` | 13 | trait signature; implemented by the generated arena, `ttgraph_macros/src/cate_arena.rs` |
| `next` | 15 | trait signature; implemented by the generated arena, `ttgraph_macros/src/cate_arena.rs` |
| `discriminant` | 19 | trait signature; implemented by the generated arena, `ttgraph_macros/src/cate_arena.rs` |
| `new` | 54 | trait signature; implemented by the generated arena, `ttgraph_macros/src/cate_arena.rs` |
| `new_from_iter` | 55 | trait signature; implemented by the generated arena, `ttgraph_macros/src/cate_arena.rs` |
| `dispatch` | 56 | trait signature; implemented by the generated arena, `ttgraph_macros/src/cate_arena.rs` |
| `get_container` | 57 | trait signature; implemented by the generated arena, `ttgraph_macros/src/cate_arena.rs` |
| `get_container_mut` | 58 | trait signature; implemented by the generated arena, `ttgraph_macros/src/cate_arena.rs` |
| `alloc` | 59 | trait signature; implemented by the generated arena, `ttgraph_macros/src/cate_arena.rs` |
| `alloc_untyped` | 60 | trait signature; implemented by the generated arena, `ttgraph_macros/src/cate_arena.rs` |
| `fill_back_untyped` | 61 | trait signature; implemented by the generated arena, `ttgraph_macros/src/cate_arena.rs` |
| `merge` | 62-64 | trait signature; implemented by the generated arena, `ttgraph_macros/src/cate_arena.rs` |
| `remove` | 65 | trait signature; implemented by the generated arena, `ttgraph_macros/src/cate_arena.rs` |
| `len` | 66 | trait signature; implemented by the generated arena, `ttgraph_macros/src/cate_arena.rs` |
| `iter` | 67 | trait signature; implemented by the generated arena, `ttgraph_macros/src/cate_arena.rs` |
| `iter_mut` | 68 | trait signature; implemented by the generated arena, `ttgraph_macros/src/cate_arena.rs` |
| `into_iter` | 69 | trait signature; implemented by the generated arena, `ttgraph_macros/src/cate_arena.rs` |
| `insert` | 72-79 | `Arena.arena_insert` |
| `fill_back` | 80-88 | `Arena.arena_fill_back` |
| `contains` | 89-91 | `Arena.arena_contains` |
| `get` | 92-94 | `Arena.arena_get` |
| `get_mut` | 95-97 | `Arena.arena_set`, `Slots.arena_edit` |
| `update_with` | 98-105 | `Arena.arena_update_with` |

## `src/id_distributer.rs`

| function | lines | model |
|---|---|---|
| `new` | 10-12 | `Ids.dist_new` |
| `alloc` | 14-17 | `IdThreads.dstate`, `Ids.dist_alloc` |
| `from_count` | 19-21 | `Ids.dist_from_count` |
| `default` | 25-27 | `Ids.dist_new` |

## `src/typed_graph.rs`

| function | lines | model |
|---|---|---|
| `empty` | 51-53 | `Node.idx_empty` |
| `is_empty` | 62-64 | comparison with `Node.idx_empty` |
| `default` | 68-70 | `Node.idx`: the empty index is 0 |
| `fmt` | 80-86 | `Display.show_index` |
| `new` | 142-148 | `Graph.graph_new` |
| `get` | 187-189 | `Graph.graph_get` |
| `iter` | 236-238 | `Graph.graph_iter` |
| `iter_type` | 282-286 | `Graph.graph_iter_type` |
| `iter_group` | 344-346 | `Schema.iter_group` |
| `len` | 375-377 | `Graph.graph_len` |
| `is_empty` | 380-382 | `Graph.graph_len` |
| `commit` | 423-426 | `Graph.commit` |
| `commit_checked` | 432-439 | `Graph.commit_checked` |
| `switch_context` | 450-476 | `Graph.rebuild`, `Graph.switch_context`, `Graph.switch_insert`, `Graph.switch_relabel` |
| `check_integrity` | 480-486 | `Base.res`, `Graph.check_integrity` |
| `check_integrity` | 489 | empty body, compiled without feature `debug` only (not modelled) |
| `check_backlinks` | 494-510 | `Base.res`, `Graph.set_eqb` |
| `check_backlinks` | 513 | empty body, compiled without feature `debug` only (not modelled) |
| `do_commit` | 515-536 | `Graph.commit_body`, `Graph.do_commit` |
| `merge_nodes` | 538-547 | `Graph.merge_nodes` |
| `remove_node` | 549-559 | `Graph.remove_node` |
| `modify_node` | 561-576 | `Graph.link_sources`, `Graph.modify_node`, `Graph.unlink_sources` |
| `update_node` | 578-593 | `Graph.update_node` |
| `redirect_links` | 595-612 | `Graph.redirect_links` |
| `redirect_links_vec` | 614-648 | `Graph.fa_init`, `Graph.redirect_links_vec`, `Graph.redirect_loop` |
| `apply_bidirectional_links` | 650-687 | `Graph.apply_bidirectional_links`, `Graph.bidi_add1`, `Graph.bidi_remove1` |
| `add_back_link` | 689-691 | `Graph.add_back_link` |
| `add_back_links` | 693-698 | `Graph.add_back_links` |
| `remove_back_link` | 700-702 | `Graph.remove_back_link` |
| `remove_back_links` | 704-708 | `Graph.remove_back_links` |
| `check_link_type` | 710-718 | `Graph.check_link_type` |
| `check_change` | 721-752 | `Graph.any_fails`, `Graph.check_change` |
| `do_deserialize` | 754-761 | `Graph.do_deserialize` |
| `add_link` | 770-779 | `Graph.lcr_add` |
| `add_link` | 782 | empty body, compiled without feature `debug` only (not modelled) |
| `remove_link` | 785-794 | `Graph.lcr_rem` |
| `remove_link` | 797 | empty body, compiled without feature `debug` only (not modelled) |
| `default` | 800-805 | `Graph.lcr_new` |
| `into_iter` | 812-814 | `Graph.graph_iter`, `Graph.graph` |
| `into_iter` | 821-823 | `Graph.graph_iter`, `Graph.graph` |
| `next` | 839-841 | forwards to the arena iterator: `Arena.iter_next` |
| `size_hint` | 842-844 | forwards to the arena iterator: `Arena.iter_size_hint` |
| `new` | 873-878 | contexts of `World.v` (`ONewCtx`, `ODeser`) |
| `from_id` | 880-885 | contexts of `World.v` (`ONewCtx`, `ODeser`) |

## `src/typed_graph/check.rs`

| function | lines | model |
|---|---|---|
| `new` | 21-27 | `Api.gc_empty` |
| `insert_node_check` | 29-33 | `Api.gc_call` |
| `remove_node_check` | 35-37 | `Api.gc_call` |
| `insert_link_add_check` | 39-44 | `Api.gc_call` |
| `remove_link_add_check` | 46-48 | `Api.gc_call` |
| `insert_link_remove_check` | 50-55 | `Api.gc_call` |
| `remove_link_remove_check` | 57-59 | `Api.gc_call` |
| `default` | 63-65 | `Api.gc_empty` |

## `src/typed_graph/debug.rs`

| function | lines | model |
|---|---|---|
| `fmt` | 7-22 | `Display.debug_lines` |

## `src/typed_graph/display.rs`

| function | lines | model |
|---|---|---|
| `fmt` | 7-14 | `Display.display_lines` |

## `src/typed_graph/macro_traits.rs`

Trait signatures; the implementations are the generated methods (`typed_node.rs`, `node_enum.rs` below). Two default bodies:

| function | lines | model |
|---|---|---|
| `get_bidiretional_link_mirrors_of` | 147-149 | `Schema.opp` |
| `check_link_type` | 154-159 | `Schema.check_type` |

## `src/typed_graph/serialize.rs`

| function | lines | model |
|---|---|---|
| `from` | 59-64 | `Graph.gserial` |
| `serialize` | 77-86 | forwarding to serde: `Graph.serialize` |
| `serialize` | 94-102 | forwarding to serde: `Graph.serialize` |
| `deserialize_graph` | 106-113 | `Graph.deserialize_graph` |

## `src/typed_graph/transaction.rs`

| function | lines | model |
|---|---|---|
| `new` | 58-70 | `Trans.trans_new` |
| `alloc` | 110-114 | `Trans.trans_alloc` |
| `alloc_untyped` | 146-150 | `Trans.trans_alloc_untyped` |
| `fill_back` | 153-156 | `Trans.trans_fill_back` |
| `fill_back_untyped` | 159-162 | `Trans.trans_fill_back_untyped` |
| `insert` | 189-191 | `Trans.trans_insert` |
| `remove` | 227-231 | `Trans.trans_remove` |
| `mutate` | 274-282 | `Trans.trans_mutate` |
| `update` | 328-337 | `Trans.trans_update` |
| `redirect_all_links` | 387-389 | `Trans.trans_redirect_all` |
| `redirect_links` | 449-451 | `Trans.trans_redirect_all` |
| `merge` | 496-499 | `Graph.trans_merge` |
| `give_up` | 527-529 | drop; step `st_give_up` of `World.v` |
| `is_empty` | 555-557 | `Trans.trans_is_empty` |
| `fmt` | 565-576 | `DebugTrans.debug_trans` |
| `extend` | 580-584 | `Trans.trans_extend` |

## `ttgraph_macros/src/bidirectional.rs`

| function | lines | model |
|---|---|---|
| `parse` | 23-34 | `Front.p_bidi`, `Schema.bdecl` |
| `parse` | 42-46 | `Front.terminated` |
| `get_bidirectional_links` | 49-55 | `Front.terminated` |
| `check_bidirectional_links` | 57-70 | `Front.bidi_known` |
| `expand_bidirectional_links` | 73-97 | `Schema.expand_bidi`, `Schema.var_groups` |
| `make_bidirectional_link` | 99-188 | `Schema.bmap`, `Schema.get_bidi_links`, `Schema.opp_log` |
| `get_bidiretional_links` | 174-179 | `Schema.get_bidi_links` |
| `get_bidiretional_link_mirrors_of_log` | 181-186 | `Schema.opp_log` |

## `ttgraph_macros/src/cate_arena.rs`

| function | lines | model |
|---|---|---|
| `make_node_discriminant` | 7-47 | `Arena.disc_first` |
| `first` | 36 | `Arena.disc_first` |
| `next` | 37-41 | `Arena.disc_first` |
| `make_cate_arena_iter` | 49-108 | `Arena.iter_next`, `Arena.iter_size_hint` |
| `next` | 87-92 | `Arena.iter_next` |
| `size_hint` | 93-95 | `Arena.iter_size_hint` |
| `make_cate_arena_iter_mut` | 110-168 | `Arena.iter` |
| `next` | 147-152 | `Arena.iter` |
| `size_hint` | 153-155 | `Arena.iter` |
| `make_cate_arena_intoiter` | 170-228 | `Arena.iter` |
| `next` | 207-212 | `Arena.iter` |
| `size_hint` | 213-215 | `Arena.iter` |
| `make_cate_arena` | 230-404 | `Arena.arena_alloc_untyped`, `Arena.arena_alloc`, `Arena.arena_dispatch`, `Arena.arena_fill_back_untyped`, `Arena.arena_len`, `Arena.arena_merge` |
| `new` | 321-323 | `Arena.arena_new` |
| `new_from_iter` | 324-336 | `Arena.arena_new_from_iter` |
| `dispatch` | 337-339 | `Arena.arena_dispatch` |
| `get_container` | 340-342 | `Arena.cont` |
| `get_container_mut` | 343-345 | `Arena.cont` |
| `alloc` | 346-352 | `Arena.arena_alloc` |
| `alloc_untyped` | 353-355 | `Arena.arena_alloc_untyped` |
| `fill_back_untyped` | 356-362 | `Arena.arena_fill_back_untyped` |
| `remove` | 363-366 | `Arena.arena_remove` |
| `merge` | 367-370 | `Arena.arena_merge` |
| `len` | 371-373 | `Arena.arena_len` |
| `iter` | 374-376 | `Arena.iter_start` |
| `iter_mut` | 377-379 | `Arena.iter_start`, `Slots.arena_iter_mut` |
| `into_iter` | 380-382 | `Arena.iter_start` |

## `ttgraph_macros/src/group.rs`

| function | lines | model |
|---|---|---|
| `parse` | 16-25 | `Front.p_group` |
| `parse` | 33-36 | `Front.terminated` |
| `make_get_links_by_group` | 39-76 | `Schema.all_links`, `Schema.by_group_map`, `Schema.get_links_by_group` |
| `get_links_by_group` | 69-74 | `Schema.get_links_by_group` |
| `make_get_link_or_group` | 78-106 | `Schema.in_group`, `Schema.log_by_name` |
| `get_link_or_group_by_name` | 99-104 | `Schema.log_by_name` |
| `make_in_group` | 108-130 | `Schema.in_group` |
| `in_group` | 123-128 | `Schema.in_group` |

## `ttgraph_macros/src/lib.rs`

| function | lines | model |
|---|---|---|
| `node_enum` | 53-151 | `Front.node_enum`, `Front.read_blocks`, `Front.read_vars`, `Schema.schema` |
| `typed_node` | 158-295 | `Front.direct_paths`, `Front.field_ty`, `Front.get_ident`, `Front.read_field`, `Front.read_names`, `Front.typed_node` |
| `discriminant` | 300-316 | `Front.discriminant` |

## `ttgraph_macros/src/link_check.rs`

| function | lines | model |
|---|---|---|
| `parse` | 22-36 | `Front.p_anno`, `Schema.adecl` |
| `parse` | 40-45 | `Front.terminated` |
| `expand_group` | 48-70 | `Schema.expand_anns` |
| `make_check_link_type` | 72-123 | `Schema.anno_map`, `Schema.check_log`, `Schema.var_groups` |
| `check_link_type_by_group` | 117-121 | `Schema.check_log` |

## `ttgraph_macros/src/node_enum.rs`

| function | lines | model |
|---|---|---|
| `make_source_enum` | 9-28 | generated enums: the types `source`, `link` of `Node.v` and `log` of `Schema.v` |
| `make_link_mirror_enum` | 30-48 | generated enums: the types `source`, `link` of `Node.v` and `log` of `Schema.v` |
| `make_log_mirror_enum` | 50-68 | generated enums: the types `source`, `link` of `Node.v` and `log` of `Schema.v` |
| `make_node_enum` | 88-348 | `Node.add_link`, `Node.check_link`, `Node.field_contains`, `Node.iter_links`, `Node.iter_sources`, `Node.match_bd` |
| `iter_sources` | 253-257 | quote wrapper around match arms built above in the same file, modelled there |
| `iter_links` | 258-262 | quote wrapper around match arms built above in the same file, modelled there |
| `modify_link` | 263-267 | quote wrapper around match arms built above in the same file, modelled there |
| `add_link` | 268-272 | quote wrapper around match arms built above in the same file, modelled there |
| `remove_link` | 273-277 | quote wrapper around match arms built above in the same file, modelled there |
| `check_link` | 278-282 | quote wrapper around match arms built above in the same file, modelled there |
| `contains_link` | 283-287 | quote wrapper around match arms built above in the same file, modelled there |
| `get_links_by_name` | 288-292 | quote wrapper around match arms built above in the same file, modelled there |
| `get_links_by_group` | 293-297 | quote wrapper around match arms built above in the same file, modelled there |
| `data_ref_by_name` | 301-305 | `Schema.opp` |
| `to_link_mirror_enum` | 307-311 | `Schema.expand_log`, `Schema.opp` |
| `to_source_enum` | 312-316 | `Schema.expand_log` |
| `to_log_mirror_enums` | 317-321 | quote wrapper around match arms built above in the same file, modelled there |
| `expand_link_groups` | 322-326 | quote wrapper around match arms built above in the same file, modelled there |
| `match_bd_link_group` | 332-338 | `Node.match_bd` |
| `discriminant` | 343-345 | generated: `nvar` of `Node.v` |

## `ttgraph_macros/src/typed_node.rs`

| function | lines | model |
|---|---|---|
| `make_node_source_enum` | 18-59 | `Node.source`, `Node.src_link` |
| `to_link_mirror` | 49-53 | `Node.source` |
| `make_link_mirror` | 61-102 | `Node.link`, `Node.to_source` |
| `to_source` | 92-96 | `Node.link` |
| `make_log_mirror` | 104-154 | `Schema.log_names`, `Schema.mirror_named`, `Schema.struct_accepted`, `Schema.to_links` |
| `to_links` | 144-148 | `Schema.struct_accepted` |
| `make_typed_node` | 156-505 | `Node.add_link`, `Node.field_contains`, `Node.field_links`, `Node.field_sources`, `Node.iter_sources`, `Node.modify_link` |
| `iter_sources` | 429-433 | quote wrapper around match arms built above in the same file, modelled there |
| `iter_links` | 434-438 | quote wrapper around match arms built above in the same file, modelled there |
| `modify_link` | 439-443 | quote wrapper around match arms built above in the same file, modelled there |
| `add_link` | 444-448 | quote wrapper around match arms built above in the same file, modelled there |
| `remove_link` | 449-453 | quote wrapper around match arms built above in the same file, modelled there |
| `contains_link` | 454-458 | quote wrapper around match arms built above in the same file, modelled there |
| `link_types` | 460-462 | quote wrapper around match arms built above in the same file, modelled there |
| `link_mirrors` | 463-465 | quote wrapper around match arms built above in the same file, modelled there |
| `link_names` | 466-468 | `Schema.get_links_by_name` |
| `get_links_by_name` | 469-474 | `Schema.get_links_by_name` |
| `data_names` | 481-483 | `Schema.data_ref` |
| `data_ref_by_name` | 484-489 | `Schema.data_ref` |
| `to_source` | 491-493 | quote wrapper around match arms built above in the same file, modelled there |
| `to_link_mirror` | 494-496 | quote wrapper around match arms built above in the same file, modelled there |
| `to_link_or_groups` | 498-502 | quote wrapper around match arms built above in the same file, modelled there |

## `ttgraph_macros/src/utils.rs`

| function | lines | model |
|---|---|---|
| `upper_camel` | 6-8 | arbitrary function `upper_camel` of `Schema.v` |
| `snake_case` | 10-12 | name of a generated module, not modelled |
| `make_generated_mod` | 14-22 | name of a generated module, not modelled |
