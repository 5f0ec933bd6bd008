{
 "claims": [
  {
   "property": "C01",
   "status": "proved",
   "theorems": [
    "C01_parse_memory_safe",
    "C01_no_undefined_behaviour",
    "C01_refuted"
   ],
   "note": "English claim false as stated: C01_refuted. Corrected claim (any input whose last byte is no quote; any other undefined behaviour excluded for all inputs) proved."
  },
  {
   "property": "C02",
   "status": "proved",
   "theorems": [
    "C02_parse_terminates",
    "C02_parse_returns"
   ],
   "note": "Plus: inputs of at most 65533 bytes not ending in a quote always return."
  },
  {
   "property": "C03",
   "status": "proved",
   "theorems": [
    "C03_parsed_tree_in_document_order"
   ],
   "note": ""
  },
  {
   "property": "C04",
   "status": "proved",
   "theorems": [
    "C04_well_formed_documents",
    "C04_small_documents",
    "C04_paired_flags",
    "C04_fragments",
    "C04_append_fragment",
    "C04_append_fragment_merge",
    "C04_prepend_fragment",
    "C04_prepend_fragment_merge",
    "C04_replace_fragment"
   ],
   "note": "GrammarSpec defines the grammar and its denotation independently of the parser. The grammar also covers comments, unclosed elements at the end, junk in end tags, stray end tags at the top, and '<' that starts no tag. Fragments given to append/prepend/replaceWithHTML have the same meaning, merging text nodes at the seam."
  },
  {
   "property": "C05",
   "status": "proved",
   "theorems": [
    "C05_plain_text_exact",
    "C05_text_normalised"
   ],
   "note": ""
  },
  {
   "property": "C06",
   "status": "proved",
   "theorems": [
    "C06_depth_bound",
    "C06_nesting_limit"
   ],
   "note": "The bound for all inputs, and the exact limit; C04 gives the exact limit for every well-formed document."
  },
  {
   "property": "C07",
   "status": "proved",
   "theorems": [
    "C07_node_ids",
    "C07_limit_jumps"
   ],
   "note": ""
  },
  {
   "property": "C08",
   "status": "proved",
   "theorems": [
    "C08_void_elements_are_leaves",
    "C08_text_nodes_are_leaves"
   ],
   "note": ""
  },
  {
   "property": "C09",
   "status": "proved",
   "theorems": [
    "C09_content_without_lt",
    "C09_script_opaque_refuted",
    "C09_no_special_treatment"
   ],
   "note": "The claim is false of the code (C09_*_refuted); the part that holds is C09_content_without_lt."
  },
  {
   "property": "C10",
   "status": "proved",
   "theorems": [
    "C10_stray_end_tags"
   ],
   "note": "Any bytes without '>' between '</' and '>'."
  },
  {
   "property": "C11",
   "status": "proved",
   "theorems": [
    "C11_end_tags_exact_rule",
    "C11_end_tags_exact_refuted"
   ],
   "note": "The claim is false of the code (refuted); C11_end_tags_exact_rule states the rule the code follows (prefix comparison)."
  },
  {
   "property": "C12",
   "status": "proved",
   "theorems": [
    "C12_interning_bijective",
    "C12_ids_injective",
    "C12_string_table_limits"
   ],
   "note": ""
  },
  {
   "property": "C13",
   "status": "proved",
   "theorems": [
    "C13_ids_stable"
   ],
   "note": ""
  },
  {
   "property": "C14",
   "status": "proved",
   "theorems": [
    "C14_index_exact",
    "C14_iso_out_of_bounds_refuted"
   ],
   "note": "False under ISO C (refuted); exact characterisation of the index proved."
  },
  {
   "property": "C15",
   "status": "proved",
   "theorems": [
    "C15_attribute_queries"
   ],
   "note": ""
  },
  {
   "property": "C16",
   "status": "proved",
   "theorems": [
    "C16_get_value_first"
   ],
   "note": ""
  },
  {
   "property": "C17",
   "status": "proved",
   "theorems": [
    "C17_set_property_value"
   ],
   "note": ""
  },
  {
   "property": "C18",
   "status": "proved",
   "theorems": [
    "C18_remove_attribute"
   ],
   "note": ""
  },
  {
   "property": "C19",
   "status": "proved",
   "theorems": [
    "C19_add_attribute"
   ],
   "note": ""
  },
  {
   "property": "C20",
   "status": "proved",
   "theorems": [
    "C20_child_lists",
    "C20_navigation",
    "C20_parents_decrease",
    "C20_last_sibling_link"
   ],
   "note": ""
  },
  {
   "property": "C21",
   "status": "proved",
   "theorems": [
    "C21_traverse_dom"
   ],
   "note": ""
  },
  {
   "property": "C22",
   "status": "proved",
   "theorems": [
    "C22_traverse_node",
    "C22_traverse_node_leaks",
    "C22_refuted",
    "C22_leak_exact"
   ],
   "note": "False for childless nodes with a next sibling (universal theorem C22_traverse_node_leaks); proved otherwise."
  },
  {
   "property": "C23",
   "status": "proved",
   "theorems": [
    "C23_text_content",
    "C23_refuted",
    "C23_leak_exact"
   ],
   "note": "Same exception as C22."
  },
  {
   "property": "C24",
   "status": "proved",
   "theorems": [
    "C24_remove_node"
   ],
   "note": ""
  },
  {
   "property": "C25",
   "status": "proved",
   "theorems": [
    "C25_remove_children",
    "C25_set_text_content"
   ],
   "note": ""
  },
  {
   "property": "C26",
   "status": "proved",
   "theorems": [
    "C26_append_document_node"
   ],
   "note": ""
  },
  {
   "property": "C27",
   "status": "proved",
   "theorems": [
    "C27_append_text_new",
    "C27_append_text_merge"
   ],
   "note": ""
  },
  {
   "property": "C28",
   "status": "proved",
   "theorems": [
    "C28_fragment",
    "C28_fragment_order",
    "C28_append_html_plain",
    "C28_append_html_merge"
   ],
   "note": ""
  },
  {
   "property": "C29",
   "status": "proved",
   "theorems": [
    "C29_prepend_document_node",
    "C29_prepend_text_new",
    "C29_prepend_text_merge"
   ],
   "note": ""
  },
  {
   "property": "C30",
   "status": "proved",
   "theorems": [
    "C30_prepend_html_plain",
    "C30_prepend_html_merge"
   ],
   "note": ""
  },
  {
   "property": "C31",
   "status": "proved",
   "theorems": [
    "C31_replace_document_node"
   ],
   "note": ""
  },
  {
   "property": "C32",
   "status": "proved",
   "theorems": [
    "C32_replace_text_new",
    "C32_replace_text_merge"
   ],
   "note": ""
  },
  {
   "property": "C33",
   "status": "proved",
   "theorems": [
    "C33_replace_html",
    "C33_replace_html_text",
    "C33_null_dereference_refuted",
    "C33_null_dereference_iff"
   ],
   "note": "NULL dereference refuted; the exact condition under which it happens is proved (C33_null_dereference_iff)."
  },
  {
   "property": "C34",
   "status": "proved",
   "theorems": [
    "C34_failed_fragment"
   ],
   "note": ""
  },
  {
   "property": "C35",
   "status": "proved",
   "theorems": [
    "C35_empty_fragment_refuted"
   ],
   "note": "False of the code: universal characterisation of what happens instead."
  },
  {
   "property": "C36",
   "status": "proved",
   "theorems": [
    "C36_returned_ids_live",
    "C36_prepend_text_refuted",
    "C36_replace_text_refuted",
    "C36_replace_html_refuted"
   ],
   "note": "Proved for append/prepend/replace of elements and appendTextNode; false for prependTextNode, replaceWithTextNode (universally, when they merge) and replaceWithHTML (two witnesses)."
  },
  {
   "property": "C37",
   "status": "proved",
   "theorems": [
    "C37_histories",
    "C37_only_quotes_go_wrong"
   ],
   "note": ""
  },
  {
   "property": "C38",
   "status": "proved",
   "theorems": [
    "C38_counters_suffice",
    "C38_tables_small",
    "C38_larger_tables_diverge"
   ],
   "note": "All reachable DOMs (not only freshly created ones); tables only grow, so the bound for the DOM after a call also covers the states inside it."
  },
  {
   "property": "C39",
   "status": "proved",
   "theorems": [
    "C39_id_set"
   ],
   "note": ""
  },
  {
   "property": "C40",
   "status": "proved",
   "theorems": [
    "C40_combinators",
    "C40_related_in_tree",
    "C40_matches_in_tree"
   ],
   "note": ""
  },
  {
   "property": "C41",
   "status": "proved",
   "theorems": [
    "C41_query_selector_all",
    "C41_query_parsed"
   ],
   "note": "For the concrete syntax defined in QuerySpec.v; C47 covers what is outside it."
  },
  {
   "property": "C42",
   "status": "proved",
   "theorems": [
    "C42_query_total",
    "C42_too_many_filters",
    "C42_unclosed_bracket"
   ],
   "note": ""
  },
  {
   "property": "C43",
   "status": "proved",
   "theorems": [
    "C43_unknown_names",
    "C43_unknown_names_effect"
   ],
   "note": ""
  },
  {
   "property": "C44",
   "status": "proved",
   "theorems": [
    "C44_query_selector_first"
   ],
   "note": ""
  },
  {
   "property": "C45",
   "status": "proved",
   "theorems": [
    "C45_removed_nodes_refuted",
    "C45_after_combinator_elements"
   ],
   "note": "False of the code (witness); what still holds after a child or descendant combinator is proved."
  },
  {
   "property": "C46",
   "status": "proved",
   "theorems": [
    "C46_tag_query_refuted",
    "C46_tag_query_no_collision"
   ],
   "note": "False if a text address collides with a tag id (witness); proved when there is no collision."
  },
  {
   "property": "C47",
   "status": "proved",
   "theorems": [
    "C47_star_exact",
    "C47_selectors_refuted"
   ],
   "note": "False of the code (witnesses); exact meaning of '*' proved."
  },
  {
   "property": "C48",
   "status": "proved",
   "theorems": [
    "C48_no_match_edits_node_0",
    "C48_no_match_refuted"
   ],
   "note": "False of the code: universal characterisation and witness."
  },
  {
   "property": "C49",
   "status": "proved",
   "theorems": [
    "C49_equals_exact",
    "C49_equals_reflexive",
    "C49_equals_symmetric",
    "C49_equals_transitive",
    "C49_pairs_refuted"
   ],
   "note": "The comparison of attribute pairs is false of the code (C49_*_refuted); the exact relation it decides is proved."
  },
  {
   "property": "C50",
   "status": "proved",
   "theorems": [
    "C50_duplicate"
   ],
   "note": "At the level of values; that the copied arrays are separate memory is C58."
  },
  {
   "property": "C51",
   "status": "proved",
   "theorems": [
    "C51_push_to_copied_empty_refuted",
    "C51_push_to_copy_partial"
   ],
   "note": "False of the code for arrays that were empty when copied (universal theorem); proved for the others."
  },
  {
   "property": "C52",
   "status": "proved",
   "theorems": [
    "C52_print",
    "C52_write_file"
   ],
   "note": "Elements whose tag is not paired print without their children, as the spec says; the float arithmetic, colours and fopen failure are outside the model."
  },
  {
   "property": "C53",
   "status": "proved",
   "theorems": [
    "C53_round_trip_refuted",
    "C53_round_trip",
    "C53_print_parse_print",
    "C53_flags_exist",
    "C53_normal_form"
   ],
   "note": "False in general (four witnesses, C53_round_trip_refuted); proved for every printable document: consistent pairedness per tag name, unquoted keys, values without double quotes, normalised texts that are not neighbours, depth at most 255."
  },
  {
   "property": "C54",
   "status": "proved",
   "theorems": [
    "C54_output_exact",
    "C54_output_returns",
    "C54_flush_empties",
    "C54_failing_write_loops"
   ],
   "note": "For kernels that never report an error; a write that always fails makes an append that does not fit loop forever (universal theorem)."
  },
  {
   "property": "C55",
   "status": "proved",
   "theorems": [
    "C55_uint64",
    "C55_ptrdiff",
    "C55_fraction",
    "C55_cstr",
    "C55_cstr_unterminated",
    "C55_colours",
    "C55_decimal_unique",
    "C55_pointer_refuted",
    "C55_pointer_digits",
    "C55_negative_int_refuted"
   ],
   "note": "Proved for uint64, ptrdiff and the fixed-point part of doubles; false for pointers (last digit dropped, universal) and for negative int values (2^64 added, universal)."
  },
  {
   "property": "C56",
   "status": "proved",
   "theorems": [
    "C56_relative",
    "C56_absolute_refuted"
   ],
   "note": "False for absolute paths (universal theorem); proved for relative paths without NUL."
  },
  {
   "property": "C57",
   "status": "proved",
   "theorems": [
    "C57_arena_blocks",
    "C57_arena_full",
    "C57_zero_count_refuted"
   ],
   "note": "Requests of at least one element; zero-element requests refuted."
  },
  {
   "property": "C58",
   "status": "proved",
   "theorems": [
    "C58_arrays_keep_contents"
   ],
   "note": ""
  },
  {
   "property": "C59",
   "status": "proved",
   "theorems": [
    "C59_pool",
    "C59_chunks_disjoint"
   ],
   "note": ""
  },
  {
   "property": "C60",
   "status": "proved",
   "theorems": [
    "C60_string_set",
    "C60_uint16_set",
    "C60_string_map"
   ],
   "note": "A new key returns 1 instead of the value, as the code does."
  },
  {
   "property": "C61",
   "status": "proved",
   "theorems": [
    "C61_string_set",
    "C61_string_set_equality"
   ],
   "note": ""
  },
  {
   "property": "C62",
   "status": "proved",
   "theorems": [
    "C62_removed_parent_refuted",
    "C62_double_remove_refuted",
    "C62_removed_parent",
    "C62_double_remove"
   ],
   "note": "False of the code (two witnesses reached by valid histories with prepends); proved for every history without prepends."
  },
  {
   "property": "C63",
   "status": "proved",
   "theorems": [
    "C63_replace_html_reattaches_removed_refuted",
    "C63_reattached_iff",
    "C63_reattached"
   ],
   "note": "False of the code: witness, and the exact condition under which it happens (C63_reattached_iff)."
  },
  {
   "property": "C64",
   "status": "proved",
   "theorems": [
    "C64_free_exhausted_partial",
    "C64_free_pool_refuted"
   ],
   "note": "False of the code for every pool with a free chunk (universal theorem); proved for exhausted pools."
  },
  {
   "property": "C65",
   "status": "proved",
   "theorems": [
    "C65_failed_write_repeats_refuted",
    "C65_newline_overflow_refuted"
   ],
   "note": "False of the code: witness for repeated output, universal theorem for the newline overflow."
  },
  {
   "property": "C66",
   "status": "proved",
   "theorems": [
    "C66_iterate_string_set",
    "C66_iterate_uint16_set",
    "C66_iterate_string_map",
    "C66_iterate_interned"
   ],
   "note": ""
  },
  {
   "property": "C67",
   "status": "proved",
   "theorems": [
    "C67_buddy_calls_return"
   ],
   "note": ""
  },
  {
   "property": "C68",
   "status": "proved",
   "theorems": [
    "C68_buddy_blocks_kept",
    "C68_buddy_new_block",
    "C68_buddy_layout"
   ],
   "note": ""
  },
  {
   "property": "C69",
   "status": "proved",
   "theorems": [
    "C69_free_block_refused_refuted",
    "C69_fresh_region_serves"
   ],
   "note": "False of the code (witness); the exact exception (only the last block can be missed) and the one-block case proved."
  },
  {
   "property": "C70",
   "status": "proved",
   "theorems": [
    "C70_region_not_recovered_refuted",
    "C70_nothing_leaks"
   ],
   "note": "False of the code (two witnesses); nothing leaks (all blocks free) proved."
  },
  {
   "property": "C71",
   "status": "proved",
   "theorems": [
    "C71_too_large_fails",
    "C71_huge_request_refuted"
   ],
   "note": "Proved below 2^63-16 bytes; false above (witnesses: out-of-bounds write, signed overflow)."
  },
  {
   "property": "C72",
   "status": "proved",
   "theorems": [
    "C72_text_is_concatenation",
    "C72_text_fits"
   ],
   "note": "Concatenation, frame and sufficient space, for all pieces and arenas."
  },
  {
   "property": "C73",
   "status": "proved",
   "theorems": [
    "C73_read_file",
    "C73_same_as_string",
    "C73_unreadable",
    "C73_unseekable_overlap_refuted",
    "C73_unseekable_overflow_refuted"
   ],
   "note": "Proved for seekable files; false for unseekable streams (two universal refutations)."
  },
  {
   "property": "C74",
   "status": "proved",
   "theorems": [
    "C74_linear_memory"
   ],
   "note": "Space bound for every run of array operations."
  },
  {
   "property": "C75",
   "status": "proved",
   "theorems": [
    "C75_document_size",
    "C75_edit_size",
    "C75_history_size"
   ],
   "note": "All tables of a parsed document; node count for edits and histories."
  },
  {
   "property": "C76",
   "status": "proved",
   "theorems": [
    "C76_data_kept",
    "C76_completes_as_run"
   ],
   "note": "All calls, all jump points; the capacity fields of the arrays are not part of the model."
  },
  {
   "property": "C77",
   "status": "proved",
   "theorems": [
    "C77_traversal"
   ],
   "note": "Includes the exact relation to the completed document."
  },
  {
   "property": "C78",
   "status": "proved",
   "theorems": [
    "C78_other_nodes",
    "C78_edited_node"
   ],
   "note": "All calls, all jump points."
  },
  {
   "property": "C79",
   "status": "proved",
   "theorems": [
    "C79_all_or_nothing",
    "C79_prepend_refuted",
    "C79_set_text_refuted"
   ],
   "note": "True of one-step calls; false of every prepend to a node with children and of every setTextContent (universal theorems)."
  },
  {
   "property": "C80",
   "status": "proved",
   "theorems": [
    "C80_edit_after_abandon_refuted",
    "C80_retry_reads_outside",
    "C80_known_strings_untouched"
   ],
   "note": "False of the code: for every document, every addPropertyToNode with a new value has a point after which making the call again leads to an out-of-bounds read (universal theorem). Calls that bring no new string leave the DOM untouched."
  },
  {
   "property": "C81",
   "status": "proved",
   "theorems": [
    "C81_document",
    "C81_alphabet",
    "C81_document_total",
    "C81_fragment",
    "C81_append",
    "C81_append_merge",
    "C81_prepend",
    "C81_prepend_merge",
    "C81_replace"
   ],
   "note": "Inputs of any size, with the 16-bit limits (Longjmp) as the only exception; total up to 65533 bytes."
  },
  {
   "property": "C82",
   "status": "proved",
   "theorems": [
    "C82_document_locality",
    "C82_fragment_locality",
    "C82_spelling",
    "C82_same_reading"
   ],
   "note": "Locality for documents and fragments; spelling at the root and inside unclosed elements."
  },
  {
   "property": "C83",
   "status": "proved",
   "theorems": [
    "C83_document",
    "C83_fragment"
   ],
   "note": "Through the reference reader (C81)."
  },
  {
   "property": "C84",
   "status": "proved",
   "theorems": [
    "C84_create",
    "C84_step",
    "C84_history",
    "C84_total",
    "C84_unique",
    "C84_iff"
   ],
   "note": "Forward simulation over all histories; the shown tree is unique, so this is an equivalence. Replacing by a fragment in the two situations where replaceWithHTMLFromString goes wrong (replace_bad in ApiSpec.v) is excluded by `valid`."
  },
  {
   "property": "C85",
   "status": "proved",
   "theorems": [
    "C85_reads",
    "C85_congruence",
    "C85_attributes_commute",
    "C85_remove_commute",
    "C85_undo",
    "C85_undo_property",
    "C85_undo_boolean",
    "C85_set_property_last",
    "C85_set_text_last",
    "C85_set_text"
   ],
   "note": "Laws hold when the calls succeed (16-bit limits, C38)."
  },
  {
   "property": "C86",
   "status": "proved",
   "theorems": [
    "C86_accepted",
    "C86_refused",
    "C86_decided",
    "C86_alphabet"
   ],
   "note": "The reference reader SelectorSpec.v describes the dialect the library really accepts; `picks` ranges over all nodes in the arrays, C87 gives the restriction to the tree."
  },
  {
   "property": "C87",
   "status": "proved",
   "theorems": [
    "C87_in_tree",
    "C87_first",
    "C87_edit_first",
    "C87_same_look",
    "C87_same_first",
    "C87_status_refuted"
   ],
   "note": "no_collision excludes the tag/attribute id coincidence of finding 2 (text nodes' tagID). C87_status_refuted: the status is not determined by the visible tree."
  },
  {
   "property": "C88",
   "status": "proved",
   "theorems": [
    "C88_union",
    "C88_union_refused"
   ],
   "note": "The order of the union is the order in the library's set array, not document order."
  },
  {
   "property": "C89",
   "status": "proved",
   "theorems": [
    "C89_add_text",
    "C89_set_tag",
    "C89_set_tag_paired"
   ],
   "note": "The two calls are also constructors of `op`, so every theorem about reachable DOMs and histories covers them."
  },
  {
   "property": "C90",
   "status": "proved",
   "theorems": [
    "C90_life",
    "C90_removed_forever",
    "C90_name",
    "C90_fresh"
   ],
   "note": "Histories are the valid calls of ApiSpec.valid; ids returned by the text and HTML calls are covered by the claims on those calls (a merged text returns the id of another node)."
  },
  {
   "property": "C91",
   "status": "proved",
   "theorems": [
    "C91_no_moves",
    "C91_same_parent",
    "C91_detached_forever"
   ],
   "note": "`children` is what getFirstChild/getNext show; histories are the valid calls of ApiSpec.valid."
  },
  {
   "property": "C92",
   "status": "proved",
   "theorems": [
    "C92_each_string",
    "C92_each_uint16",
    "C92_each_string_map",
    "C92_each_interned",
    "C92_empty_first_refuted",
    "C92_zero_first_refuted",
    "C92_zero_value_refuted"
   ],
   "note": "The general statement (every element is visited) is refuted for all insertion histories that start with a zero element."
  },
  {
   "property": "C93",
   "status": "proved",
   "theorems": [
    "C93_first_difference",
    "C93_report_reaches_file",
    "C93_nothing_found",
    "C93_child_counts_refuted",
    "C93_after_equals",
    "C93_second_tag_refuted",
    "C93_status_texts"
   ],
   "note": "Refuted parts: C93_child_counts_refuted (nothing found although equals failed), C93_second_tag_refuted (the first node's tag is printed twice)."
  },
  {
   "property": "C94",
   "status": "proved",
   "theorems": [
    "C94_dom_status",
    "C94_status_reaches_file",
    "C94_decimal_unique"
   ],
   "note": "`status_text` is the complete expected output; numbers by any `dec` that writes decimal (unique)."
  },
  {
   "property": "C95",
   "status": "proved",
   "theorems": [
    "C95_room_suffices",
    "C95_full_or_result"
   ],
   "note": "LP64 struct sizes; the constant is an upper bound, not the exact need."
  },
  {
   "property": "C96",
   "status": "proved",
   "theorems": [
    "C96_tables_in_memory"
   ],
   "note": "The pointers in node unions and registrations are not in the memory view: ids, kinds, links, attributes and text bytes are."
  },
  {
   "property": "C97",
   "status": "proved",
   "theorems": [
    "C97_parent_entries",
    "C97_append_one_entry",
    "C97_prepend_entries",
    "C97_prepends_quadratic",
    "C97_one_entry_per_node_refuted"
   ],
   "note": "True without prepends; false with them (universal growth theorems and a witness)."
  },
  {
   "property": "C98",
   "status": "proved",
   "theorems": [
    "C98_double_text",
    "C98_double_nearest",
    "C98_double_inf_refuted",
    "C98_double_nan_refuted",
    "C98_double_defined",
    "C98_double_returns"
   ],
   "note": "Proved for every double below 2^63; the complement (inf for finite numbers, NaN undefined) is stated exactly by the two _refuted theorems. Uses Flocq's binary64 and the standard library's real number axioms (listed in DESIGN.md section 6)."
  },
  {
   "property": "C99",
   "status": "proved",
   "theorems": [
    "C99_memory_holds_document",
    "C99_full_or_result",
    "C99_room_suffices",
    "C99_rejected_text"
   ],
   "note": "Payloads of nodes (text pointers, tag ids) and the entries of the registries are counted but not read back; texts are: each is the contents of one of the byte buffers."
  },
  {
   "property": "C100",
   "status": "proved",
   "theorems": [
    "C100_no_stale_pointer",
    "C100_same_outcome"
   ],
   "note": "For edits that return (not those ended by the id-limit jump). The loads of parentChildNode->parentID inside the loop of replacement.c:108-114 are not recorded: they may read the old copy, which the arena leaves intact."
  },
  {
   "property": "C101",
   "status": "proved",
   "theorems": [
    "C101_save",
    "C101_only_that_file",
    "C101_save_load",
    "C101_write_error_refuted",
    "C101_disk_full_hangs",
    "C101_old_file_lost_refuted",
    "C101_name_by_length_refuted"
   ],
   "note": "True for kernels that accept at least one byte per write and a sufficient scratch arena; false otherwise (refuted): a failed write is reported as success, a full disk makes the call loop forever, exhaustion of the arena leaves the old file truncated; the name is taken up to a NUL whatever its length. The state of the file while the call does not return is not modelled."
  },
  {
   "property": "C102",
   "status": "proved",
   "theorems": [
    "C102_print_after_abandon",
    "C102_same_print",
    "C102_query_refuted"
   ],
   "note": "For every abandonment point of CrashModel. C102_query_refuted: queries scan the node array and so find detached nodes of the abandoned call."
  },
  {
   "property": "C103",
   "status": "proved",
   "theorems": [
    "C103_query_after_abandon",
    "C103_first_after_abandon",
    "C103_same_matches",
    "C103_same_first"
   ],
   "note": "For every abandonment point of CrashModel. The new nodes of the abandoned call can be among the results (C102_query_refuted), and a name unknown before can have become known (C103_notseen_ex)."
  },
  {
   "property": "C104",
   "status": "proved",
   "theorems": [
    "C104_go_on"
   ],
   "note": "For calls that make no node and register no string; C80 refutes it for the others."
  },
  {
   "property": "C105",
   "status": "proved",
   "theorems": [
    "C105_harmless_if_unseen",
    "C105_same_first"
   ],
   "note": "All calls. 'Looks as before' is `unseen` in RecoverSpec.v: contents of all nodes and child lists of all nodes; the tables may have more entries. For C104's calls it always holds (C79)."
  },
  {
   "property": "C106",
   "status": "proved",
   "theorems": [
    "C106_document_and_duplicate",
    "C106_room_suffices",
    "C106_rejected_text"
   ],
   "note": "Model of duplicateDom on the arena in DupMemModel.v; `holds` / `holds_sharing` say what the memory must contain. The arena of the duplicate is that of the document. `C106_room_suffices`: a linear bound on the arena (`both_bytes` in DupSpec.v)."
  },
  {
   "property": "C107",
   "status": "proved",
   "theorems": [
    "C107_edit_duplicate_refuted",
    "C107_with_room_refuted",
    "C107_first_flag_refuted",
    "C107_first_attribute_refuted"
   ],
   "note": "False of the code; the refutation is universal (every document, every history), with two corollaries for the first flag and the first attribute. Lifts C51 to the API. `C107_with_room_refuted`: with that room the outcome is exactly the write outside the table."
  },
  {
   "property": "C108",
   "status": "proved",
   "theorems": [
    "C108_edits_and_queries",
    "C108_edit_at_query",
    "C108_rejected_text",
    "C108_room_suffices",
    "C108_query_room"
   ],
   "note": "Model of the allocations of querySelectorAll in QueryMemModel.v (the sets with their exponents, in program order, then the array in scratch memory and its copy). The bytes of the scratch sets are arbitrary (a parameter of each query)."
  }
 ]
}