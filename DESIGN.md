# Design: a Rocq model of florianmarkusse/html-parser

## 1. What is modelled

The C library in `/repo` is transcribed function by function into Gallina
(Coq 8.16.1, standard library only).  Every definition carries a comment with
the file and lines it models.

* Bytes are `N`, strings `list N`; node ids, registry ids and indices are `nat`.
* A C function that can fail is a function into `outcome`:
  `Ok a`, `Undef u` (undefined behaviour: out-of-bounds access, NULL
  dereference, string of negative length), `Longjmp j` (`__builtin_longjmp`
  through the arena's jump buffer) and `NoFuel`.
* C loops are fuelled recursions; for each, a theorem says `NoFuel` is
  unreachable, so the fuel is not part of the meaning.
* Every buffer access of the parser (`flo_getChar`, memcmp of a slice) is a
  checked read in the model, so memory safety is a theorem and not an
  assumption.
* `FLO_ASSERT` is modelled as in a release build (no-op); what it would have
  caught shows up as `Undef`.
* The DOM is a record of the ten dynamic arrays and four interning maps of
  `flo_html_Dom`; pointers into these arrays are indices.
* The union `{tagID, text}` of a node is kept: reading the tag id of a text
  node returns the low 16 bits of an arbitrary text address (a parameter).
* `flo_html_parseExtra` reads `stack[-1]`; what is found there is a parameter
  `below` (`None` = strict ISO, undefined; `Some b` = some stale string `b`).

## 2. Files (`rocq/theories`)

See the table at the end of this file; `*Model.v` contains definitions only,
`*Spec.v` the independent specifications, the other files the proofs, and
`Props*.v` the theorems named in `MANIFEST.json`, each followed by a
non-vacuity `Example` and `Print Assumptions`.

## 3. Trusted base

* Coq 8.16.1's kernel (and `coqc`'s compilation of the files; `vm_compute` is
  used for closed examples and refutations).
* `Print Assumptions` of every theorem in `Props*.v`: see section 6.
* The transcription from C to Gallina (by reading; nothing was executed).
* Modelling conventions: arenas are unbounded in the DOM model (running out of
  arena memory is a longjmp that is *not* part of the plain DOM layer; the
  allocator itself is modelled separately, edits that are abandoned by such a jump
  in `CrashModel.v`, and the arena use of a parse in `TraceModel.v`); `memcmp`/`memcpy` with length 0 and a
  NULL pointer is a no-op; `size_t`/`ptrdiff_t` are 64 bits; input strings
  live longer than the DOM (the DOM keeps slices of the input) and are not
  modified.
* Not modelled: logging text of the parser's and the query engine's error
  messages, floating point modes other than IEEE binary64 with rounding to nearest
  (`flo_appendDouble`), `benchmarks/`, `tests/`,
  `fuzzing.c`, concurrency (the library has none), the depth of the C stack used
  by the recursive `printNode` and by the tries.
* `flo_msi_newSet` jumps for `exp >= 31`; every caller passes at most 18 (the
  query engine and the comparison), so the jump is not modelled.
* In release builds out-of-range arguments that only an assertion would catch
  are undefined in the model, not trapped.

## 4. Method

* Navigation tables are abstracted by a ghost function from parents (and
  floating chains) to child lists.  An invariant relates the three tables to
  it; each API operation is proved to preserve it and to change the child
  lists as specified; properties of histories follow by induction.
* The parser is related to an independent grammar (`GrammarSpec.v`) by
  induction over the syntax tree; structural properties for *all* byte strings
  are proved by an invariant of the main loop.
* Queries: the hash sets are refined to mathematical sets; each step to the
  relation it denotes.
* Properties of the English list that are false of the code get a `_refuted`
  theorem (a concrete counterexample evaluated in the model) together with the
  corrected statement that is proved.

## 5. Plan per property

* **C01 Parsing any bytes is memory safe** - Checked reads in the parser model; invariant idx<=len+1; theorem for all inputs not ending in a quote, and a refutation witness.
* **C02 Parsing any bytes terminates** - Fuel of each loop bounded by remaining input; theorem: outcome is never NoFuel.
* **C03 The parsed DOM is a tree in document order** - Main-loop invariant: pre-order of the ghost tree is seq 2..n-1; transfer to iterated traverseDom.
* **C04 Well-formed HTML parses to the tree it denotes** - Concrete syntax trees (`GrammarSpec.item`: elements, leaves, text runs, comments, odd '<', stray end tags, elements left open at the end) with a spelling `source` and a denotation `forest`, both independent of the parser; a DOM `shows` a forest through the API readings; induction over the syntax tree against the main loop's invariant.  Fragments inserted with append/prepend/replaceWithHTML denote the same trees.
* **C05 Text is white-space normalised** - Invariant of parseTextNode's accumulation loop over the raw input.
* **C06 Nesting limit** - Depth of every node in every parsed DOM (loop invariant relating stack length to depth); acceptance iff n <= 255 from C04's exact depth condition.
* **C07 Node ids are unique and bounded** - Invariant nodes[i].id = i and length <= 65535 for all histories.
* **C08 Void and declaration elements are leaves** - Parser invariant: parents recorded are pushed elements, which are never void or '!'.
* **C09 Script and style content is opaque** - Counterexample by evaluation + positive case from the grammar theorem.
* **C10 Stray end tags at the top level are ignored** - Grammar contains stray end tags at top level with empty denotation.
* **C11 End tags close only their own element** - Counterexample by evaluation; exact rule (prefix comparison) from the grammar theorem.
* **C12 Interning is a bijection** - Trie refinement to an association list; invariant registry/map.
* **C13 Interned ids are stable** - Monotonicity lemma for interning, lifted over all operations.
* **C14 The string map stays inside its child arrays** - Model with mode Iso/Flat64 computing the C index with 64-bit wrap; theorem on both.
* **C15 Attribute queries answer about the current attributes** - Refinement to per-node attribute lists.
* **C16 getValue returns the first matching value** - As C15.
* **C17 setPropertyValue changes exactly one attribute** - As C15 + list update lemma.
* **C18 Removing an attribute removes its first occurrence only** - As C15.
* **C19 Adding an attribute appends it** - As C15.
* **C20 Sibling and parent navigation is consistent** - Consequences of the representation invariant.
* **C21 traverseDom is a finite pre-order walk** - Ghost pre-order; traverseDom computes the successor.
* **C22 traverseNode visits exactly the subtree** - Same for scoped walk; counterexample for childless nodes.
* **C23 getTextContent collects the subtree text** - Corollary of C22.
* **C24 removeNode removes one subtree** - Mutual induction on the finite subtree (parent<child).
* **C25 removeChildren and setTextContent** - Corollary of C24.
* **C26 appendDocumentNode adds a last child** - Invariant preservation + child list equation.
* **C27 appendTextNode appends or merges** - Same.
* **C28 appendHTMLFromString appends the fragment** - Same plus the fragment parser invariant.
* **C29 prependDocumentNode and prependTextNode** - Same.
* **C30 prependHTMLFromString prepends the fragment** - Same.
* **C31 replaceWithDocumentNode substitutes in place** - Same.
* **C32 replaceWithTextNode substitutes or merges** - Same.
* **C33 replaceWithHTMLFromString substitutes the fragment** - Same; NULL dereference refutation.
* **C34 A failed fragment insertion leaves the document unchanged** - Fragment parse leaves old child lists untouched.
* **C35 Fragments without nodes are harmless** - Refutation by evaluation.
* **C36 Returned node ids are live** - Refutation by evaluation; positive theorem for the other operations.
* **C37 Every API history keeps the DOM a tree** - Induction over histories.
* **C38 16-bit search counters do not loop forever** - Loop model with wrap-around counter equals the search when len <= 65535; entries <= nodes is an invariant of all reachable DOMs; diverges otherwise.
* **C39 The id hash set is a set** - Probe-sequence invariant (linear probing, half load).
* **C40 Combinators select the right relatives** - Set semantics of each step.
* **C41 querySelectorAll returns the set the selector denotes** - Selector AST, concrete syntax, and semantics.
* **C42 Query parsing is total and safe** - Totality of the query parser model.
* **C43 Unknown names are reported** - Evaluation of the compile step.
* **C44 querySelector returns the first match in document order** - From C21 and list search.
* **C45 Queries never return removed nodes** - Refutation.
* **C46 Tag queries return only elements with that tag** - Refutation and exact condition.
* **C47 Universal and multi-part selectors mean what CSS says** - Refutation and exact behaviour.
* **C48 Edits through a selector without match change nothing** - Refutation.
* **C49 DOM equality is an equivalence and is sound** - Relation on trees; reflexive/symmetric/transitive; refutation for pairs.
* **C50 duplicateDom is observationally identical and independent** - Field-wise equality + map equivalence.
* **C51 A duplicated DOM can be edited safely** - Array model with capacity; refutation.
* **C52 Printing serialises the tree** - Fuel-recursive printer equals serialiser of the ghost tree.
* **C53 Printing then parsing gives the same document** - False in general (witnesses). For documents satisfying `printable_doc` (RoundSpec.v) the printed form is shown to be a source of the C04 grammar with the same trees and pairedness, so C04 and C49 apply.
* **C54 Buffered output is exactly the concatenation** - Write buffer state machine with an oracle of partial writes.
* **C55 Numbers are printed in decimal** - Digit loop = decimal expansion.
* **C56 createPath creates every parent directory** - mkdir call list model.
* **C57 Arena allocations are aligned, disjoint and in bounds** - Address arithmetic in N.
* **C58 Dynamic arrays keep their contents when growing** - Heap model of arrays in an arena.
* **C59 Pool allocator hands out disjoint chunks** - Free list invariant.
* **C60 Trie sets and maps behave like sets and maps** - Trie refinement.
* **C61 The string hash set is a set** - Odd step modulo power of two is a permutation.
* **C62, C63** - Refutations by reachable histories that the model evaluates.
* **C64 flo_freePool makes every chunk available once** - Closure of the free list under `next`; refutation for every pool with a free chunk.
* **C65 A failed write neither repeats output nor overflows the buffer** - Write buffer model with failing kernels; witness and a universal theorem.
* **C66 Trie iterators visit every key exactly once** - Iterator as a stack of (subtrie, index); the entries still to come are a list that `next` consumes.
* **C67 Buddy allocator calls return and stay inside the region** - Byte-level memory, checked accesses; invariant: the headers tile the region with power-of-two blocks.
* **C68 Buddy blocks do not overlap and keep their contents** - The same invariant; every internal step leaves the bytes of used blocks alone.
* **C69, C70, C71** - Witness histories evaluated in the model; what holds instead follows from the invariant of C67.
* **C72 Raw text growth keeps every byte** - `flo_addRawData` as an operation of the memory model; refinement to list concatenation.
* **C73 Reading markup from a file equals reading it from memory** - A file is the size `ftell` reports and the bytes `fread` delivers; the reader over the arena model.
* **C74 Growing arrays use arena space linear in their contents** - Potential argument over runs of array operations.
* **C75 The size of a document is linear in its markup** - Induction over the main loop: growth of every table is at most the bytes consumed.
* **C76-C80 Edits abandoned half-way** - `CrashModel.v` repeats every editing function with the DOM visible at each allocation (a list of states and the ordinary outcome); `c_run_agrees` ties it to the plain model. States before linking are the old tables with appended entries that only mention new nodes (`debris`), which no reading function can see from old nodes; states while linking are compared with the completed document link by link, and the walk by a simulation. C79/C80: universal and concrete counterexamples.
* **C81 A reference reader for all inputs** - `ReaderSpec.v` is a functional reader on the remaining input (spans, words, attributes, a zipper of open elements) that shares only the character classes and the void-tag table with the model. `ReaderScan/Tag/Text/Loop.v` prove that every scanning function of the parser model stops where the reader's spans stop, for arbitrary bytes, and that the parse loop's DOM shows the reader's zipper; `ReaderUser.v` lifts this to documents and fragments.
* **C82 Locality, C83 Provenance** - facts about the reference reader, transported to the parser by C81. C82: `ReaderGrammar.v` shows that the reader consumes each item of the grammar of C04 in front of any remaining input; `rd_before` shows that trees already read do not influence the rest. C83: every span is a slice of the remaining input (`ReaderOrigin.v`), with a potential argument for the sizes.
* **C84 Tree machine** - `TreeSpec.v` defines trees with ids and contents and a function `step` on them for each editing call, with no tables or links. `view d v` says that the DOM shows the tree. Forward simulation: one lemma per call (`TreeOps.v`, `TreeHtml.v`, `TreeReplace.v`) from the per-call theorems of the editing claims and the reader (C81), combined in `TreeUser.v`; uniqueness by induction on the tree.
* **C85 Laws of editing** - equations between tree functions (`TreeLaws.v`) transported by C84 (`TreeLawsUser.v`).
* **C86 Selector strings** - `SelectorSpec.v` is a reference reader on the remaining string (no positions, no token buffers, no sets) giving conditions and combinators. `SelectorRead.v` proves by induction that the engine's position-based scanner reads the same; `SelectorUser.v` combines it with the set operations of `QueryRel.v`.
* **C87 Queries and the tree** - selection restricted to nodes below the root is expressed with `children` and contents only (`tree_picks`), so equal looks give equal answers (`SelectorTree.v`).
* **C88 Union** - from C86 through `parts (a ++ "," ++ b)`.
* **C89 Text and names in place** - `NodeEdit.v` (the invariant is kept), `NodeUser.v` (what changes); the calls are constructors of `op`.
* **C90 Life of a node** - `Life.v`: a relation between the node arrays before and after, closed under composition, proved for every function that writes nodes; `LifeUser.v` by induction on the history.
* **C91 No moves** - `Moves.v`: call by call from the exact effects on child lists; composition of subsequences along the history.
* **C92 Loops over sets and maps** - `ReportModel.v` models the FOR_EACH macros over the iterators of C66; `ReportEach.v`: the loop returns the prefix before the first zero element, and the first inserted element is the root of the trie.
* **C93 printFirstDifference** - reports are lists of output calls; `ReportDiff.v` proves the relation `report` (ReportSpec.v), reusing the set lemmas of C49; delivery by C54.
* **C94 printDomStatus** - `ReportStatus.v`: the calls written out equal the text `status_text`.
* **C95 A parse needs linear arena space** - `TraceModel.v` repeats the parser with a record of every use of the arena (pushes, map nodes, text pieces) and turns the record into a program of MemModel; `TraceProofs.v`: same outcome as the plain parser, and the record is exactly the growth of the tables; with C74 and C75 the bound follows (`TraceUser.v`).
* **C96 The arena holds the document** - the elements pushed are the encodings of the table entries; C58 reads them back (`TraceMem.v`, `TraceUser.v`).
* **C97 Space of the parent table** - `ParentTab.v`: the parent table of a document never prepended to has one entry per attached node and none for removed ones; preserved by every call but prepend (`ParentOps.v`, which also gives the positive half of C62); exact growth of append and prepend from the closed forms of the three `updateReferences` functions (`Attach.v`, `Replace.v`).
* **C98 Printing doubles** - `DoubleModel.v`: the arithmetic of `flo_appendDouble` on Flocq's binary64 values, the appends as a program of LogModel; `DoubleProofs.v`: adding half a millionth rounds to something between |x| and |x| + 10^-6, integral part and difference are exact, the product by 10^6 stays below 10^6.
* **C99 The arena holds the edited document** - `TraceEditModel.v`: every edit of `EditModel.v` again with a record of its pushes, allocations and accesses through table pointers, turned into a program of MemModel; `TraceEditProofs.v`: same outcome as `ApiSpec.run`; `TraceEditMem.v`, `TraceEditOps.v`: that program changes the arrays as the edit changes the tables; `TraceEditText.v`: bytes of text written; `TraceEditUser.v`: whole sessions.
* **C100 No stale table pointer** - pointers are recorded with the length of their table when they were taken; `SessionSpec.v` says when such a pointer is current; proved from the existence of the program in `TraceEditUser.v`.
* **C101 Saving a document** - `SaveModel.v`: `writeHTMLToFile` with the directories of the path, the C string given to `fopen`, the answers of `fopen` and `write`, the scratch arena and the files; `SaveProofs.v`, `PropsSave.v`; loading the file again by C73 and C53.
* **C102 A DOM prints after an abandoned edit** - no new model: `PrintModel.v` on the states of `CrashModel.v`; `CrashPrint.v` shows that every node reached from the root is readable in each of the three kinds of states (debris, merged, half-linked); `PropsCrashPrint.v`.
* **C103 Queries work after an abandoned edit** - no new model: `QueryModel.v` on the states of `CrashModel.v`; `QueryAny.v`, `QueryAnyTotal.v` redo the search for documents whose tables are only known to be in range and acyclic, `CrashSearch.v` shows the three kinds of abandoned states to be such, `CrashSame.v` simulates the search before by the search after; `PropsCrashQuery.v`.
* **C104 Removing goes on after an abandoned edit** - no new model: the edits of `EditModel.v` on the states of `CrashModel.v`; `CrashRecover.v` simulates each removal on the document by the same removal on the document with debris (table indices found and entries written are the same); spec `RecoverSpec.v`; `PropsRecover.v`.
* **C105 An abandoned edit that shows no effect is harmless** - `CrashRecover.v`: if an abandoned state shows the old contents and child lists it is the old document with debris (a linking state would show a new child, a text merge a longer text), so C104's simulation applies; spec `unseen` in `RecoverSpec.v`; `PropsRecover.v`. C80 (retry): `CrashRetry.v`.
* **C106 A document and its duplicate do not disturb each other** - `DupMemModel.v` (duplicateDom as a program on memory), `DupMem.v` (a program on one group of arrays leaves another group alone; arrays of capacity 0), `DupProofs.v`, `DupUser.v`, `DupRoom.v` (how much arena suffices); spec `DupSpec.v`; `PropsDup.v`.
* **C107 A duplicate can be edited like its original** - false: an array copied while empty has capacity 0 and doubling keeps it 0; `gh_runs_bad` follows any program to its first push into such an array; `PropsDup.v`.
* **C108 Answers of queries stay valid while the document is edited** - `QueryMemModel.v` (the query engine with a record of the sets it allocates; the scratch arena), `QueryMemProofs.v` (the traced functions compute what QueryModel computes; a set is allocated whenever it grows), `QueryMemSafe.v` (the copy never overlaps: the buffer of the set of results lies in between); `QueryRoom.v` (what the sets of a query cost: growing a set from e to e+1 is paid by the potential 2*2^e), `AskRoom.v` (room for a mixture of edits and queries); the ...WithQuery edits are calls of the mixture too (`EditAt`; `C108_edit_at_query` ties them to the nine functions of the API); a ...WithQuery edit that finds nothing edits node 0 (C48) and is outside the hypothesis of valid edits; spec `AskSpec.v`; `PropsAsk.v`.

<!-- generated below -->

## 6. `Print Assumptions`

305 of the 311 theorems named in MANIFEST.json print `Closed under the global context`:
no axiom of the standard library, none of our own.  (vcheck's list of library
axioms names seven declarations of `Coq.ssr.ssrunder`; they come with the loaded
standard library files (`lia` and friends) and no theorem uses them.)

The others are about doubles; they use Flocq's binary64 numbers and the standard library's
real numbers and depend on these axioms of the standard library, and on no others:

* `C98_double_defined`: `ClassicalDedekindReals.sig_forall_dec`, `ClassicalDedekindReals.sig_not_dec`, `Classical_Prop.classic`, `FunctionalExtensionality.functional_extensionality_dep`
* `C98_double_inf_refuted`: `ClassicalDedekindReals.sig_forall_dec`, `ClassicalDedekindReals.sig_not_dec`, `Classical_Prop.classic`, `FunctionalExtensionality.functional_extensionality_dep`
* `C98_double_nan_refuted`: `ClassicalDedekindReals.sig_forall_dec`, `ClassicalDedekindReals.sig_not_dec`, `Classical_Prop.classic`, `FunctionalExtensionality.functional_extensionality_dep`
* `C98_double_nearest`: `ClassicalDedekindReals.sig_forall_dec`, `ClassicalDedekindReals.sig_not_dec`, `Classical_Prop.classic`, `FunctionalExtensionality.functional_extensionality_dep`
* `C98_double_returns`: `ClassicalDedekindReals.sig_forall_dec`, `ClassicalDedekindReals.sig_not_dec`, `Classical_Prop.classic`, `FunctionalExtensionality.functional_extensionality_dep`
* `C98_double_text`: `ClassicalDedekindReals.sig_forall_dec`, `ClassicalDedekindReals.sig_not_dec`, `Classical_Prop.classic`, `FunctionalExtensionality.functional_extensionality_dep`

All theorems:

`C01_no_undefined_behaviour`, `C01_parse_memory_safe`, `C01_refuted`, `C02_parse_returns`, `C02_parse_terminates`, `C03_parsed_tree_in_document_order`, `C04_append_fragment`, `C04_append_fragment_merge`, `C04_fragments`, `C04_paired_flags`, `C04_prepend_fragment`, `C04_prepend_fragment_merge`, `C04_replace_fragment`, `C04_small_documents`, `C04_well_formed_documents`, `C05_plain_text_exact`, `C05_text_normalised`, `C06_depth_bound`, `C06_nesting_limit`, `C07_limit_jumps`, `C07_node_ids`, `C08_text_nodes_are_leaves`, `C08_void_elements_are_leaves`, `C09_content_without_lt`, `C09_no_special_treatment`, `C09_script_opaque_refuted`, `C100_no_stale_pointer`, `C100_same_outcome`, `C101_disk_full_hangs`, `C101_name_by_length_refuted`, `C101_old_file_lost_refuted`, `C101_only_that_file`, `C101_save`, `C101_save_load`, `C101_write_error_refuted`, `C102_print_after_abandon`, `C102_query_refuted`, `C102_same_print`, `C103_first_after_abandon`, `C103_query_after_abandon`, `C103_same_first`, `C103_same_matches`, `C104_go_on`, `C105_harmless_if_unseen`, `C105_same_first`, `C106_document_and_duplicate`, `C106_rejected_text`, `C106_room_suffices`, `C107_edit_duplicate_refuted`, `C107_first_attribute_refuted`, `C107_first_flag_refuted`, `C107_with_room_refuted`, `C108_edit_at_query`, `C108_edits_and_queries`, `C108_query_room`, `C108_rejected_text`, `C108_room_suffices`, `C10_stray_end_tags`, `C11_end_tags_exact_refuted`, `C11_end_tags_exact_rule`, `C12_ids_injective`, `C12_interning_bijective`, `C12_string_table_limits`, `C13_ids_stable`, `C14_index_exact`, `C14_iso_out_of_bounds_refuted`, `C15_attribute_queries`, `C16_get_value_first`, `C17_set_property_value`, `C18_remove_attribute`, `C19_add_attribute`, `C20_child_lists`, `C20_last_sibling_link`, `C20_navigation`, `C20_parents_decrease`, `C21_traverse_dom`, `C22_leak_exact`, `C22_refuted`, `C22_traverse_node`, `C22_traverse_node_leaks`, `C23_leak_exact`, `C23_refuted`, `C23_text_content`, `C24_remove_node`, `C25_remove_children`, `C25_set_text_content`, `C26_append_document_node`, `C27_append_text_merge`, `C27_append_text_new`, `C28_append_html_merge`, `C28_append_html_plain`, `C28_fragment`, `C28_fragment_order`, `C29_prepend_document_node`, `C29_prepend_text_merge`, `C29_prepend_text_new`, `C30_prepend_html_merge`, `C30_prepend_html_plain`, `C31_replace_document_node`, `C32_replace_text_merge`, `C32_replace_text_new`, `C33_null_dereference_iff`, `C33_null_dereference_refuted`, `C33_replace_html`, `C33_replace_html_text`, `C34_failed_fragment`, `C35_empty_fragment_refuted`, `C36_prepend_text_refuted`, `C36_replace_html_refuted`, `C36_replace_text_refuted`, `C36_returned_ids_live`, `C37_histories`, `C37_only_quotes_go_wrong`, `C38_counters_suffice`, `C38_larger_tables_diverge`, `C38_tables_small`, `C39_id_set`, `C40_combinators`, `C40_matches_in_tree`, `C40_related_in_tree`, `C41_query_parsed`, `C41_query_selector_all`, `C42_query_total`, `C42_too_many_filters`, `C42_unclosed_bracket`, `C43_unknown_names`, `C43_unknown_names_effect`, `C44_query_selector_first`, `C45_after_combinator_elements`, `C45_removed_nodes_refuted`, `C46_tag_query_no_collision`, `C46_tag_query_refuted`, `C47_selectors_refuted`, `C47_star_exact`, `C48_no_match_edits_node_0`, `C48_no_match_refuted`, `C49_equals_exact`, `C49_equals_reflexive`, `C49_equals_symmetric`, `C49_equals_transitive`, `C49_pairs_refuted`, `C50_duplicate`, `C51_push_to_copied_empty_refuted`, `C51_push_to_copy_partial`, `C52_print`, `C52_write_file`, `C53_flags_exist`, `C53_normal_form`, `C53_print_parse_print`, `C53_round_trip`, `C53_round_trip_refuted`, `C54_failing_write_loops`, `C54_flush_empties`, `C54_output_exact`, `C54_output_returns`, `C55_colours`, `C55_cstr`, `C55_cstr_unterminated`, `C55_decimal_unique`, `C55_fraction`, `C55_negative_int_refuted`, `C55_pointer_digits`, `C55_pointer_refuted`, `C55_ptrdiff`, `C55_uint64`, `C56_absolute_refuted`, `C56_relative`, `C57_arena_blocks`, `C57_arena_full`, `C57_zero_count_refuted`, `C58_arrays_keep_contents`, `C59_chunks_disjoint`, `C59_pool`, `C60_string_map`, `C60_string_set`, `C60_uint16_set`, `C61_string_set`, `C61_string_set_equality`, `C62_double_remove`, `C62_double_remove_refuted`, `C62_removed_parent`, `C62_removed_parent_refuted`, `C63_reattached`, `C63_reattached_iff`, `C63_replace_html_reattaches_removed_refuted`, `C64_free_exhausted_partial`, `C64_free_pool_refuted`, `C65_failed_write_repeats_refuted`, `C65_newline_overflow_refuted`, `C66_iterate_interned`, `C66_iterate_string_map`, `C66_iterate_string_set`, `C66_iterate_uint16_set`, `C67_buddy_calls_return`, `C68_buddy_blocks_kept`, `C68_buddy_layout`, `C68_buddy_new_block`, `C69_free_block_refused_refuted`, `C69_fresh_region_serves`, `C70_nothing_leaks`, `C70_region_not_recovered_refuted`, `C71_huge_request_refuted`, `C71_too_large_fails`, `C72_text_fits`, `C72_text_is_concatenation`, `C73_read_file`, `C73_same_as_string`, `C73_unreadable`, `C73_unseekable_overflow_refuted`, `C73_unseekable_overlap_refuted`, `C74_linear_memory`, `C75_document_size`, `C75_edit_size`, `C75_history_size`, `C76_completes_as_run`, `C76_data_kept`, `C77_traversal`, `C78_edited_node`, `C78_other_nodes`, `C79_all_or_nothing`, `C79_prepend_refuted`, `C79_set_text_refuted`, `C80_edit_after_abandon_refuted`, `C80_known_strings_untouched`, `C80_retry_reads_outside`, `C81_alphabet`, `C81_append`, `C81_append_merge`, `C81_document`, `C81_document_total`, `C81_fragment`, `C81_prepend`, `C81_prepend_merge`, `C81_replace`, `C82_document_locality`, `C82_fragment_locality`, `C82_same_reading`, `C82_spelling`, `C83_document`, `C83_fragment`, `C84_create`, `C84_history`, `C84_iff`, `C84_step`, `C84_total`, `C84_unique`, `C85_attributes_commute`, `C85_congruence`, `C85_reads`, `C85_remove_commute`, `C85_set_property_last`, `C85_set_text`, `C85_set_text_last`, `C85_undo`, `C85_undo_boolean`, `C85_undo_property`, `C86_accepted`, `C86_alphabet`, `C86_decided`, `C86_refused`, `C87_edit_first`, `C87_first`, `C87_in_tree`, `C87_same_first`, `C87_same_look`, `C87_status_refuted`, `C88_union`, `C88_union_refused`, `C89_add_text`, `C89_set_tag`, `C89_set_tag_paired`, `C90_fresh`, `C90_life`, `C90_name`, `C90_removed_forever`, `C91_detached_forever`, `C91_no_moves`, `C91_same_parent`, `C92_each_interned`, `C92_each_string`, `C92_each_string_map`, `C92_each_uint16`, `C92_empty_first_refuted`, `C92_zero_first_refuted`, `C92_zero_value_refuted`, `C93_after_equals`, `C93_child_counts_refuted`, `C93_first_difference`, `C93_nothing_found`, `C93_report_reaches_file`, `C93_second_tag_refuted`, `C93_status_texts`, `C94_decimal_unique`, `C94_dom_status`, `C94_status_reaches_file`, `C95_full_or_result`, `C95_room_suffices`, `C96_tables_in_memory`, `C97_append_one_entry`, `C97_one_entry_per_node_refuted`, `C97_parent_entries`, `C97_prepend_entries`, `C97_prepends_quadratic`, `C98_double_defined`, `C98_double_inf_refuted`, `C98_double_nan_refuted`, `C98_double_nearest`, `C98_double_returns`, `C98_double_text`, `C99_full_or_result`, `C99_memory_holds_document`, `C99_rejected_text`, `C99_room_suffices`.

## 7. File table

| file | content | C files cited |
|---|---|---|
| ApiProofs.v | From the invariant to statements about histories of API calls. |  |
| ApiSpec.v | Histories of API calls. |  |
| ArenaSpec.v | What the memory of a parsed document should hold. |  |
| AskRoom.v | Edits and queries: how much room is enough. |  |
| AskSpec.v | Edits and queries of a document: what to expect. |  |
| Attach.v | Creating nodes and attaching chains. |  |
| AttrProofs.v | Attributes: reading and changing them. |  |
| Base.v | Base: outcomes, bytes and checked buffer accesses. |  |
| BuddyModel.v | Buddy allocator: util/src/memory/buddy-allocator.c. | util/include/flo/util/memory/buddy-allocator.h, util/src/memory/buddy-allocator.c |
| BuddyProofs.v | Buddy allocator: the blocks tile the region, used blocks are not touched. |  |
| BuddySpec.v | What a program that uses the buddy allocator relies on. |  |
| BuddyUser.v | Buddy allocator: statements about whole programs. |  |
| CompareModel.v | Comparing two DOMs: src/dom/comparison.c. | include/flo/html-parser/comparison-status.h, src/dom/comparison.c |
| CompareProofs.v | Proofs about the comparison. |  |
| CompareSpec.v | What it means that two documents are equal. |  |
| CounterModel.v | The loops of src/dom/traversal.c with their uint16_t counters. | include/flo/html-parser/definitions.h, src/dom/traversal.c |
| CrashAgree.v | The abandonable functions compute what the plain ones compute. |  |
| CrashDebris.v | What the creating part of an edit leaves behind when it is abandoned. |  |
| CrashFacts.v | Reading a document left by an abandoned call. |  |
| CrashHtml.v | Where the calls that insert a parsed fragment can be abandoned. |  |
| CrashLink.v | The states in which linking new nodes into the tree can be abandoned. |  |
| CrashModel.v | Edits that are abandoned half-way. | src/dom/appendix.c, src/dom/deletion.c, src/dom/dom-util.c, src/dom/modification.c, src/dom/prependix.c, src/dom/replacement.c, src/dom/util/string-auto-uint16-map.c, src/parser.c |
| CrashOps.v | Where each editing call can be abandoned, and what it leaves. |  |
| CrashPrint.v | Printing after an abandoned call: proofs. |  |
| CrashRead.v | Reading a DOM that an abandoned call left behind. |  |
| CrashRecover.v | Calls that only remove, after an abandoned call. |  |
| CrashRetry.v | Making an abandoned call again. |  |
| CrashSame.v | The nodes a document had are found by the same queries as before. |  |
| CrashSearch.v | What an abandoned call leaves can be searched. |  |
| CrashSpec.v | What a user can still rely on after a call was abandoned. |  |
| CrashThms.v | The theorems about abandoned calls, in terms of the API. |  |
| CrashUser.v | What an abandoned call leaves: all editing calls. |  |
| CrashWalk.v | Walking a DOM whose links are incomplete. |  |
| DomModel.v | The DOM data structure and its elementary operations. | include/flo/html-parser/dom/dom.h, include/flo/html-parser/node/node.h, include/flo/html-parser/node/property.h, include/flo/html-parser/node/tag-registration.h, src/dom/dom-util.c, src/dom/dom.c, src/dom/modification.c, src/dom/traversal.c |
| DomSpec.v | Specification vocabulary: what a user sees of a DOM through the navigation functions [getFirstChild], [getNext], [traverseDom], ... |  |
| DoubleModel.v | Model of [flo_appendDouble]: util/src/log.c:218-248. | util/src/log.c |
| DoubleProofs.v | Proofs about [flo_appendDouble]. |  |
| DoubleSpec.v | What printing a double should write. |  |
| DupMem.v | Groups of arrays in one arena, and arrays of capacity 0. |  |
| DupMemModel.v | [flo_html_duplicateDom] on an arena: src/dom/dom.c:50-95. | src/dom/dom.c |
| DupProofs.v | A document and its duplicate in one arena. |  |
| DupRoom.v | How much memory a document, its duplicate and edits of both need. |  |
| DupSpec.v | A document and its duplicate: what to expect. |  |
| DupUser.v | Edits of a document and of its duplicate. |  |
| DuplicateModel.v | Duplicating a DOM: src/dom/dom.c:50-95. | src/dom/dom.c, util/include/flo/util/array.h |
| DuplicateProofs.v | The duplicate of a reachable DOM is the DOM. |  |
| EditEmpty.v | Fragments without nodes. |  |
| EditHtml.v | Operations that insert an HTML fragment. |  |
| EditModel.v | Editing a DOM: src/dom/{deletion,modification,appendix,prependix, replacement,dom-util}.c. | src/dom/appendix.c, src/dom/deletion.c, src/dom/dom-util.c, src/dom/modification.c, src/dom/prependix.c, src/dom/reading/reading-util.c, src/dom/replacement.c |
| EditOps.v | Single-node editing operations. |  |
| EditProofs.v | Effects of the editing operations on child lists and contents. |  |
| EditUser.v | User-level statements of the editing calls, for reachable DOMs. |  |
| EditUserHtml.v | User-level statements of the fragment operations, for reachable DOMs. |  |
| Examples.v | Concrete documents and tactics used to show that the hypotheses of the theorems are met. Everything here is evaluated, nothing is assumed. |  |
| FileModel.v | Reading files and the API calls that take a file name. | src/dom/dom.c, util/include/flo/util/file/file-status.h, util/src/file/read.c |
| GrammarLoop.v | The main loop on well-formed documents. |  |
| GrammarMore.v | Special cases of the grammar: plain text, one element, end tags. |  |
| GrammarScan.v | Exact results of the parser's scanning functions on well-formed text. |  |
| GrammarSpec.v | A grammar of well-formed HTML and what its sentences denote. |  |
| GrammarTag.v | Exact results of parsing tags. |  |
| GrammarText.v | Exact results of parsing text runs. |  |
| GrammarUser.v | Well-formed documents and fragments through the public interface. |  |
| Grow.v | Every call only adds: registries are extended, node ids stay valid, and the 16-bit bounds are kept. |  |
| Inv.v | The structural invariant of a DOM and lookups under it. |  |
| Lemmas.v | General lemmas: outcomes, byte strings, tables, scanning loops. |  |
| Life.v | The life of a node: ids are never reused, a node keeps its kind until it is removed, and its name unless the name is set. |  |
| LifeSpec.v | Vocabulary for what happens to nodes over a history of calls (C90, C91). |  |
| LifeUser.v | Nodes over a history of calls (C90, C91). |  |
| Link.v | Linking one fresh node (parser, setTextContent); removing subtrees. |  |
| Links.v | The tables of first children and of next siblings never have more entries than there are nodes. |  |
| LogModel.v | Buffered output: util/src/log.c. | util/include/flo/util/log.h, util/src/log.c |
| LogProofs.v | Proofs about buffered output. |  |
| LogSpec.v | What output functions should write. |  |
| MemCost.v | How much of the arena a program with arrays uses. |  |
| MemModel.v | Arena, dynamic arrays and pool allocator. | util/include/flo/util/array.h, util/include/flo/util/memory/arena.h, util/include/flo/util/raw-data.h, util/src/memory/arena.c, util/src/memory/pool-allocator.c |
| MemProofs.v | Proofs about arena, arrays and pool. |  |
| MemSpec.v | What a program that uses arrays of one arena should see. |  |
| Moves.v | No call moves a node (C91). |  |
| MsiModel.v | Open-addressing hash sets ("mask, step, index"). | /query/msi-uint16.h, src/dom/query/msi-uint16.c, util/include/flo/util/hash/hash-comparison-status.h, util/include/flo/util/hash/hashes.h, util/include/flo/util/hash/msi/common.h, util/src/hash/msi/common.c, util/src/hash/msi/string-set.c, util/src/hash/msi/uint16-set.c |
| MsiProofs.v | The open-addressing sets: probe sequences visit every slot, insertion and membership are exact. |  |
| NoJump.v | The arena's longjmp is taken only when a 16-bit limit is exceeded. |  |
| NodeEdit.v | [addTextToTextNode] and [setTagOnDocumentNode] called directly. |  |
| NodeUser.v | What [addTextToTextNode] and [setTagOnDocumentNode] do, on every reachable DOM. |  |
| OriginSpec.v | Specification for C82 and C83. |  |
| ParentOps.v | The parent table under the editing calls other than prepend. |  |
| ParentTab.v | The parent table of a document that was never prepended to: one entry per child, none for removed nodes. |  |
| ParseLoop.v | The main loop of the parser. |  |
| ParseSafe.v | Safety, progress and results of the scanning functions of the parser. |  |
| ParseTree.v | The tree built by the parser: state invariant of the main loop. |  |
| ParserModel.v | The HTML parser: src/parser.c. | include/flo/html-parser/node/document-node.h, include/flo/html-parser/parser.h, include/flo/html-parser/util/parse.h, src/dom/dom.c, src/parser.c |
| PathModel.v | [flo_createPath]: util/src/file/path.c. | util/include/flo/util/text/string.h, util/src/file/path.c |
| PathProofs.v | Proofs about [flo_createPath] and the 16-bit counters. |  |
| PoolProofs.v | Proofs about series of arena requests and about the pool. |  |
| PrintModel.v | Printing HTML: src/dom/writing.c:11-79, 93-123. | src/dom/writing.c |
| PrintProofs.v | Proofs about printing. |  |
| PrintSpec.v | The printed form of a document. |  |
| PropsArena.v | The memory of a parse (C95, C96). |  |
| PropsAsk.v | Edits and queries of a document in one arena (C108). |  |
| PropsBuddy.v | Buddy allocator (C67-C71). |  |
| PropsCompare.v | Properties of comparison and duplication (C49, C50). |  |
| PropsCrash.v | Properties of edits that are abandoned half-way (C76-C80). |  |
| PropsCrashPrint.v | Printing and searching a DOM after an abandoned edit (C102). |  |
| PropsCrashQuery.v | Queries on a DOM after an abandoned edit (C103). |  |
| PropsDouble.v | Printing doubles. |  |
| PropsDup.v | A document and its duplicate in memory (C106, C107). |  |
| PropsEdit.v | Properties of the editing functions (C24-C32, C35, C36, C62). |  |
| PropsFile.v | Documents and fragments from files (C73). |  |
| PropsGrammar.v | Well-formed documents (C04, C06, C10; exact forms of C05, C09, C11). Statements with one-line proofs and non-vacuity examples. The grammar and the meaning of its sentences are in [GrammarSpec]. |  |
| PropsLife.v | Text and names set in place (C89), the life of a node (C90), and that no call moves a node (C91). Statements with one-line proofs and examples. |  |
| PropsLog.v | Output (C54, C55, C65). |  |
| PropsMemory.v | Memory: arena, arrays, text buffers, pool (C51, C57, C58, C59, C64, C72, C74). |  |
| PropsParents.v | The parent table over a history: removed nodes without a parent when nothing was prepended (C62), and the number of entries (C97). |  |
| PropsParse.v | Properties of parsing and of the string tables (C01-C03, C05, C07-C09, C11-C14). Statements with one-line proofs, non-vacuity examples and refutations. |  |
| PropsPrint.v | Printing (C52). |  |
| PropsQuery.v | Properties of queries and of the hash sets (C39-C48, C61). |  |
| PropsRead.v | Properties of reading, attributes, navigation and histories (C15-C23, C37). |  |
| PropsReader.v | What every input means (C81-C83). Statements with one-line proofs and examples. The reference reader is in [ReaderSpec]: a function from bytes to trees, written without the parser's state, positions, node numbers or tables. |  |
| PropsRecover.v | Going on after an abandoned edit (C104). |  |
| PropsReport.v | Iteration and reports (C92, C93, C94). |  |
| PropsRound.v | Printing and parsing back (C53). |  |
| PropsSave.v | Saving a document to a file (C101). |  |
| PropsSelector.v | What every selector string means (C86-C88). Statements with one-line proofs and examples. The reference reader of selector strings is in [SelectorSpec]: [parts] splits at commas, [read_part] gives the elements of one part - each a list of conditions with the combinator before it - and how the part ends. |  |
| PropsSession.v | The memory of a session: a parse followed by edits (C99, C100). |  |
| PropsSize.v | The size of a document (C75). |  |
| PropsTree.v | The document as a tree machine (C84) and the laws of editing (C85). Statements with one-line proofs and examples. The machine - trees with ids and contents, and the effect of each call on them - is in [TreeSpec]. |  |
| PropsTrie.v | Tries of the utility library (C60, C66). |  |
| PropsUtil.v | Paths (C56) and 16-bit counters (C38). |  |
| QueryAny.v | Queries on documents whose tables are only known to be in range. |  |
| QueryAnyTotal.v | Queries return normally on every searchable document. |  |
| QueryBad.v | Selectors that are rejected as invalid. |  |
| QueryMemModel.v | [flo_html_querySelectorAll] on an arena: src/dom/query/query.c:289-336. | src/dom/query/query.c, util/src/hash/msi/common.c |
| QueryMemProofs.v | The memory of a query. |  |
| QueryMemSafe.v | Queries in memory: safety. |  |
| QueryModel.v | Queries: src/dom/query/query.c and query-util.c. | include/flo/html-parser/dom/query/query-status.h, include/flo/html-parser/dom/query/query-util.h, src/dom/appendix.c, src/dom/prependix.c, src/dom/query/query-util.c, src/dom/query/query.c, src/dom/replacement.c |
| QueryParse.v | On the concrete selector syntax the query parser finds the selector. |  |
| QueryProofs.v | The query steps compute the relations they stand for. |  |
| QueryRel.v | Query relations and the tree; [querySelector]. |  |
| QueryRoom.v | How much room a query needs. |  |
| QuerySpec.v | What a selector means. |  |
| QueryTotal.v | The query functions return normally on every byte string. |  |
| QueryUser.v | From the parsed query to the nodes it denotes. |  |
| ReadLeak.v | traverseNode and getTextContent on an element without children (C22, C23). |  |
| ReadModel.v | Reading a DOM: src/dom/reading/reading.c. | src/dom/reading/reading.c |
| ReadUser.v | What the read functions return on every reachable DOM. |  |
| ReaderFacts.v | The reference reader: independence of fuel, equations, locality. |  |
| ReaderGrammar.v | Well-formed markup inside arbitrary input. |  |
| ReaderLocal.v | Consequences of the reference reader: locality, equivalent spellings, provenance. |  |
| ReaderLoop.v | The main loop agrees with the reference reader. |  |
| ReaderOrigin.v | Everything in a parsed tree comes from the source, and no more than it holds. |  |
| ReaderScan.v | The scanning functions of the parser agree with the reference reader. |  |
| ReaderSpec.v | A reference reader: what every byte string means as HTML to this library. |  |
| ReaderTag.v | Attributes and start tags agree with the reference reader. |  |
| ReaderText.v | Text agrees with the reference reader. |  |
| ReaderUser.v | User-level consequences of the reference reader. |  |
| RecoverSpec.v | Going on after an abandoned call. |  |
| RegProofs.v | Registries: interning, attributes and tags. |  |
| Replace.v | Replacing a node by a chain; linking one fresh node (parser). |  |
| ReplaceBad.v | The two cases in which replaceWithHTML goes wrong, exactly. |  |
| ReportDiff.v | [flo_html_printFirstDifference]: proofs. |  |
| ReportEach.v | The iteration macros: proofs. |  |
| ReportModel.v | Reports: iteration macros, [flo_html_printFirstDifference] and [flo_html_printDomStatus]. | include/flo/html-parser/node/node.h, include/flo/html-parser/util/string-auto-uint16-map.h, src/comparison-status.c, src/dom/comparison.c, src/dom/writing.c, util/include/flo/util/hash/trie/string-set.h, util/include/flo/util/log.h, util/src/hash/hash-comparison-status.c |
| ReportSpec.v | What the reports should say. |  |
| ReportStatus.v | [flo_html_printDomStatus]: proofs. |  |
| RoundProofs.v | Printing and parsing back. |  |
| RoundSpec.v | Documents whose printed form can be parsed back. |  |
| SaveModel.v | [flo_html_writeHTMLToFile] with the files of the system and its scratch arena. | src/dom/writing.c, util/src/file/path.c |
| SaveProofs.v | Proofs about saving a document to a file. |  |
| SelectorRead.v | The query parser reads what the reference reader reads. |  |
| SelectorSpec.v | A reference reader for selectors: what every byte string means as a query (C86). |  |
| SelectorTree.v | Queries and the tree: restricted to the nodes in the tree, a query is a matter of the tree alone. |  |
| SelectorUser.v | What every selector string denotes. |  |
| SessionSpec.v | Pointers into the tables of a document, over an edit. |  |
| Size.v | The size of a parsed document is bounded by the size of its source. |  |
| SizeEdit.v | An edit adds at most as many nodes as its text has bytes. |  |
| SizeSpec.v | How big a document is, and how much a caller handed in. Specification only. |  |
| Surgery.v | Effect of the linking primitives on the structural invariant. |  |
| Tables.v | Association tables with tombstones, and adjacency in lists. |  |
| TraceEditMem.v | The record of an edit as a program on memory. |  |
| TraceEditModel.v | What an edit does with the arena and with the tables in it. | src/dom/appendix.c, src/dom/deletion.c, src/dom/dom-util.c, src/dom/modification.c, src/dom/prependix.c, src/dom/replacement.c, src/parser.c, util/include/flo/util/array.h |
| TraceEditOps.v | Every edit's record is a program that turns the old tables into the new ones. |  |
| TraceEditProofs.v | The recorded edits compute what the plain ones compute. |  |
| TraceEditText.v | How many bytes of text an edit writes. |  |
| TraceEditUser.v | The memory of a whole session: a parse and any number of edits. |  |
| TraceMem.v | The record of a parse as a program on memory. |  |
| TraceModel.v | What [flo_html_createDom] asks of its arena. | include/flo/html-parser/dom/dom.h, include/flo/html-parser/node/node.h, src/dom/dom-util.c, src/dom/dom.c, src/dom/modification.c, src/dom/util/string-auto-uint16-map.c, src/parser.c |
| TraceProofs.v | The recorded parser computes what the plain one computes, and its record is the growth of the tables. |  |
| TraceUser.v | Memory of a parse, in terms of what is stored. |  |
| TreeHtml.v | Every editing call is a step of the tree machine (C84): calls with HTML. |  |
| TreeLaws.v | Laws of the tree machine (C85). |  |
| TreeLawsUser.v | Laws of editing, on DOMs (C85). |  |
| TreeNumber.v | The ids of parsed nodes: numbering in document order (C84). |  |
| TreeOps.v | Every editing call is a step of the tree machine (C84): calls without HTML. |  |
| TreeProofs.v | Views of a DOM: basic facts (C84). |  |
| TreeReplace.v | Every editing call is a step of the tree machine (C84): replacing by HTML. |  |
| TreeSpec.v | The document as a tree machine (C84, C85). |  |
| TreeStep.v | Every editing call is a step of the tree machine (C84): calls without HTML. |  |
| TreeUser.v | Every history is a run of the tree machine (C84). |  |
| TrieModel.v | The interning map (string -> dense uint16 id). | include/flo/html-parser/util/string-auto-uint16-map.h, src/dom/util/string-auto-uint16-map.c, util/include/flo/util/hash/hashes.h |
| TrieProofs.v | The interning map refines a list of distinct strings. |  |
| UsetProofs.v | The uint16 set of the query engine and the string set of the comparison are mathematical sets. |  |
| UtilTrieModel.v | Tries of the utility library and their iterators: util/src/hash/trie/*.c, util/include/flo/util/hash/trie/common-iterator.h. | include/flo/html-parser/util/string-auto-uint16-map.h, src/dom/util/string-auto-uint16-map.c, util/include/flo/util/hash/trie/common-iterator.h |
| UtilTrieProofs.v | Proofs about the tries of the utility library. |  |
| Walk.v | Traversal visits the tree in pre-order. |  |
| Zeroed.v | Removing only zeroes entries of the parent table. |  |
