# Formal model of goannoy — design

Source modelled: `/repo` (mariotoffia/goannoy, Go) at the pinned commit, read as text.
Tool: Rocq/Coq 8.16.1. Sources in `rocq/theories`, logical name `Verif`.

## Shape of the model

* **Memory** is byte-level. Every `make([]byte, n)` of the build allocator is an arena; a raw pointer is the
  position of an arena in an append-only list, so stale pointers keep referring to old bytes. Any access outside
  the arena is the outcome `Fault`. Node fields are decoded from bytes with the Go struct layout (64-bit targets).
* **Integers**: `TIX` (uint32/uint64) arithmetic wraps explicitly (`tix`), and so does address computation.
* **Floats**: a record `FOps` of operations. Structural theorems hold for *every* `FOps` whose encoding can be read
  back (`FLaws`); numeric theorems are about the IEEE-754 instances `fops32`/`fops64` built on Flocq.
  `splitImbalance` and the worker division use the standard library's `SpecFloat`.
* **Concurrency**: a worker is a program (`prog`) over shared-state actions (`act`); one action is one shared access
  or one mutex operation. The single-worker policy runs one program alone (`run`); the multi-worker policy
  interleaves all workers (`pool_step`) with blocking mutexes and a writer-preferring RWMutex. Under several workers
  a random draw yields an *arbitrary* value (the generator is raced on), so theorems hold for every random outcome.
* **Concurrent queries** (`QConc`) are programs over single accesses to the nodes and to the caller's context, interleaved
  in any order; `Search` is the same code run alone, and the two are proved to agree.
* **Abnormal outcomes** are values: `Panic p`, `Fault`, and `OutOfFuel` for loops that are unbounded in Go. No theorem
  counts `OutOfFuel` as success: theorems are about runs that returned, or exclude it explicitly.

## Files

Model (no proofs): `Base Flt Layout Rng Sorts Alloc Prog Imbalance Dist Build Policy Index Search Builder Shared Exact Vec QConc Slice Precision Dump`.
Each definition cites file and lines.

Specification vocabulary (definitions only, independent of the code's helpers): `Spec` (contents of items, sorting,
reals), `ForestSpec` (shape of a stored tree, how it divides the items, exact nearest neighbours), `StateSpec` (life cycle), `ConcSpec`
(states of concurrent builds, lock order), `BuildSpec` (a Build call, its intermediate states and its result), `RealSpec`
(exact distances over the real numbers, the range of vectors for which accuracy is stated), `CostSpec` (how many nodes a query looks at), `MetricSpec` (reported distances as real numbers), `OrderSpec` (the order in which a query
looks at the nodes), `QConcSpec` (races and answers of concurrent queries), `PrecSpec` (mean recall), `ScaleSpec` (multiplication by powers of two), `LoadSpec` (counts and children in a file), `MirrorSpec` (changed signs and added zeros).

Proof files: `*Proof` and `Lib`. `Concrete` holds the small instances used by examples and witnesses.

Property theorems (named `Cxx_...`), each with a concrete example and `Print Assumptions`: `PropItems` `PropSorts`
`PropMisc` `PropWitness` `PropState` `PropSearch` `PropConc` `PropForest` `PropIO` `PropSame` `PropShare` `PropMore` `PropLoad` `PropRng` `PropNum` `PropVec` `PropCut` `PropOrder` `PropPlane`
`PropQuery` `PropSlice` `PropWhole` `PropReload` `PropRoom` `PropLoaded` `PropPrecision` `PropCost` `PropMetric` `PropSize` `PropReroom` `PropCover` `PropSelf` `PropRPlus` `PropDump` `PropRun` `PropBucket` `PropBeyond` `PropLone` `PropScale` `PropOutcome` `PropMirror` `PropReitem`.

A property that the code does *not* have keeps its id; its theorem is a witness (a concrete run that violates it),
accompanied by a theorem with the condition under which it does hold. `MANIFEST.json` marks these `REFUTED`.

## Plan per property

| id | property | model and proof |
|---|---|---|
| C01 | GetItem returns the last vector added under that index | Index.add_item/get_item on byte-level memory; invariant over AddItem histories (StoreProof). |
| C02 | The capacity bound of C01 is real: beyond it AddItem silently overwrites other items | vm_compute witness on the u32/f32 instance. |
| C03 | Unused slots read as the zero vector | same invariant as C01 (bytes never written are zero). |
| C04 | AddItem rejects wrong lengths and loaded indexes, and nothing else | progress half of the C01 invariant. |
| C05 | Adding items after Build is not rejected and corrupts the forest | vm_compute witness. |
| C06 | Memory safety of a multi-worker Build | rely/guarantee `wp` over interleaved programs (Conc*), safety clause. |
| C07 | Build never alters the stored vectors | Inv of the wp: bytes of items unchanged. |
| C08 | Every tree contains every item exactly once | wp postcondition: inductive `collects` relation. |
| C09 | For short vectors the trees lose items | vm_compute witness. |
| C10 | Build creates exactly the requested number of trees | wp roots clause + exact float floor lemma + Hermite identity. |
| C11 | Worker count 0 builds no tree at all, negative counts panic | direct. |
| C12 | Automatic tree count reaches the documented size | wp postcondition of tree_loop in auto mode. |
| C13 | A second Build is rejected and changes nothing, even after Close | direct on build_pre/close. |
| C14 | Per-worker seeding has no effect | program equality up to the ghost label. |
| C15 | The stored split hyperplane can differ from the one items were partitioned by | vm_compute witness. |
| C17 | A multi-worker Build cannot deadlock | lock-order invariant from the wp safety clause. |
| C18 | No data race on node memory or node bookkeeping | wp safety clause for pairs of workers. |
| C19 | The shared random generator is raced on | explicit schedule. |
| C20 | No two workers ever use the same node number | owner ghost map in the invariant. |
| C22 | Splitting always makes progress | interval argument on SpecFloat division. |
| C24 | Query results are distinct, valid, sorted items | Search proofs on any index state. |
| C25 | Returned distances belong to the returned ids | idem |
| C26 | Nothing inspected and closer is left out | idem with PartialSort spec |
| C27 | Exhaustive inspection gives exact nearest neighbours | C26 + collects. |
| C28 | A query inspects at least as many candidates as asked for | loop invariant. |
| C29 | -1 means numReturn times the number of trees | unfolding. |
| C30 | A context can be reused | parametricity of put_at. |
| C31 | When a query on its own context cannot run out of room, and when it can | loop bound + witness. |
| C32 | Queries do not explore the most promising side first | witness. |
| C33 | Query vector length is not checked | loop invariant + witnesses. |
| C34 | GetNnsByItem is GetNnsByVector of the stored vector | unfolding |
| C35 | Degenerate queries return empty results | direct |
| C36 | GetDistance is symmetric | Flocq: commutativity of Bmult on finite values. |
| C37 | GetDistance(i,i) is not always 0 | witness |
| C38 | The dot-product index does not report inner products | witness |
| C39 | The priority queue is a correct min-queue | heap invariant |
| C40 | PartialSortSlice puts the smallest elements first, sorted | selection/insertion invariants |
| C41 | PartialSortSlice2 puts the smallest elements first, sorted | heap invariants |
| C42 | SortPairs2 sorts | heap invariants |
| C43 | Intersection computes the sorted multiset intersection and sorts its arguments in place | merge induction |
| C44 | Random generators: range, reproducibility and reset | modular arithmetic, xorshift bijectivity |
| C45 | SetSeed(0) followed by CloneAndReset gives a different sequence | witness |
| C46 | Saving an unbuilt index is an error and touches no file | direct |
| C47 | Save then Load preserves items and forest | image of saved arena, scan_roots |
| C48 | Exhaustive queries survive Save and Load | C27 on both sides |
| C49 | A saved one-item index cannot be loaded | symbolic/witness |
| C50 | Small indexes lose items on reload | witness |
| C51 | Load checks the file size but accepts truncated files | direct + witness |
| C52 | A failed Load leaves an empty closed index | direct |
| C53 | Saving a memory-mapped index to its own file destroys it | direct |
| C54 | Save is not atomic | direct |
| C55 | Close empties the index and is idempotent | direct + C01 |
| C56 | Closing one handle removes another handle's registration | registry induction |
| C57 | Reallocate preserves contents and zero-fills | memory lemmas |
| C58 | Builder defaults | builder fold |
| C59 | A loaded index is read-only | direct |
| C60 | Memory layout independence: the order of additions and the allocation hint do not matter | simulation between two states with equal logical contents |
| C61 | Reloading a multi-worker index may repeat trees but never loses one |  |
| C62 | Mapping a file and reading it into memory give the same index |  |
| C63 | Indexes made by one builder |  |
| C64 | GoRandom does not use the seed it is created with |  |
| C65 | Negative tree counts other than -1 are accepted |  |
| C66 | More inspection never makes an answer worse |  |
| C67 | A shorter answer is the beginning of a longer one |  |
| C68 | Load depends on the bytes of the file only |  |
| C69 | Saving a loaded index copies its file |  |
| C70 | Load guarantees that queries on the loaded file end |  |
| C71 | One worker of the multi-worker policy is the single-worker policy |  |
| C72 | The components of the KISS generators |  |
| C73 | The low bits of Kiss32Random depend on the low bits of the seed only |  |
| C74 | GetDistance is the distance of the vectors that were added |  |
| C75 | Distances are accurate |  |
| C76 | An exhaustive query ranks by exact angle up to rounding |  |
| C77 | The distance of an item to itself is exactly zero |  |
| C78 | Reported distances of ordinary vectors are numbers |  |
| C79 | Build makes the vectors of a dot product index equally long |  |
| C80 | The functions of package vector are accurate |  |
| C81 | Round gives the nearest integer |  |
| C82 | Trees divide the items by planes |  |
| C83 | No split is nearly one-sided and no tree is deep |  |
| C84 | Queries look at the forest in a fixed order |  |
| C85 | Additional trees do not add candidates |  |
| C86 | Queries search the wrong side of a plane first |  |
| C87 | Build stores planes of finite numbers |  |
| C88 | Queries from several goroutines do not interfere |  |
| C89 | The slice GetItem returns is a window into the index |  |
| C90 | Inspecting as many entries as there are items gives the exact answer |  |
| C91 | ContainsFirst and ContainsSecond find exactly the pairs that are there |  |
| C92 | Save and Load change no answer |  |
| C93 | The contexts an index creates are large enough |  |
| C94 | After Save and Load, inspecting as many entries as items gives the exact answer |  |
| C95 | cmd/precision prints the mean fraction of true neighbours found |  |
| C96 | A query looks at few nodes, however many trees there are |  |
| C97 | Angular distances behave like a metric |  |
| C98 | The size of an index is linear in items times trees |  |
| C99 | The contexts of a saved or loaded index are large enough |  |
| C100 | No node of an index is wasted, and contexts have a known size |  |
| C101 | An item finds itself in an exhaustive query |  |
| C102 | Items with equal vectors come in the order of their ids |  |
| C103 | RoundPlus rounds to the given number of decimal places |  |
| C104 | The verbose listing shows the index as it is |  |
| C105 | What a run of cmd/precision can show |  |
| C106 | Small indexes are exact, as in the README |  |
| C107 | Item numbers are not checked |  |
| C108 | Some indexes cannot be saved |  |
| C109 | Powers of two in the lengths of vectors do not matter |  |
| C110 | What Load makes of any file of whole nodes |  |
| C111 | Mirrored and padded vectors have the same distances |  |

## Trusted base

* Coq kernel 8.16.1 (incl. `vm_compute`).
* `Print Assumptions` is run under every property theorem; see the list in the section "Assumptions" below.
* The reading of the Go code (no extraction, the Go code is never run).

## Modelled / not modelled

Modelled: index (`index/*.go`), policies, allocators, both distances, TwoMeans, vector functions, Kiss32/Kiss64, GoRandom,
sorts, priority queue, Intersection, Round, RoundPlus (the result of math.Pow is a parameter), builder, DumpNode and the listing of Save
(what is shown of a node, not fmt's formatting), the measurement of `cmd/precision` (not its flags, clock and printing).
Not modelled: the rest of `cmd/`, `tests/`, other logging, timer helpers, Go's GC, which NaN (sign and payload) an operation gives, out-of-memory, weak memory beyond data-race
freedom, `sort.Slice` itself (assumed to return a sorted permutation), the OS beyond the few outcomes named in
`Index.v`, math/rand (any behaviour).

Theorems with the hypothesis `CfgOK` are about nodes of at most 2^30 bytes, the limit of the copies in SetVector and
SetChildren; for longer vectors AddItem panics (C04). A *query* vector of more than 2^30 bytes panics in Go; the model gives `Fault`
for every query vector longer than the index's.

## Assumptions

Output of `Print Assumptions` for every property theorem, grouped.

**Closed under the global context** (94 theorems):
`C107_item_numbers_repeat`, `C107_loaded_bounds`, `C06_preparation_succeeds`, `C17_every_schedule_ends`, `C28_at_most_a_leaf_more`, `C34_by_item_is_by_vector`, `C01_get_item_returns_last_added`, `C03_holes_read_as_zero`, `C04_add_item_accepts_exactly`, `C04_huge_vectors_panic`, `C04_loaded_rejects`, `C68_load_depends_on_contents_only`, `C69_saving_a_loaded_index_copies_its_file`, `C70_links_that_never_end`, `C71_exact_builds_are_builds`, `C108_uniform_file_cannot_be_loaded`, `C44_next_index_in_range`, `C44_next_index_zero_panics`, `C44_kiss32_draws_fit`, `C44_kiss64_draws_fit`, `C44_kiss32_clone_restarts`, `C44_kiss64_clone_restarts`, `C44_kiss32_xorshift_never_zero`, `C44_kiss64_xorshift_never_zero`, `C45_set_seed_zero_refuted`, `C45_set_seed_otherwise`, `C45_zero_seed`, `C56_get_finds_newest`, `C56_two_handles_refuted`, `C56_double_close_refuted`, `C57_reallocate`, `C110_outcome_of_load`, `C110_accepted_files`, `C95_limits`, `C95_match_means_equal`, `C88_queries_do_not_interfere`, `C88_every_schedule_ends`, `C72_draw_is_sum_of_components`, `C72_draw64_is_sum_of_components`, `C72_kiss64_multiply_with_carry`, `C72_kiss32_multiply_with_carry_refuted`, `C72_kiss32_adds_a_constant`, `C73_low_bits_depend_on_low_bits_of_seed`, `C73_indexes_below_a_power_of_two`, `C73_two_sequences_of_sides`, `C62_mapped_and_copied_loads_agree`, `C29_minus_one`, `C30_context_contents_irrelevant`, `C30_context_keeps_size`, `C31_no_panic_with_room`, `C33_long_query_never_returns`, `C33_short_query_faults`, `C35_nothing_to_inspect`, `C35_nothing_to_return`, `C63_second_index_after_first_is_closed`, `C64_gorandom_ignores_its_seed`, `C64_gorandom_set_seed_and_clone`, `C89_slice_shows_item`, `C89_slice_after_additions`, `C89_writing_changes_the_item`, `C39_priority_queue_is_min_bag`, `C39_top_is_next_pop`, `C40_partial_sort_selection`, `C40_partial_sort_whole`, `C40_partial_sort_refuted_in_general`, `C41_partial_sort2`, `C41_partial_sort2_whole`, `C42_sort_pairs2_sorts`, `C42_pairs_are_ordered`, `C43_intersection`, `C11_zero_workers_no_trees`, `C11_negative_workers_panic`, `C11_negative_workers_no_result`, `C13_build_on_loaded_panics`, `C13_second_build_panics_single`, `C13_second_build_panics_multi`, `C14_worker_number_irrelevant`, `C46_save_unbuilt`, `C51_wrong_size_rejected`, `C51_whole_nodes_never_refused`, `C52_failed_load_leaves_empty_index`, `C53_saving_over_own_mapping`, `C54_crash_states`, `C54_ragged_prefix_rejected`, `C54_whole_node_prefix_not_rejected`, `C55_close_empties`, `C55_close_succeeds`, `C55_add_after_close`, `C58_builder_defaults`, `C58_nil_generator_panics`, `C59_loaded_is_read_only`, `C59_closed_accepts_items_but_no_build`, `C80_short_slices_panic`, `C91_contains_second`.

Standard library axioms `ClassicalDedekindReals.sig_not_dec`, `ClassicalDedekindReals.sig_forall_dec`, `FunctionalExtensionality.functional_extensionality_dep`, `Classical_Prop.classic` (166 theorems):
`C107_every_node_passes_for_an_item`, `C106_small_index_is_exact`, `C106_small_index_returns`, `C106_saved_small_index_is_exact`, `C106_saved_small_index_returns`, `C106_readme_example`, `C106_readme_length`, `C06_no_illegal_access`, `C06_rest_succeeds`, `C17_no_deadlock`, `C17_all_finish`, `C18_no_race_on_nodes`, `C19_generator_race`, `C20_node_numbers_unique`, `C20_writes_to_own_nodes`, `C96_query_looks_at_few_nodes`, `C96_query_takes_few_rounds`, `C96_own_context_returns_soon`, `C96_few_rounds_after_reload`, `C100_every_node_is_used`, `C100_context_size_bound`, `C100_context_size`, `C100_context_size_few`, `C100_more_trees_than_built_fail`, `C100_asking_for_all_fails`, `C82_items_divided_by_planes`, `C83_splits_are_balanced`, `C83_trees_are_shallow`, `C104_listing_shows_items`, `C104_listing_shows_trees`, `C104_save_lists_every_node`, `C104_copy_of_root_shown_wrong`, `C07_build_keeps_items`, `C08_every_tree_lists_every_item_once`, `C08_small_index_with_holes`, `C08_hole_repeats_item_0`, `C10_exact_number_of_trees`, `C10_shares_add_up`, `C12_automatic_count_reached`, `C22_accepted_split_has_two_sides`, `C22_good_split_is_usable`, `C22_randomising_can_end`, `C22_depth_below_items`, `C24_C25_built_index`, `C27_built_index_exact`, `C31_built_index_returns`, `C34_by_item_uses_added_vector`, `C47_save_load_keeps_items_and_trees`, `C61_reload_any_workers`, `C61_two_workers_extra_tree`, `C48_exhaustive_queries_survive_reload`, `C03_zero_pattern_is_zero`, `C70_accepted_file_that_hangs_every_query`, `C70_accepted_file_that_faults`, `C71_one_worker_is_the_single_worker_policy`, `C94_exact_after_reload`, `C94_exact_on_own_context_after_reload`, `C108_one_item_cannot_be_saved`, `C108_no_trees_cannot_be_saved`, `C108_zero_workers_cannot_be_saved`, `C97_distances_between_0_and_2`, `C97_triangle_inequality`, `C97_length_does_not_matter`, `C97_get_distance_is_a_metric`, `C111_distances_in_other_coordinates`, `C111_padded_vectors_keep_their_distances`, `C111_answers_in_other_coordinates`, `C66_more_inspection_is_no_worse`, `C67_shorter_answer_is_a_prefix`, `C74_distance_after_adding`, `C74_distance_after_build`, `C75_distance_is_accurate`, `C75_get_distance_is_accurate`, `C76_exhaustive_ranks_by_true_distance`, `C77_self_distance_is_zero`, `C77_get_self_distance_is_zero`, `C78_distance_is_a_number_refuted`, `C78_identical_item_first_refuted`, `C78_nan_only_when_nearly_parallel`, `C84_search_order`, `C85_one_tree_is_searched`, `C86_far_side_first`, `C87_planes_are_finite`, `C85_one_tree_is_searched_after_build`, `C86_far_side_first_after_build`, `C95_precision_is_mean_recall`, `C95_precision_one_when_everything_is_listed`, `C95_precision_of_small_limits`, `C95_stored_vectors_match`, `C95_nan_is_a_mismatch`, `C88_shared_context_mixes_answers`, `C103_round_plus_is_near`, `C103_round_plus_twice`, `C103_many_places_give_nan`, `C103_large_numbers_overflow`, `C92_item_queries_survive_reload`, `C84_order_is_determined`, `C92_queries_survive_reload`, `C92_queries_survive_reload_moderate`, `C92_two_workers_answers_change`, `C99_own_context_after_load`, `C99_precision_tool_returns`, `C99_own_context_after_load_one_worker`, `C99_two_workers_overflow`, `C99_precision_tool_panics`, `C30_larger_context_same_answer`, `C30_answers_do_not_depend_on_the_context`, `C93_own_context_never_overflows`, `C93_inspecting_the_items_does_not_overflow`, `C90_inspecting_the_added_items_is_exact`, `C93_exact_on_own_context`, `C20_trees_share_no_nodes`, `C105_run_of_the_tool`, `C105_default_run`, `C60_build_does_not_depend_on_layout`, `C60_queries_do_not_depend_on_layout`, `C60_saved_files_do_not_depend_on_layout`, `C62_mapped_and_copied_loads_can_differ`, `C109_distances_ignore_powers_of_two`, `C109_answers_ignore_powers_of_two`, `C109_query_length_does_not_matter`, `C24_results_distinct_valid_sorted`, `C25_distances_belong_to_ids`, `C26_top_of_inspected`, `C28_enough_inspected`, `C27_exhaustive_is_exact`, `C36_distance_symmetric`, `C101_item_left_out_only_for_equals`, `C101_item_comes_first`, `C102_equal_vectors_by_id`, `C102_equal_vectors_same_answer`, `C102_all_equal_gives_the_first`, `C63_one_builder_two_indexes_interfere`, `C65_single_negative_count_is_zero`, `C65_multi_negative_count_is_automatic`, `C98_number_of_nodes`, `C98_number_of_nodes_automatic`, `C98_file_size`, `C89_writing_leaves_the_norm`, `C79_extended_vectors_equally_long`, `C80_dot_is_accurate`, `C80_norm_is_accurate`, `C80_euclidean_is_squared_distance`, `C80_manhattan_is_accurate`, `C81_round_is_nearest_refuted`, `C81_round_is_near`, `C90_inspecting_the_number_of_items_is_exact`, `C90_answers_do_not_depend_on_the_trees`, `C31_context_size`, `C31_own_context_is_large_enough`, `C91_contains_first`, `C02_item_overwritten_by_distant_item`, `C05_add_after_build_destroys_tree`, `C09_short_vectors_lose_items`, `C15_stored_hyperplane_disagrees`, `C31_own_context_too_small`, `C32_wrong_side_first`, `C32_no_item_finds_itself`, `C33_short_query_reads_out_of_bounds`, `C37_self_distance_nan_overflow`, `C37_self_distance_nan_underflow`, `C37_self_distance_sqrt2`, `C38_not_inner_product`, `C49_one_item_index_cannot_be_loaded`, `C50_reload_loses_items`, `C51_truncated_file_accepted`.
