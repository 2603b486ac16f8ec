{
 "claims": [
  {
   "property": "C01",
   "status": "proved",
   "theorems": [
    "C01_get_item_returns_last_added"
   ],
   "note": "Every arithmetic, index width, distance kind, hint and history inside the capacity bound."
  },
  {
   "property": "C02",
   "status": "proved",
   "theorems": [
    "C02_item_overwritten_by_distant_item"
   ],
   "note": "REFUTED outside the capacity bound of C01: machine-checked witness."
  },
  {
   "property": "C03",
   "status": "proved",
   "theorems": [
    "C03_holes_read_as_zero",
    "C03_zero_pattern_is_zero"
   ],
   "note": "Never-added slots read as the all-zero pattern, which is the number 0 in both float types."
  },
  {
   "property": "C04",
   "status": "proved",
   "theorems": [
    "C04_add_item_accepts_exactly",
    "C04_huge_vectors_panic",
    "C04_loaded_rejects"
   ],
   "note": "Capacity bound and vector length below 2^w (Go int lengths) assumed; loaded half holds for every state."
  },
  {
   "property": "C05",
   "status": "proved",
   "theorems": [
    "C05_add_after_build_destroys_tree"
   ],
   "note": "REFUTED as a guarantee: witness history."
  },
  {
   "property": "C06",
   "status": "proved",
   "theorems": [
    "C06_preparation_succeeds",
    "C06_no_illegal_access",
    "C06_rest_succeeds"
   ],
   "note": "Preparation, every moment of the workers under every schedule and draw, and the rest of Build; capacity bound assumed."
  },
  {
   "property": "C07",
   "status": "proved",
   "theorems": [
    "C07_build_keeps_items"
   ],
   "note": "Both policies, every schedule and draw."
  },
  {
   "property": "C08",
   "status": "proved",
   "theorems": [
    "C08_every_tree_lists_every_item_once",
    "C08_small_index_with_holes",
    "C08_hole_repeats_item_0"
   ],
   "note": "Exact for indexes larger than a bucket or without holes; REFUTED for small indexes with holes (witness: item 0 listed twice)."
  },
  {
   "property": "C09",
   "status": "proved",
   "theorems": [
    "C09_short_vectors_lose_items"
   ],
   "note": "Witness (existence property)."
  },
  {
   "property": "C10",
   "status": "proved",
   "theorems": [
    "C10_exact_number_of_trees",
    "C10_shares_add_up"
   ],
   "note": "Tree count + worker count below 2^53."
  },
  {
   "property": "C11",
   "status": "proved",
   "theorems": [
    "C11_zero_workers_no_trees",
    "C11_negative_workers_panic",
    "C11_negative_workers_no_result"
   ],
   "note": "REFUTED as documented behaviour: 0 workers build nothing, every schedule."
  },
  {
   "property": "C12",
   "status": "proved",
   "theorems": [
    "C12_automatic_count_reached"
   ],
   "note": ""
  },
  {
   "property": "C13",
   "status": "proved",
   "theorems": [
    "C13_build_on_loaded_panics",
    "C13_second_build_panics_single",
    "C13_second_build_panics_multi"
   ],
   "note": "Both policies; any sequence of AddItem/Close in between."
  },
  {
   "property": "C14",
   "status": "proved",
   "theorems": [
    "C14_worker_number_irrelevant"
   ],
   "note": "Relational: whole run of a worker compared under two worker numbers."
  },
  {
   "property": "C15",
   "status": "proved",
   "theorems": [
    "C15_stored_hyperplane_disagrees"
   ],
   "note": "Witness (existence property)."
  },
  {
   "property": "C17",
   "status": "proved",
   "theorems": [
    "C17_no_deadlock",
    "C17_every_schedule_ends",
    "C17_all_finish"
   ],
   "note": "No deadlock; every schedule is finite and ends with all workers finished (or cut off by the model's bound on random retries)."
  },
  {
   "property": "C18",
   "status": "proved",
   "theorems": [
    "C18_no_race_on_nodes"
   ],
   "note": "The only conflicting pending accesses are two draws (C19)."
  },
  {
   "property": "C19",
   "status": "proved",
   "theorems": [
    "C19_generator_race"
   ],
   "note": "Witness (existence property)."
  },
  {
   "property": "C20",
   "status": "proved",
   "theorems": [
    "C20_node_numbers_unique",
    "C20_writes_to_own_nodes",
    "C20_trees_share_no_nodes"
   ],
   "note": ""
  },
  {
   "property": "C22",
   "status": "proved",
   "theorems": [
    "C22_accepted_split_has_two_sides",
    "C22_good_split_is_usable",
    "C22_randomising_can_end",
    "C22_depth_below_items"
   ],
   "note": "Side sizes below 2^64."
  },
  {
   "property": "C24",
   "status": "proved",
   "theorems": [
    "C24_C25_built_index",
    "C24_results_distinct_valid_sorted"
   ],
   "note": "For every node memory, and end to end for every built index (ids are added items); order claims assume no NaN distance."
  },
  {
   "property": "C25",
   "status": "proved",
   "theorems": [
    "C24_C25_built_index",
    "C25_distances_belong_to_ids"
   ],
   "note": "For every node memory, and end to end: the distance is that of the added vector."
  },
  {
   "property": "C26",
   "status": "proved",
   "theorems": [
    "C26_top_of_inspected"
   ],
   "note": "Assumes no candidate distance is NaN (otherwise there is no order)."
  },
  {
   "property": "C27",
   "status": "proved",
   "theorems": [
    "C27_built_index_exact",
    "C27_exhaustive_is_exact"
   ],
   "note": "For every forest, and end to end for every built index with vectors of at least 3*sizeof(index) elements; assumes no NaN distance."
  },
  {
   "property": "C28",
   "status": "proved",
   "theorems": [
    "C28_at_most_a_leaf_more",
    "C28_enough_inspected"
   ],
   "note": ""
  },
  {
   "property": "C29",
   "status": "proved",
   "theorems": [
    "C29_minus_one"
   ],
   "note": ""
  },
  {
   "property": "C30",
   "status": "proved",
   "theorems": [
    "C30_larger_context_same_answer",
    "C30_answers_do_not_depend_on_the_context",
    "C30_context_contents_irrelevant",
    "C30_context_keeps_size"
   ],
   "note": ""
  },
  {
   "property": "C31",
   "status": "proved",
   "theorems": [
    "C31_built_index_returns",
    "C31_no_panic_with_room",
    "C31_context_size",
    "C31_own_context_is_large_enough",
    "C31_own_context_too_small"
   ],
   "note": "Universal half for every forest whose trees list readable nodes; REFUTED without the bound (witness)."
  },
  {
   "property": "C32",
   "status": "proved",
   "theorems": [
    "C32_wrong_side_first",
    "C32_no_item_finds_itself"
   ],
   "note": "Witness (existence property): wrong side first, own item not found."
  },
  {
   "property": "C33",
   "status": "proved",
   "theorems": [
    "C33_long_query_never_returns",
    "C33_short_query_faults",
    "C33_short_query_reads_out_of_bounds"
   ],
   "note": "Long vectors: every query; short ones: whenever the roots are split nodes (and a witness)."
  },
  {
   "property": "C34",
   "status": "proved",
   "theorems": [
    "C34_by_item_is_by_vector",
    "C34_by_item_uses_added_vector"
   ],
   "note": ""
  },
  {
   "property": "C35",
   "status": "proved",
   "theorems": [
    "C35_nothing_to_inspect",
    "C35_nothing_to_return"
   ],
   "note": "Empty whenever it returns; no panic when there is nothing to inspect."
  },
  {
   "property": "C36",
   "status": "proved",
   "theorems": [
    "C36_distance_symmetric"
   ],
   "note": "Both float types, any non-NaN coordinates."
  },
  {
   "property": "C37",
   "status": "proved",
   "theorems": [
    "C37_self_distance_nan_overflow",
    "C37_self_distance_nan_underflow",
    "C37_self_distance_sqrt2"
   ],
   "note": "Witnesses (existence property)."
  },
  {
   "property": "C38",
   "status": "proved",
   "theorems": [
    "C38_not_inner_product"
   ],
   "note": "Witness (existence property)."
  },
  {
   "property": "C39",
   "status": "proved",
   "theorems": [
    "C39_priority_queue_is_min_bag",
    "C39_top_is_next_pop"
   ],
   "note": "Refinement to a bag with minimum extraction, for every strict weak order."
  },
  {
   "property": "C40",
   "status": "proved",
   "theorems": [
    "C40_partial_sort_selection",
    "C40_partial_sort_whole",
    "C40_partial_sort_refuted_in_general"
   ],
   "note": "Holds outside the 20<e-b<5000000 window and for whole slices; REFUTED inside the window for b>0 (witness)."
  },
  {
   "property": "C41",
   "status": "proved",
   "theorems": [
    "C41_partial_sort2",
    "C41_partial_sort2_whole"
   ],
   "note": ""
  },
  {
   "property": "C42",
   "status": "proved",
   "theorems": [
    "C42_sort_pairs2_sorts",
    "C42_pairs_are_ordered"
   ],
   "note": ""
  },
  {
   "property": "C43",
   "status": "proved",
   "theorems": [
    "C43_intersection"
   ],
   "note": "sort.Slice is a parameter with the contract of a sorter."
  },
  {
   "property": "C44",
   "status": "proved",
   "theorems": [
    "C44_next_index_in_range",
    "C44_next_index_zero_panics",
    "C44_kiss32_draws_fit",
    "C44_kiss64_draws_fit",
    "C44_kiss32_clone_restarts",
    "C44_kiss64_clone_restarts",
    "C44_kiss32_xorshift_never_zero",
    "C44_kiss64_xorshift_never_zero"
   ],
   "note": ""
  },
  {
   "property": "C45",
   "status": "proved",
   "theorems": [
    "C45_set_seed_zero_refuted",
    "C45_set_seed_otherwise",
    "C45_zero_seed"
   ],
   "note": ""
  },
  {
   "property": "C46",
   "status": "proved",
   "theorems": [
    "C46_save_unbuilt"
   ],
   "note": ""
  },
  {
   "property": "C47",
   "status": "proved",
   "theorems": [
    "C47_save_load_keeps_items_and_trees"
   ],
   "note": "Save with an operating system that does not fail; the mmap view is byte-granular. Split planes of copied roots are truncated by CopyNode; the trees below are the same."
  },
  {
   "property": "C48",
   "status": "proved",
   "theorems": [
    "C48_exhaustive_queries_survive_reload"
   ],
   "note": "Any number of workers; no NaN distances; context and limit large enough for every tree to be searched to the end."
  },
  {
   "property": "C49",
   "status": "proved",
   "theorems": [
    "C49_one_item_index_cannot_be_loaded"
   ],
   "note": "Witness (existence property)."
  },
  {
   "property": "C50",
   "status": "proved",
   "theorems": [
    "C50_reload_loses_items"
   ],
   "note": "Witness (existence property)."
  },
  {
   "property": "C51",
   "status": "proved",
   "theorems": [
    "C51_wrong_size_rejected",
    "C51_whole_nodes_never_refused",
    "C51_truncated_file_accepted"
   ],
   "note": "Size check for every content; acceptance of truncated files by witness and in general (no other check)."
  },
  {
   "property": "C52",
   "status": "proved",
   "theorems": [
    "C52_failed_load_leaves_empty_index"
   ],
   "note": ""
  },
  {
   "property": "C53",
   "status": "proved",
   "theorems": [
    "C53_saving_over_own_mapping"
   ],
   "note": "File size below 2^w assumed."
  },
  {
   "property": "C54",
   "status": "proved",
   "theorems": [
    "C54_crash_states",
    "C54_ragged_prefix_rejected",
    "C54_whole_node_prefix_not_rejected"
   ],
   "note": ""
  },
  {
   "property": "C55",
   "status": "proved",
   "theorems": [
    "C55_close_empties",
    "C55_close_succeeds",
    "C55_add_after_close"
   ],
   "note": ""
  },
  {
   "property": "C56",
   "status": "proved",
   "theorems": [
    "C56_get_finds_newest",
    "C56_two_handles_refuted",
    "C56_double_close_refuted"
   ],
   "note": ""
  },
  {
   "property": "C57",
   "status": "proved",
   "theorems": [
    "C57_reallocate"
   ],
   "note": ""
  },
  {
   "property": "C58",
   "status": "proved",
   "theorems": [
    "C58_builder_defaults",
    "C58_nil_generator_panics"
   ],
   "note": "Angular builder; dot-product indexes are not constructible through the builder."
  },
  {
   "property": "C59",
   "status": "proved",
   "theorems": [
    "C59_loaded_is_read_only",
    "C59_closed_accepts_items_but_no_build"
   ],
   "note": ""
  },
  {
   "property": "C60",
   "status": "proved",
   "theorems": [
    "C60_build_does_not_depend_on_layout",
    "C60_queries_do_not_depend_on_layout",
    "C60_saved_files_do_not_depend_on_layout"
   ],
   "note": "Proved for indexes whose generators are in the same state, within the capacity bound of C01. Query equality needs 3*sizeof(index) <= vector length (C09)."
  },
  {
   "property": "C61",
   "status": "proved",
   "theorems": [
    "C61_reload_any_workers",
    "C61_two_workers_extra_tree"
   ],
   "note": "Bounds for every schedule plus a witness schedule of two workers that gains a tree."
  },
  {
   "property": "C62",
   "status": "proved",
   "theorems": [
    "C62_mapped_and_copied_loads_agree",
    "C62_mapped_and_copied_loads_can_differ"
   ],
   "note": "Unconditional in the file contents; second theorem gives the differences."
  },
  {
   "property": "C63",
   "status": "proved",
   "theorems": [
    "C63_one_builder_two_indexes_interfere",
    "C63_second_index_after_first_is_closed"
   ],
   "note": "REFUTED as independence (witness runs); safe order of use proved. The random generator, which is shared too, is not passed between the two indexes in the model."
  },
  {
   "property": "C64",
   "status": "proved",
   "theorems": [
    "C64_gorandom_ignores_its_seed",
    "C64_gorandom_set_seed_and_clone"
   ],
   "note": "For any generator state type and any behaviour of math/rand."
  },
  {
   "property": "C65",
   "status": "proved",
   "theorems": [
    "C65_single_negative_count_is_zero",
    "C65_multi_negative_count_is_automatic"
   ],
   "note": "Both policies; schedules are those of build_multi."
  },
  {
   "property": "C66",
   "status": "proved",
   "theorems": [
    "C66_more_inspection_is_no_worse"
   ],
   "note": "Needs numeric (non-NaN) vectors and 3*sizeof(index) <= vector length, as C26/C27; nearness is the spec order nearer."
  },
  {
   "property": "C67",
   "status": "proved",
   "theorems": [
    "C67_shorter_answer_is_a_prefix"
   ],
   "note": "Same conditions as C66."
  },
  {
   "property": "C68",
   "status": "proved",
   "theorems": [
    "C68_load_depends_on_contents_only"
   ],
   "note": "Unconditional in the contents (non-empty; C62 has the empty file). A nil generator panics in both cases and is excluded."
  },
  {
   "property": "C69",
   "status": "proved",
   "theorems": [
    "C69_saving_a_loaded_index_copies_its_file"
   ],
   "note": "Saving a mapped index to its own file is the data loss of C53."
  },
  {
   "property": "C70",
   "status": "proved",
   "theorems": [
    "C70_links_that_never_end",
    "C70_accepted_file_that_hangs_every_query",
    "C70_accepted_file_that_faults"
   ],
   "note": "REFUTED: general non-termination theorem plus two accepted witness files. Fuel bounds queue pops, so OutOfFuel for every fuel is non-termination."
  },
  {
   "property": "C71",
   "status": "proved",
   "theorems": [
    "C71_one_worker_is_the_single_worker_policy",
    "C71_exact_builds_are_builds"
   ],
   "note": "Draws are exact (Exact.v) because no other goroutine uses the generator; second theorem: exact builds are among the builds of the other theorems."
  },
  {
   "property": "C72",
   "status": "proved",
   "theorems": [
    "C72_draw_is_sum_of_components",
    "C72_draw64_is_sum_of_components",
    "C72_kiss64_multiply_with_carry",
    "C72_kiss32_multiply_with_carry_refuted",
    "C72_kiss32_adds_a_constant"
   ],
   "note": "REFUTED for Kiss32Random (no seed satisfies it), with the exact description of what the component is; proved for Kiss64Random with the exceptional states stated and one reached through the API."
  },
  {
   "property": "C73",
   "status": "proved",
   "theorems": [
    "C73_low_bits_depend_on_low_bits_of_seed",
    "C73_indexes_below_a_power_of_two",
    "C73_two_sequences_of_sides"
   ],
   "note": "Kiss32Random[TIX] for every width; seed 0 is replaced by 123456789, so it counts as odd."
  },
  {
   "property": "C74",
   "status": "proved",
   "theorems": [
    "C74_distance_after_adding",
    "C74_distance_after_build"
   ],
   "note": ""
  },
  {
   "property": "C75",
   "status": "proved",
   "theorems": [
    "C75_distance_is_accurate",
    "C75_get_distance_is_accurate"
   ],
   "note": "Bound for vectors in the stated range; the exact value is over the real numbers (axioms of the standard library's reals)."
  },
  {
   "property": "C76",
   "status": "proved",
   "theorems": [
    "C76_exhaustive_ranks_by_true_distance"
   ],
   "note": ""
  },
  {
   "property": "C77",
   "status": "proved",
   "theorems": [
    "C77_self_distance_is_zero",
    "C77_get_self_distance_is_zero"
   ],
   "note": ""
  },
  {
   "property": "C78",
   "status": "proved",
   "theorems": [
    "C78_distance_is_a_number_refuted",
    "C78_identical_item_first_refuted",
    "C78_nan_only_when_nearly_parallel"
   ],
   "note": "REFUTED: witness in float32; C78_nan_only_when_nearly_parallel bounds when it can happen"
  },
  {
   "property": "C79",
   "status": "proved",
   "theorems": [
    "C79_extended_vectors_equally_long"
   ],
   "note": ""
  },
  {
   "property": "C80",
   "status": "proved",
   "theorems": [
    "C80_short_slices_panic",
    "C80_dot_is_accurate",
    "C80_norm_is_accurate",
    "C80_euclidean_is_squared_distance",
    "C80_manhattan_is_accurate"
   ],
   "note": ""
  },
  {
   "property": "C81",
   "status": "proved",
   "theorems": [
    "C81_round_is_nearest_refuted",
    "C81_round_is_near"
   ],
   "note": "REFUTED: two witnesses; C81_round_is_near gives the bound and the condition under which it holds"
  },
  {
   "property": "C82",
   "status": "proved",
   "theorems": [
    "C82_items_divided_by_planes"
   ],
   "note": ""
  },
  {
   "property": "C83",
   "status": "proved",
   "theorems": [
    "C83_splits_are_balanced",
    "C83_trees_are_shallow"
   ],
   "note": ""
  },
  {
   "property": "C84",
   "status": "proved",
   "theorems": [
    "C84_search_order",
    "C84_order_is_determined"
   ],
   "note": ""
  },
  {
   "property": "C85",
   "status": "proved",
   "theorems": [
    "C85_one_tree_is_searched",
    "C85_one_tree_is_searched_after_build"
   ],
   "note": "REFUTED as a guarantee: universal theorem that only one tree is searched when it lists enough entries."
  },
  {
   "property": "C86",
   "status": "proved",
   "theorems": [
    "C86_far_side_first",
    "C86_far_side_first_after_build"
   ],
   "note": "REFUTED as a guarantee: universal theorem that the far side is searched first."
  },
  {
   "property": "C87",
   "status": "proved",
   "theorems": [
    "C87_planes_are_finite"
   ],
   "note": ""
  },
  {
   "property": "C88",
   "status": "proved",
   "theorems": [
    "C88_queries_do_not_interfere",
    "C88_every_schedule_ends",
    "C88_shared_context_mixes_answers"
   ],
   "note": "Holds with one context per goroutine; REFUTED for a shared context (witness). Accesses are atomic and sequentially consistent, which the absence of races justifies."
  },
  {
   "property": "C89",
   "status": "proved",
   "theorems": [
    "C89_slice_shows_item",
    "C89_slice_after_additions",
    "C89_writing_changes_the_item",
    "C89_writing_leaves_the_norm"
   ],
   "note": "In-memory indexes (built or being built); writing through the slice keeps the old norm (witness)."
  },
  {
   "property": "C90",
   "status": "proved",
   "theorems": [
    "C90_inspecting_the_added_items_is_exact",
    "C90_inspecting_the_number_of_items_is_exact",
    "C90_answers_do_not_depend_on_the_trees"
   ],
   "note": ""
  },
  {
   "property": "C91",
   "status": "proved",
   "theorems": [
    "C91_contains_second",
    "C91_contains_first"
   ],
   "note": ""
  },
  {
   "property": "C92",
   "status": "proved",
   "theorems": [
    "C92_item_queries_survive_reload",
    "C92_queries_survive_reload",
    "C92_queries_survive_reload_moderate",
    "C92_two_workers_answers_change"
   ],
   "note": "Proved for one worker; REFUTED for two (witness)."
  },
  {
   "property": "C93",
   "status": "proved",
   "theorems": [
    "C93_own_context_never_overflows",
    "C93_inspecting_the_items_does_not_overflow",
    "C93_exact_on_own_context"
   ],
   "note": ""
  },
  {
   "property": "C94",
   "status": "proved",
   "theorems": [
    "C94_exact_after_reload",
    "C94_exact_on_own_context_after_reload"
   ],
   "note": ""
  },
  {
   "property": "C95",
   "status": "proved",
   "theorems": [
    "C95_limits",
    "C95_precision_is_mean_recall",
    "C95_precision_one_when_everything_is_listed",
    "C95_precision_of_small_limits",
    "C95_stored_vectors_match",
    "C95_match_means_equal",
    "C95_nan_is_a_mismatch"
   ],
   "note": ""
  },
  {
   "property": "C96",
   "status": "proved",
   "theorems": [
    "C96_query_looks_at_few_nodes",
    "C96_query_takes_few_rounds",
    "C96_own_context_returns_soon",
    "C96_few_rounds_after_reload"
   ],
   "note": ""
  },
  {
   "property": "C97",
   "status": "proved",
   "theorems": [
    "C97_distances_between_0_and_2",
    "C97_triangle_inequality",
    "C97_length_does_not_matter",
    "C97_get_distance_is_a_metric"
   ],
   "note": ""
  },
  {
   "property": "C98",
   "status": "proved",
   "theorems": [
    "C98_number_of_nodes",
    "C98_number_of_nodes_automatic",
    "C98_file_size"
   ],
   "note": ""
  },
  {
   "property": "C99",
   "status": "proved",
   "theorems": [
    "C99_own_context_after_load",
    "C99_precision_tool_returns",
    "C99_own_context_after_load_one_worker",
    "C99_two_workers_overflow",
    "C99_precision_tool_panics"
   ],
   "note": "Proved when Load finds as many trees as were built, as always with one worker; REFUTED for two workers (witnesses)."
  },
  {
   "property": "C100",
   "status": "proved",
   "theorems": [
    "C100_every_node_is_used",
    "C100_context_size_bound",
    "C100_context_size",
    "C100_context_size_few",
    "C100_more_trees_than_built_fail",
    "C100_asking_for_all_fails"
   ],
   "note": ""
  },
  {
   "property": "C101",
   "status": "proved",
   "theorems": [
    "C101_item_left_out_only_for_equals",
    "C101_item_comes_first"
   ],
   "note": ""
  },
  {
   "property": "C102",
   "status": "proved",
   "theorems": [
    "C102_equal_vectors_by_id",
    "C102_equal_vectors_same_answer",
    "C102_all_equal_gives_the_first"
   ],
   "note": ""
  },
  {
   "property": "C103",
   "status": "proved",
   "theorems": [
    "C103_round_plus_is_near",
    "C103_round_plus_twice",
    "C103_many_places_give_nan",
    "C103_large_numbers_overflow"
   ],
   "note": ""
  },
  {
   "property": "C104",
   "status": "proved",
   "theorems": [
    "C104_listing_shows_items",
    "C104_listing_shows_trees",
    "C104_save_lists_every_node",
    "C104_copy_of_root_shown_wrong"
   ],
   "note": ""
  },
  {
   "property": "C105",
   "status": "proved",
   "theorems": [
    "C105_run_of_the_tool",
    "C105_default_run"
   ],
   "note": ""
  },
  {
   "property": "C106",
   "status": "proved",
   "theorems": [
    "C106_small_index_is_exact",
    "C106_small_index_returns",
    "C106_saved_small_index_is_exact",
    "C106_saved_small_index_returns",
    "C106_readme_example",
    "C106_readme_length"
   ],
   "note": "C106_readme_length: the README's AngularDistance(1536) does not accept its three-component vectors (first AddItem panics); the example is proved for length 3."
  },
  {
   "property": "C107",
   "status": "proved",
   "theorems": [
    "C107_item_numbers_repeat",
    "C107_every_node_passes_for_an_item",
    "C107_loaded_bounds"
   ],
   "note": "Theorems about the missing check; reads outside the index are errors (Fault) in the model, undefined behaviour in Go."
  },
  {
   "property": "C108",
   "status": "proved",
   "theorems": [
    "C108_uniform_file_cannot_be_loaded",
    "C108_one_item_cannot_be_saved",
    "C108_no_trees_cannot_be_saved",
    "C108_zero_workers_cannot_be_saved"
   ],
   "note": "REFUTED as a guarantee (\"a built index can be saved\"): universal theorems that Save cannot succeed for these indexes."
  },
  {
   "property": "C109",
   "status": "proved",
   "theorems": [
    "C109_distances_ignore_powers_of_two",
    "C109_answers_ignore_powers_of_two",
    "C109_query_length_does_not_matter"
   ],
   "note": ""
  },
  {
   "property": "C110",
   "status": "proved",
   "theorems": [
    "C110_outcome_of_load",
    "C110_accepted_files"
   ],
   "note": ""
  },
  {
   "property": "C111",
   "status": "proved",
   "theorems": [
    "C111_distances_in_other_coordinates",
    "C111_padded_vectors_keep_their_distances",
    "C111_answers_in_other_coordinates"
   ],
   "note": ""
  }
 ]
}