{
 "claims": [
  {
   "property": "C01",
   "status": "proved",
   "theorems": [
    "C01_reorder_rotates",
    "C01_reorder_missing_root_refuted"
   ],
   "note": "Refuted when the root is not on the tour (C01_reorder_missing_root_refuted)."
  },
  {
   "property": "C02",
   "status": "proved",
   "theorems": [
    "C02_edges_in_walk_exact",
    "C02_edges_in_walk_throws_iff",
    "C02_total_cost_exact",
    "C02_total_cost_throws_iff",
    "C02_total_prize_exact",
    "C02_total_prize_of_tour_exact",
    "C02_total_prize_of_graph_exact",
    "C02_total_cost_overflow_refuted"
   ],
   "note": "32-bit sums: the bound on costs/prizes is needed (C02_total_cost_overflow_refuted)."
  },
  {
   "property": "C03",
   "status": "proved",
   "theorems": [
    "C03_collapse_sound",
    "C03_negative_prize_refuted",
    "C03_negative_cost_refuted"
   ],
   "note": ""
  },
  {
   "property": "C04",
   "status": "proved",
   "theorems": [
    "C04_path_extension_sound",
    "C04_path_extension_tour",
    "C04_extension_unitary_loss_tour",
    "C04_rounds",
    "C04_step_too_long",
    "C04_counter_not_reached",
    "C04_front_not_root_refuted",
    "C04_negative_prize_refuted",
    "C04_step_zero_refuted",
    "C04_empty_tour_refuted"
   ],
   "note": "Includes absence of UB. Findings: UB if the tour does not start at the root, with negative prizes, or with step size 0; std::length_error on the empty tour (\u2026_refuted)."
  },
  {
   "property": "C05",
   "status": "proved",
   "theorems": [
    "C05_until_sound",
    "C05_rounds"
   ],
   "note": ""
  },
  {
   "property": "C06",
   "status": "proved",
   "theorems": [
    "C06_combined_sound",
    "C06_rounds",
    "C06_single_vertex"
   ],
   "note": ""
  },
  {
   "property": "C07",
   "status": "proved",
   "theorems": [
    "C07_unitary_gain_sound",
    "C07_unitary_gain_prize"
   ],
   "note": "Every inserted vertex is a best insertion (maximal binary32 gain, first in order) and its gain is above the average of the first round; on return no positive gain is above it."
  },
  {
   "property": "C08",
   "status": "proved",
   "theorems": [
    "C08_until_quota_or_stuck",
    "C08_not_a_walk",
    "C08_empty_tour_refuted"
   ],
   "note": "The attempt counter is never the reason for stopping; empty tour is UB (C08_empty_tour_refuted)."
  },
  {
   "property": "C09",
   "status": "proved",
   "theorems": [
    "C09_bfs_exact",
    "C09_dfs",
    "C09_dfs_depth_limit_refuted"
   ],
   "note": "The sibling depthFirstSearch does not have the property (C09_dfs_depth_limit_refuted)."
  },
  {
   "property": "C10",
   "status": "proved",
   "theorems": [
    "C10_dijkstra_blacklist",
    "C10_dijkstra_simple_graph",
    "C10_pick_exists"
   ],
   "note": ""
  },
  {
   "property": "C11",
   "status": "proved",
   "theorems": [
    "C11_exact_with_loops",
    "C11_exact_without_loops",
    "C11_parallel_edges_refuted",
    "C11_prize_row",
    "C11_no_root_loop"
   ],
   "note": "For graphs without parallel edges, with a self-loop on every vertex or on none. Refuted for parallel edges (C11_parallel_edges_refuted)."
  },
  {
   "property": "C12",
   "status": "proved",
   "theorems": [
    "C12_subtour_rows_valid",
    "C12_wrong_sets_rejected"
   ],
   "note": "Both forms of the cut; graphs with a self-loop on every vertex."
  },
  {
   "property": "C13",
   "status": "proved",
   "theorems": [
    "C13_disjoint_tours_separated",
    "C13_count_of_added_rows_refuted"
   ],
   "note": "Assumes SCIP accepts violated rows (SCIPisCutEfficacious). The counter also counts rows that are not accepted (C13_count_of_added_rows_refuted)."
  },
  {
   "property": "C14",
   "status": "proved",
   "theorems": [
    "C14_cover_row_valid",
    "C14_separation",
    "C14_check_exact",
    "C14_negative_prize_refuted",
    "C14_root_outside_refuted",
    "C14_counter_refuted"
   ],
   "note": "Non-negative prizes and root in the set are needed (C14_negative_prize_refuted, C14_root_outside_refuted); the handler's counter is wrong (C14_counter_refuted)."
  },
  {
   "property": "C15",
   "status": "proved",
   "theorems": [
    "C15_distances_exact",
    "C15_shortest_path_covers_valid",
    "C15_given_bounds_valid",
    "C15_rows_bind",
    "C15_unreachable_vertex_refuted",
    "C15_short_distances_refuted",
    "C15_cost_map_ignored_refuted"
   ],
   "note": "Bounds from shortestPathDistances exact on the component of the root; a vertex the root does not reach overflows (C15_unreachable_vertex_refuted), the cost_map argument is ignored (C15_cost_map_ignored_refuted), short bound vectors are UB (C15_short_distances_refuted)."
  },
  {
   "property": "C16",
   "status": "proved",
   "theorems": [
    "C16_is_simple_cycle_exact",
    "C16_is_simple_cycle_multigraph",
    "C16_parallel_edges_refuted",
    "C16_graph_self_loop_refuted",
    "C16_graph_simple_cycle_exact"
   ],
   "note": "Exact for graphs without parallel edges; two parallel edges are accepted (C16_parallel_edges_refuted), isGraphSimpleCycle accepts one vertex with a self-loop."
  },
  {
   "property": "C17",
   "status": "proved",
   "theorems": [
    "C17_rename_edges_bijection",
    "C17_rename_vertices_bijection",
    "C17_round_trip",
    "C17_reused_lookup_refuted"
   ],
   "note": "Only for a fresh lookup: with a non-empty one numbers collide (C17_reused_lookup_refuted)."
  },
  {
   "property": "C18",
   "status": "partial",
   "theorems": [
    "C18_component_vectors",
    "C18_connected_components",
    "C18_non_singular_refuted",
    "C18_non_singular_exact"
   ],
   "note": "Proved for getConnectedComponentsVectors; false of getNonSingularConnectedComponentVectors (C18_non_singular_refuted; C18_non_singular_exact says what it returns and when that is right)."
  },
  {
   "property": "C19",
   "status": "proved",
   "theorems": [
    "C19_has_self_loops_exact",
    "C19_preprocessing",
    "C19_partial_loops_refuted"
   ],
   "note": "Refuted for graphs with self-loops on some but not all vertices: uninitialised constraint entries (C19_partial_loops_refuted)."
  },
  {
   "property": "C20",
   "status": "proved",
   "theorems": [
    "C20_heuristic_solution_feasible",
    "C20_tour_edges_lost_refuted"
   ],
   "note": "addHeuristicTourToSolver, used nowhere, loses the tour edges (C20_tour_edges_lost_refuted)."
  },
  {
   "property": "C21",
   "status": "proved",
   "theorems": [
    "C21_cut_exact",
    "C21_edge_list",
    "C21_induced_exact",
    "C21_parallel_edges_refuted"
   ],
   "note": "With parallel edges getEdgesInducedByVertices misses some (C21_parallel_edges_refuted)."
  },
  {
   "property": "C22",
   "status": "proved",
   "theorems": [
    "C22_reachable_partition",
    "C22_residual_is_minimum_cut"
   ],
   "note": "Searches exact for every network and weight vector; for the residual of a maximum flow the split is a minimum cut."
  },
  {
   "property": "C23",
   "status": "proved",
   "theorems": [
    "C23_rolling_list_is_suffix",
    "C23_disabled",
    "C23_tailing_off_exact"
   ],
   "note": ""
  },
  {
   "property": "C24",
   "status": "proved",
   "theorems": [
    "C24_relpscost_first",
    "C24_strong_order",
    "C24_tree_top",
    "C24_other_strategies_unchanged",
    "C24_default_depth",
    "C24_names",
    "C24_pscost_refuted",
    "C24_fullstrong_missing_refuted",
    "C24_fullstrong_needed",
    "C24_third_place_refuted"
   ],
   "note": "PSCOST has no effect (C24_pscost_refuted); STRONG_AT_TREE_TOP without fullstrong installed uses a null pointer (C24_fullstrong_missing_refuted)."
  },
  {
   "property": "C25",
   "status": "proved",
   "theorems": [
    "C25_shown_like_python",
    "C25_boost_numbers",
    "C25_other_levels",
    "C25_monotone_refuted"
   ],
   "note": "Exact on the six levels; on all integers the mapping is not monotone (C25_monotone_refuted)."
  },
  {
   "property": "C26",
   "status": "partial",
   "theorems": [
    "C26_yaml_reader",
    "C26_python_reader",
    "C26_no_file",
    "C26_node_csv",
    "C26_bounds_csv",
    "C26_numbers_read_back",
    "C26_yaml_round_trip_partial",
    "C26_yaml_round_trip_refuted",
    "C26_python_reads_yaml",
    "C26_missing_file_refuted",
    "C26_stamps_injective",
    "C26_stamps_unpadded_refuted",
    "C26_stamps_local_refuted"
   ],
   "note": "CSV part proved. The YAML reader exchanges two fields (C26_yaml_round_trip_partial gives the exact result, C26_yaml_round_trip_refuted a witness); the Python reader does not. Reading a missing file is undefined in C++ instead of the exception that is meant (C26_missing_file_refuted). Time stamps: unpadded milliseconds, local time labelled Z (refuted)."
  },
  {
   "property": "C27",
   "status": "partial",
   "theorems": [
    "C27_summary",
    "C27_read_range",
    "C27_read",
    "C27_counts_kept_partial",
    "C27_last_write",
    "C27_never_written",
    "C27_counts_lost_refuted",
    "C27_counts_lost_everywhere",
    "C27_entry_missing_refuted",
    "C27_increment_unannounced_refuted"
   ],
   "note": "False in general: a node event at the largest number so far writes the entry again (C27_counts_lost_refuted, C27_counts_lost_everywhere). Proved: the exact contents of every entry, and the full claim when no entry is written after cuts were counted in it."
  },
  {
   "property": "C28",
   "status": "proved",
   "theorems": [
    "C28_records",
    "C28_ordered",
    "C28_contiguous_refuted"
   ],
   "note": "Consecutive intervals do not touch exactly (C28_contiguous_refuted): the clock is read twice per event."
  },
  {
   "property": "C29",
   "status": "proved",
   "theorems": [
    "C29_choose_optimal",
    "C29_smallest_loss"
   ],
   "note": "Bit-exact binary32 losses; ties resolved to the first index."
  },
  {
   "property": "C30",
   "status": "proved",
   "theorems": [
    "C30_subpath_exact",
    "C30_subpath_walk_nodup",
    "C30_past_end"
   ],
   "note": ""
  },
  {
   "property": "C31",
   "status": "proved",
   "theorems": [
    "C31_swap_forward",
    "C31_swap_wrapping",
    "C31_swap_closed",
    "C31_swap_wrapping_refuted"
   ],
   "note": "UB when a wrapping path avoids the front of the tour (C31_swap_wrapping_refuted)."
  },
  {
   "property": "C32",
   "status": "proved",
   "theorems": [
    "C32_self_loops",
    "C32_edges_from_pairs",
    "C32_edge_variables",
    "C32_vertices_of_edges",
    "C32_unknown_vertex_refuted"
   ],
   "note": "A vertex outside the graph is undefined behaviour, not an exception (C32_unknown_vertex_refuted)."
  },
  {
   "property": "C33",
   "status": "proved",
   "theorems": [
    "C33_prize_feasible_exact",
    "C33_closed_tour_refuted"
   ],
   "note": "A closed tour counts its first vertex twice (C33_closed_tour_refuted)."
  },
  {
   "property": "C34",
   "status": "proved",
   "theorems": [
    "C34_counter_exact",
    "C34_separation_monotone",
    "C34_stays_forbidden",
    "C34_distinct_refuted"
   ],
   "note": "The counter counts rows, not distinct rows: the same cover is counted again every call (C34_distinct_refuted)."
  },
  {
   "property": "C35",
   "status": "proved",
   "theorems": [
    "C35_prize_on_self_loops",
    "C35_cycle_weight_is_prize"
   ],
   "note": ""
  },
  {
   "property": "C36",
   "status": "proved",
   "theorems": [
    "C36_solution_edges_exact",
    "C36_solution_vertices_exact",
    "C36_extractions_agree",
    "C36_solution_graph_exact",
    "C36_integral_exact",
    "C36_tolerance_refuted"
   ],
   "note": "Positive means above SCIP's tolerance 1e-9; at fractional points below it the extractions differ (C36_tolerance_refuted)."
  },
  {
   "property": "C37",
   "status": "proved",
   "theorems": [
    "C37_degree",
    "C37_remove_leaves",
    "C37_recursion_limit_refuted"
   ],
   "note": "Recursion limit an explicit parameter; long paths exhaust it (C37_recursion_limit_refuted)."
  },
  {
   "property": "C38",
   "status": "proved",
   "theorems": [
    "C38_tour_from_disjoint_paths",
    "C38_errors",
    "C38_single_edge_refuted"
   ],
   "note": "Both paths the same single edge: the tour goes there and back (C38_single_edge_refuted)."
  },
  {
   "property": "C39",
   "status": "proved",
   "theorems": [
    "C39_suurballes_heuristic",
    "C39_tour_initialization",
    "C39_fallback_not_simple_refuted",
    "C39_trivial_entry_refuted"
   ],
   "note": "The fallback tour need not be simple (C39_fallback_not_simple_refuted); one trivial entry raises ValueError for all (C39_trivial_entry_refuted)."
  },
  {
   "property": "C40",
   "status": "proved",
   "theorems": [
    "C40_find_cycle"
   ],
   "note": "For every iteration order of Python sets and neighbour order."
  },
  {
   "property": "C41",
   "status": "proved",
   "theorems": [
    "C41_is_ancestor",
    "C41_recursion_limit"
   ],
   "note": "Recursion limit an explicit parameter; exact (C41_recursion_limit)."
  },
  {
   "property": "C42",
   "status": "proved",
   "theorems": [
    "C42_shortest_path_tree",
    "C42_adjusted_costs",
    "C42_pair_cost"
   ],
   "note": "Dijkstra's result (networkx) taken by its specification."
  },
  {
   "property": "C43",
   "status": "proved",
   "theorems": [
    "C43_nbatches_app",
    "C43_read_results",
    "C43_nbatches",
    "C43_nbatches_large_refuted",
    "C43_batch_size_zero",
    "C43_batches_cover",
    "C43_run_all_batches",
    "C43_each_vial_once",
    "C43_missing_vials",
    "C43_infeasible_vials",
    "C43_infeasible_raises_refuted",
    "C43_bad_fields_raise_refuted",
    "C43_rerun_missing",
    "C43_only_missing_batches_refuted"
   ],
   "note": "Below 2^53 vials (C43_nbatches_large_refuted beyond). run_batch(only_missing_results=True) at consecutive offsets skips vials (C43_only_missing_batches_refuted); unreadable files make the filters raise (C43_infeasible_raises_refuted, C43_bad_fields_raise_refuted). Loading and solving a vial are parameters."
  },
  {
   "property": "C44",
   "status": "proved",
   "theorems": [
    "C44_graph_of_caller",
    "C44_arguments",
    "C44_options_reach",
    "C44_path_extension_swapped",
    "C44_path_extension_does_nothing",
    "C44_option_range",
    "C44_path_extension_options_refuted"
   ],
   "note": "path_extension swaps its two options (C44_path_extension_options_refuted, C44_path_extension_does_nothing)."
  },
  {
   "property": "C45",
   "status": "proved",
   "theorems": [
    "C45_fill_exact",
    "C45_row_value",
    "C45_row_not_efficacious",
    "C45_cutoff_lost_refuted"
   ],
   "note": "A later row of the same round overwrites a cutoff (C45_cutoff_lost_refuted)."
  },
  {
   "property": "C46",
   "status": "proved",
   "theorems": [
    "C46_rows_valid",
    "C46_capacities_aligned",
    "C46_capacity_precision",
    "C46_small_cuts_found",
    "C46_exact_for_full_vertices",
    "C46_separate_subtour_valid",
    "C46_connected_points_separated",
    "C46_root_without_edge_refuted",
    "C46_capacities_misaligned_refuted",
    "C46_rounded_flow_refuted",
    "C46_light_vertex_refuted",
    "C46_violated_missed_refuted"
   ],
   "note": "Flow library: any residuals for validity, maximum flows for completeness (checked for a concrete library in C46_case). Misaligned capacities when the support has another component (C46_capacities_misaligned_refuted), undefined behaviour when the root has no support edge (C46_root_without_edge_refuted), rows not violated because of rounding or y_v < 1 (C46_rounded_flow_refuted, C46_light_vertex_refuted), violated inequality missed for y_v < 1 (C46_violated_missed_refuted)."
  },
  {
   "property": "C47",
   "status": "partial",
   "theorems": [
    "C47_stop_condition_refuted",
    "C47_quota_not_consulted"
   ],
   "note": "The property is false of the code (C47_stop_condition_refuted: the prize is never updated in the loop). What it does instead: C47_quota_not_consulted, and the exact rounds in C05_rounds."
  },
  {
   "property": "C48",
   "status": "proved",
   "theorems": [
    "C48_collapse_locally_optimal"
   ],
   "note": ""
  },
  {
   "property": "C49",
   "status": "proved",
   "theorems": [
    "C49_until_complete_metric"
   ],
   "note": ""
  },
  {
   "property": "C50",
   "status": "partial",
   "theorems": [
    "C50_profitable_insertion_ignored_refuted",
    "C50_negative_increase_never_inserted",
    "C50_only_profitable_stuck"
   ],
   "note": "The property is false of the code (C50_profitable_insertion_ignored_refuted); proved: an inserted vertex never lowers the cost, and when every possible insertion would lower it nothing is inserted (C50_only_profitable_stuck)."
  },
  {
   "property": "C51",
   "status": "partial",
   "theorems": [
    "C51_single_candidate_refuted",
    "C51_single_candidate_never_inserted",
    "C51_inserts_iff_above_average"
   ],
   "note": "The claim is false of the code (C51_single_candidate_refuted); for every graph and tour a single outside vertex is never inserted (C51_single_candidate_never_inserted), and something is inserted exactly when a positive gain exceeds the average (C51_inserts_iff_above_average)."
  },
  {
   "property": "C52",
   "status": "proved",
   "theorems": [
    "C52_maps_filled",
    "C52_collapse",
    "C52_path_extension",
    "C52_path_extension_until",
    "C52_path_extension_collapse",
    "C52_unitary_gain",
    "C52_extension_until",
    "C52_unknown_vertex_refuted",
    "C52_no_edge_refuted"
   ],
   "note": "Composition of C17 with C03-C08 for the six heuristic bindings. Vertices on no edge are UB (C52_unknown_vertex_refuted)."
  },
  {
   "property": "C53",
   "status": "proved",
   "theorems": [
    "C53_cutoffs",
    "C53_unknown_root",
    "C53_components",
    "C53_one_connected",
    "C53_run_preprocessing",
    "C53_single_block_refuted"
   ],
   "note": "networkx components and blocks taken by their specification; the two cutoff steps raise NotImplementedError. The block restriction can leave several blocks (C53_single_block_refuted)."
  },
  {
   "property": "C54",
   "status": "proved",
   "theorems": [
    "C54_errors",
    "C54_random_tour_complete_graph",
    "C54_random_pair",
    "C54_random_pair_result",
    "C54_single_pair_refuted",
    "C54_checked_pair_not_used_refuted"
   ],
   "note": "The random generator is an arbitrary sequence of draws. False parts: C54_single_pair_refuted, C54_checked_pair_not_used_refuted."
  },
  {
   "property": "C55",
   "status": "proved",
   "theorems": [
    "C55_not_optimal_refuted",
    "C55_pair_missed_refuted",
    "C55_not_disjoint_refuted",
    "C55_split_graphs",
    "C55_recursion_limit",
    "C55_unknown_target",
    "C55_remove",
    "C55_no_parent"
   ],
   "note": "Proved in full on split graphs (C55_split_graphs). False for general graphs (three refutations by running the full model): edges are skipped while a list changes under a for loop."
  },
  {
   "property": "C56",
   "status": "proved",
   "theorems": [
    "C56_empty_maps",
    "C56_suurballes_heuristic",
    "C56_options",
    "C56_path_extension_collapse",
    "C56_extension_collapse",
    "C56_bfs_start",
    "C56_no_cycle_refuted",
    "C56_extension_dropped_refuted",
    "C56_collapse_option_ignored_refuted",
    "C56_collapse_option_ignored",
    "C56_extension_not_implemented_refuted"
   ],
   "note": "Closed starting tour proved for the breadth-first starts, and for the Suurballe starts when a pair is feasible (C59_heuristic_start; false otherwise: C59_heuristic_not_simple_refuted). False parts: C56_extension_dropped_refuted, C56_no_cycle_refuted, C56_collapse_option_ignored_refuted, C56_extension_not_implemented_refuted."
  },
  {
   "property": "C57",
   "status": "proved",
   "theorems": [
    "C57_optimal",
    "C57_binding_optimal",
    "C57_counts",
    "C57_start_below_quota_refuted",
    "C57_basic_no_solution_refuted"
   ],
   "note": "SCIP taken by stated assumptions (Spec_Solve: scip_run, scip_finished). False parts: C57_start_below_quota_refuted, C57_basic_no_solution_refuted."
  },
  {
   "property": "C58",
   "status": "proved",
   "theorems": [
    "C58_dictionary_model",
    "C58_unknown_edge"
   ],
   "note": ""
  },
  {
   "property": "C59",
   "status": "proved",
   "theorems": [
    "C59_disjoint_maps",
    "C59_tour_bounds",
    "C59_root_entry",
    "C59_suurballes_heuristic",
    "C59_tour_initialization",
    "C59_heuristic_start",
    "C59_root_bound_refuted",
    "C59_solver_cuts_off_refuted",
    "C59_start_not_simple_refuted",
    "C59_heuristic_not_simple_refuted"
   ],
   "note": "The functions of tspwplib on split vertices (not in /repo) taken by specification (Spec_Split). False parts: C59_root_bound_refuted, C59_solver_cuts_off_refuted, C59_start_not_simple_refuted, C59_heuristic_not_simple_refuted."
  },
  {
   "property": "C60",
   "status": "proved",
   "theorems": [
    "C60_fields",
    "C60_errors",
    "C60_max_cost",
    "C60_max_cost_refuted",
    "C60_ratio_refuted"
   ],
   "note": "The functions of tspwplib on split vertices taken by specification; metricness (tspwplib) left out. False parts: C60_max_cost_refuted (for a numbering of the split vertices that meets the specification), C60_ratio_refuted."
  },
  {
   "property": "C61",
   "status": "proved",
   "theorems": [
    "C61_result",
    "C61_exact",
    "C61_heuristic",
    "C61_suurballes_heuristic",
    "C61_bfs_path_extension",
    "C61_bfs_extension",
    "C61_not_implemented",
    "C61_missing_option",
    "C61_disjoint_paths_cut_refuted"
   ],
   "note": "SCIP, tspwplib's order_edge_list and is_pctsp_yes_instance, and the split graph taken by specification (Spec_RunAlg: lab_ok, maps_call; Spec_Solve). False part: C61_disjoint_paths_cut_refuted."
  },
  {
   "property": "C62",
   "status": "proved",
   "theorems": [
    "C62_vials",
    "C62_vials_count",
    "C62_tspwplib_data",
    "C62_londonaq_data",
    "C62_data_count",
    "C62_experiment",
    "C62_distinct",
    "C62_settings",
    "C62_command_settings",
    "C62_runnable",
    "C62_relaxation_refuted",
    "C62_baseline",
    "C62_simple_branch_cut",
    "C62_collapse_ignored",
    "C62_options_ignored",
    "C62_commands",
    "C62_commands_not_implemented"
   ],
   "note": "The files of the data sets and uuid4 are parameters; exactness for the experiments without cost-cover rows (for the others see C61_exact). False parts: C62_relaxation_refuted, C62_collapse_ignored, C62_options_ignored, C62_commands_not_implemented."
  },
  {
   "property": "C63",
   "status": "proved",
   "theorems": [
    "C63_flat_dict",
    "C63_heuristics",
    "C63_branch_cut",
    "C63_feasible",
    "C63_feasible_is_tour",
    "C63_feasible_is_tour_refuted",
    "C63_no_results",
    "C63_no_stats",
    "C63_bad_result",
    "C63_bad_stats",
    "C63_every_result_refuted",
    "C63_distinct_refuted",
    "C63_all",
    "C63_all_refuted"
   ],
   "note": "pandas (data frames, merge, assignment of columns) is taken by specification; csv text itself is not modelled. False parts: C63_feasible_is_tour_refuted, C63_every_result_refuted, C63_distinct_refuted, C63_all_refuted, C63_no_results."
  },
  {
   "property": "C64",
   "status": "proved",
   "theorems": [
    "C64_script",
    "C64_two_days_refuted",
    "C64_script_errors",
    "C64_no_vials_refuted",
    "C64_negative_size_refuted",
    "C64_tasks",
    "C64_rerun",
    "C64_remake_refuted",
    "C64_vial",
    "C64_vial_errors"
   ],
   "note": "Tasks run one after the other, in any order; Slurm itself (what an array range means) is taken by specification. Reading a problem is assumed not to raise. False parts: C64_two_days_refuted, C64_no_vials_refuted, C64_negative_size_refuted, C64_remake_refuted; exceptions in C64_script_errors, C64_vial_errors."
  },
  {
   "property": "C65",
   "status": "proved",
   "theorems": [
    "C65_cost_cover",
    "C65_tailing_off",
    "C65_experiment",
    "C65_other_experiments_refuted",
    "C65_empty_field",
    "C65_heuristics_bounds",
    "C65_heuristic_optimal",
    "C65_heuristic_optimal_refuted",
    "C65_heuristics_lines",
    "C65_heuristics_experiment",
    "C65_columns",
    "C65_objective",
    "C65_unknown_algorithm",
    "C65_heuristics_empty_field",
    "C65_count_refuted",
    "C65_infeasible_refuted",
    "C65_unknown_bound_refuted"
   ],
   "note": "Numbers of a table are exact rationals, NaN and infinities; labels and columns of the written tables are in C67 (heuristics_table does not write its file: the line is commented out, tables_app.py:544). False parts: C65_count_refuted, C65_infeasible_refuted, C65_unknown_bound_refuted, C65_heuristic_optimal_refuted, C65_other_experiments_refuted; C65_empty_field."
  },
  {
   "property": "C66",
   "status": "proved",
   "theorems": [
    "C66_answers",
    "C66_history_unique",
    "C66_never_branches",
    "C66_default",
    "C66_no_progress",
    "C66_large_numbers_refuted"
   ],
   "note": "SCIP chooses the calls; SCIPbranchLP and SCIPcomputeGap are taken as given. Numbers of nodes below 2^31-1 (C66_large_numbers_refuted beyond). The premise on an edge at the root is that of C46."
  },
  {
   "property": "C67",
   "status": "proved",
   "theorems": [
    "C67_distinct",
    "C67_labels",
    "C67_flat",
    "C67_multi",
    "C67_cost_cover",
    "C67_tailing_off",
    "C67_strategy_column_refuted",
    "C67_strategy_flat",
    "C67_strategy_multi",
    "C67_unsorted_refuted"
   ],
   "note": "The operations of pandas (replace, rename, unstack, swaplevel, sort_index, set_levels) are modelled as documented; rows are listed in order of their first occurrence. The LaTeX writer itself is not modelled. False parts: C67_strategy_column_refuted, C67_unsorted_refuted."
  },
  {
   "property": "C68",
   "status": "proved",
   "theorems": [
    "C68_statistics",
    "C68_londonaq_rows",
    "C68_tspwplib_rows",
    "C68_heuristics",
    "C68_londonaq",
    "C68_tspwplib",
    "C68_tspwplib_csv",
    "C68_all",
    "C68_all_new_directory",
    "C68_all_nowhere",
    "C68_all_stops",
    "C68_all_refuted"
   ],
   "note": "Loading of graphs, sparsify_uid, mst_cost and metricness (tspwplib) are parameters; get_graph_stats is C60. pandas as documented; which exception it raises without the directory depends on its version and is a parameter. Csv files without rows are not modelled for cost cover. False parts: C68_all_refuted, and the exact results in C68_all_new_directory, C68_all_nowhere, C68_all_stops."
  },
  {
   "property": "C69",
   "status": "proved",
   "theorems": [
    "C69_edges",
    "C69_edges_missing",
    "C69_edges_refuted",
    "C69_tour",
    "C69_in_order",
    "C69_tour_refuted",
    "C69_figures",
    "C69_stops",
    "C69_visible",
    "C69_categories",
    "C69_bands",
    "C69_no_colour",
    "C69_legend",
    "C69_visible_refuted",
    "C69_legend_refuted"
   ],
   "note": "Colours of vertices, fonts, sizes and margins are left out. What plotly does with a figure is taken from its documentation. False parts: C69_edges_refuted, C69_tour_refuted, C69_visible_refuted, C69_legend_refuted, with the exact results in C69_edges, C69_tour, C69_visible, C69_legend, C69_stops."
  },
  {
   "property": "C70",
   "status": "proved",
   "theorems": [
    "C70_counts",
    "C70_prize",
    "C70_left",
    "C70_made",
    "C70_left_early",
    "C70_pointers",
    "C70_pointers_copied",
    "C70_pointers_later",
    "C70_knapsack",
    "C70_knapsack_far",
    "C70_capsule",
    "C70_from_cpp",
    "C70_left_refuted",
    "C70_pointers_refuted",
    "C70_prize_refuted",
    "C70_capsule_refuted",
    "C70_knapsack_refuted"
   ],
   "note": "What SCIP counts (a capture by SCIPaddVar, SCIPaddCons, a linear constraint for each coefficient other than zero, SCIPsetMessagehdlr) and what pybind11 and PySCIPOpt count is taken from their documentation; the transformed problem inside SCIPsolve and the rows added there are SCIP's own. False parts: C70_left_refuted, C70_pointers_refuted, C70_prize_refuted, C70_capsule_refuted, C70_knapsack_refuted, with the exact results in C70_left, C70_left_early, C70_pointers_copied, C70_pointers_later, C70_prize, C70_capsule, C70_knapsack, C70_knapsack_far."
  },
  {
   "property": "C71",
   "status": "proved",
   "theorems": [
    "C71_names",
    "C71_elsewhere",
    "C71_nmissing",
    "C71_infeasible",
    "C71_missing",
    "C71_setup",
    "C71_lab",
    "C71_lab_stops",
    "C71_batch",
    "C71_rerun",
    "C71_onerun",
    "C71_no_lab_dir",
    "C71_never_set_up",
    "C71_zip",
    "C71_roundtrip",
    "C71_definite",
    "C71_file_in_the_way",
    "C71_file_for_experiment",
    "C71_unreadable",
    "C71_unwritable",
    "C71_result_errors",
    "C71_write_errors",
    "C71_archive_errors",
    "C71_reading_refuted",
    "C71_zip_again_refuted",
    "C71_unzip_refuted",
    "C71_setup_again_refuted",
    "C71_onerun_again_refuted"
   ],
   "note": "File names, uuids and the effects of mkdir, open, make_archive and unpack_archive are taken from the documentation of Python; permissions and other processes are left out. False parts: C71_reading_refuted, C71_zip_again_refuted, C71_unzip_refuted, C71_setup_again_refuted, C71_onerun_again_refuted; the exact results are in C71_nmissing, C71_zip, C71_roundtrip, C71_setup, C71_onerun."
  },
  {
   "property": "C72",
   "status": "proved",
   "theorems": [
    "C72_fresh",
    "C72_frequency",
    "C72_distinct",
    "C72_transformed",
    "C72_again_handlers",
    "C72_again_constraints",
    "C72_again_events",
    "C72_again_rows",
    "C72_distances_refuted",
    "C72_larger_graph_refuted",
    "C72_switched_off_refuted",
    "C72_settings_refuted",
    "C72_defaults_refuted",
    "C72_events",
    "C72_events_go",
    "C72_cut_numbers",
    "C72_cut_numbers_without",
    "C72_enforce_order",
    "C72_check_order",
    "C72_enforce",
    "C72_never_invalid",
    "C72_invalid_refuted",
    "C72_check",
    "C72_accepted_checked",
    "C72_locks"
   ],
   "note": "What SCIP does with names that are there already, with plug-ins after an error, with events, priorities and results of callbacks is taken from its documentation and source; presolving is off in this code. Doubles are exact rationals except the gaps, of which only a comparison is used. False parts: C72_distances_refuted, C72_larger_graph_refuted, C72_switched_off_refuted, C72_settings_refuted, C72_defaults_refuted, C72_invalid_refuted, C72_cut_numbers_without, C72_frequency; the exact results are in C72_again_handlers, C72_again_constraints, C72_again_events, C72_again_rows, C72_enforce, C72_never_invalid, C72_cut_numbers."
  },
  {
   "property": "C73",
   "status": "proved",
   "theorems": [
    "C73_copies",
    "C73_level",
    "C73_command",
    "C73_level_zero",
    "C73_level_zero_refuted",
    "C73_default_logger",
    "C73_default_logger_refuted",
    "C73_all_tables",
    "C73_all_tables_refuted",
    "C73_preprocessing",
    "C73_error_text",
    "C73_error_text_refuted",
    "C73_error_class",
    "C73_error_caught",
    "C73_error_distinct",
    "C73_walk_error",
    "C73_gain_error",
    "C73_cost_error",
    "C73_cost_error_refuted",
    "C73_row_names",
    "C73_degree_names",
    "C73_variable_names",
    "C73_walk_string"
   ],
   "note": "The logging library of Python, the translation of exceptions by pybind11, and the names SCIP gives to variables without one are taken from their documentation and source. False parts: C73_level_zero_refuted, C73_default_logger_refuted, C73_all_tables_refuted, C73_error_text_refuted, C73_cost_error_refuted."
  },
  {
   "property": "C74",
   "status": "proved",
   "theorems": [
    "C74_reaches",
    "C74_type_error",
    "C74_null",
    "C74_rounding",
    "C74_time",
    "C74_whole_seconds",
    "C74_time_refuted",
    "C74_defaults",
    "C74_defaults_refuted",
    "C74_vials",
    "C74_never_simple",
    "C74_commands",
    "C74_same_flags",
    "C74_handlers"
   ],
   "note": "The exponents of floats are not limited: numbers out of the range of float are refused by SCIP as well, and limits below 2^-126 seconds are not treated. The threshold of the gap is not computed with and counted in thousandths. Priorities and depths of the rules in the simple case are those of SCIP. False parts: C74_time_refuted, C74_defaults_refuted, C74_null, C74_never_simple; the exact results are in C74_time, C74_defaults, C74_reaches, C74_vials."
  },
  {
   "property": "C75",
   "status": "proved",
   "theorems": [
    "C75_graph",
    "C75_loads",
    "C75_attributes",
    "C75_fair",
    "C75_no_directory",
    "C75_no_weight",
    "C75_rounds",
    "C75_refines_lab",
    "C75_table",
    "C75_sizes",
    "C75_experiments",
    "C75_experiments_refuted",
    "C75_londonaq_command",
    "C75_no_demand",
    "C75_tsplib_command",
    "C75_stale_prizes_refuted",
    "C75_demands_refuted"
   ],
   "note": "tspwplib (reading files, sparsify_uid, renaming attributes, cost functions) and networkx are taken by their documentation; files do not change during a run. False parts: C75_experiments_refuted, C75_stale_prizes_refuted, C75_demands_refuted."
  },
  {
   "property": "C76",
   "status": "proved",
   "theorems": [
    "C76_vertices",
    "C76_short",
    "C76_edges",
    "C76_induced",
    "C76_adjacent",
    "C76_adjacent_edges",
    "C76_edge",
    "C76_edge_refuted",
    "C76_hidden_refuted",
    "C76_count",
    "C76_copy",
    "C76_copy_refuted",
    "C76_print",
    "C76_log",
    "C76_log_null"
   ],
   "note": "The behaviour of boost::filtered_graph is taken from its header. The functions are used by the tests only. False parts: C76_edge_refuted, C76_hidden_refuted, C76_copy_refuted; C76_short, C76_log_null."
  },
  {
   "property": "C77",
   "status": "proved",
   "theorems": [
    "C77_exact",
    "C77_baseline",
    "C77_simple_branch_cut",
    "C77_heuristics",
    "C77_exact_beats",
    "C77_one_optimum",
    "C77_empty",
    "C77_loaded"
   ],
   "note": "networkx, tspwplib and SCIP by their documentation, as in C53, C61 and C75. The graph has a tour through the root, and sums stay in the range of int; with cost_cover_disjoint_paths the condition of C61 is needed (C61_disjoint_paths_cut_refuted)."
  },
  {
   "property": "C78",
   "status": "proved",
   "theorems": [
    "C78_prizes",
    "C78_prizes_stop",
    "C78_costs",
    "C78_costs_stop",
    "C78_graph",
    "C78_unknown",
    "C78_as_bindings",
    "C78_used_lookup_refuted"
   ],
   "note": "The file is not part of the build (its header does not exist), so the types of the lookup and of lists are taken from renaming.hh. Vertices in Python are natural numbers in the range of int. Unknown names are undefined behaviour (C78_unknown), and a lookup that was used before mixes names up (C78_used_lookup_refuted)."
  }
 ]
}