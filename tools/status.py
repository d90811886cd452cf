# Status overrides and notes used by gen_manifest.py
STATUS = {
 "C26": "partial",
 "C27": "partial",
 "C18": "partial",
 "C47": "partial",
 "C50": "partial",
 "C51": "partial",
}
NOTES = {
 "C24": "PSCOST has no effect (C24_pscost_refuted); STRONG_AT_TREE_TOP without fullstrong installed uses a null pointer (C24_fullstrong_missing_refuted).",
 "C25": "Exact on the six levels; on all integers the mapping is not monotone (C25_monotone_refuted).",
 "C26": "CSV part proved. The YAML reader exchanges two fields (C26_yaml_round_trip_partial gives the exact result, C26_yaml_round_trip_refuted a witness); the Python reader does not. Reading a missing file is undefined in C++ instead of the exception that is meant (C26_missing_file_refuted). Time stamps: unpadded milliseconds, local time labelled Z (refuted).",
 "C27": "False in general: a node event at the largest number so far writes the entry again (C27_counts_lost_refuted, C27_counts_lost_everywhere). Proved: the exact contents of every entry, and the full claim when no entry is written after cuts were counted in it.",
 "C28": "Consecutive intervals do not touch exactly (C28_contiguous_refuted): the clock is read twice per event.",
 "C22": "Searches exact for every network and weight vector; for the residual of a maximum flow the split is a minimum cut.",
 "C46": "Flow library: any residuals for validity, maximum flows for completeness (checked for a concrete library in C46_case). Misaligned capacities when the support has another component (C46_capacities_misaligned_refuted), undefined behaviour when the root has no support edge (C46_root_without_edge_refuted), rows not violated because of rounding or y_v < 1 (C46_rounded_flow_refuted, C46_light_vertex_refuted), violated inequality missed for y_v < 1 (C46_violated_missed_refuted).",
 "C15": "Bounds from shortestPathDistances exact on the component of the root; a vertex the root does not reach overflows (C15_unreachable_vertex_refuted), the cost_map argument is ignored (C15_cost_map_ignored_refuted), short bound vectors are UB (C15_short_distances_refuted).",
 "C34": "The counter counts rows, not distinct rows: the same cover is counted again every call (C34_distinct_refuted).",
 "C17": "Only for a fresh lookup: with a non-empty one numbers collide (C17_reused_lookup_refuted).",
 "C52": "Composition of C17 with C03-C08 for the six heuristic bindings. Vertices on no edge are UB (C52_unknown_vertex_refuted).",
 "C12": "Both forms of the cut; graphs with a self-loop on every vertex.",
 "C13": "Assumes SCIP accepts violated rows (SCIPisCutEfficacious). The counter also counts rows that are not accepted (C13_count_of_added_rows_refuted).",
 "C14": "Non-negative prizes and root in the set are needed (C14_negative_prize_refuted, C14_root_outside_refuted); the handler's counter is wrong (C14_counter_refuted).",
 "C18": "Proved for getConnectedComponentsVectors; false of getNonSingularConnectedComponentVectors (C18_non_singular_refuted; C18_non_singular_exact says what it returns and when that is right).",
 "C21": "With parallel edges getEdgesInducedByVertices misses some (C21_parallel_edges_refuted).",
 "C32": "A vertex outside the graph is undefined behaviour, not an exception (C32_unknown_vertex_refuted).",
 "C33": "A closed tour counts its first vertex twice (C33_closed_tour_refuted).",
 "C36": "Positive means above SCIP's tolerance 1e-9; at fractional points below it the extractions differ (C36_tolerance_refuted).",
 "C45": "A later row of the same round overwrites a cutoff (C45_cutoff_lost_refuted).",
 "C11": "For graphs without parallel edges, with a self-loop on every vertex or on none. Refuted for parallel edges (C11_parallel_edges_refuted).",
 "C19": "Refuted for graphs with self-loops on some but not all vertices: uninitialised constraint entries (C19_partial_loops_refuted).",
 "C20": "addHeuristicTourToSolver, used nowhere, loses the tour edges (C20_tour_edges_lost_refuted).",
 "C16": "Exact for graphs without parallel edges; two parallel edges are accepted (C16_parallel_edges_refuted), isGraphSimpleCycle accepts one vertex with a self-loop.",
 "C01": "Refuted when the root is not on the tour (C01_reorder_missing_root_refuted).",
 "C02": "32-bit sums: the bound on costs/prizes is needed (C02_total_cost_overflow_refuted).",
 "C09": "The sibling depthFirstSearch does not have the property (C09_dfs_depth_limit_refuted).",
 "C04": "Includes absence of UB. Findings: UB if the tour does not start at the root, with negative prizes, or with step size 0; std::length_error on the empty tour (…_refuted).",
 "C47": "The property is false of the code (C47_stop_condition_refuted: the prize is never updated in the loop). What it does instead: C47_quota_not_consulted, and the exact rounds in C05_rounds.",
 "C07": "Every inserted vertex is a best insertion (maximal binary32 gain, first in order) and its gain is above the average of the first round; on return no positive gain is above it.",
 "C08": "The attempt counter is never the reason for stopping; empty tour is UB (C08_empty_tour_refuted).",
 "C50": "The property is false of the code (C50_profitable_insertion_ignored_refuted); proved: an inserted vertex never lowers the cost, and when every possible insertion would lower it nothing is inserted (C50_only_profitable_stuck).",
 "C51": "The claim is false of the code (C51_single_candidate_refuted); for every graph and tour a single outside vertex is never inserted (C51_single_candidate_never_inserted), and something is inserted exactly when a positive gain exceeds the average (C51_inserts_iff_above_average).",
 "C29": "Bit-exact binary32 losses; ties resolved to the first index.",
 "C31": "UB when a wrapping path avoids the front of the tour (C31_swap_wrapping_refuted).",
 "C37": "Recursion limit an explicit parameter; long paths exhaust it (C37_recursion_limit_refuted).",
 "C38": "Both paths the same single edge: the tour goes there and back (C38_single_edge_refuted).",
 "C39": "The fallback tour need not be simple (C39_fallback_not_simple_refuted); one trivial entry raises ValueError for all (C39_trivial_entry_refuted).",
 "C40": "For every iteration order of Python sets and neighbour order.",
 "C53": "networkx components and blocks taken by their specification; the two cutoff steps raise NotImplementedError. The block restriction can leave several blocks (C53_single_block_refuted).",
 "C54": "The random generator is an arbitrary sequence of draws. False parts: C54_single_pair_refuted, C54_checked_pair_not_used_refuted.",
 "C41": "Recursion limit an explicit parameter; exact (C41_recursion_limit).",
 "C42": "Dijkstra's result (networkx) taken by its specification.",
 "C55": "Proved in full on split graphs (C55_split_graphs). False for general graphs (three refutations by running the full model): edges are skipped while a list changes under a for loop.",
 "C43": "Below 2^53 vials (C43_nbatches_large_refuted beyond). run_batch(only_missing_results=True) at consecutive offsets skips vials (C43_only_missing_batches_refuted); unreadable files make the filters raise (C43_infeasible_raises_refuted, C43_bad_fields_raise_refuted). Loading and solving a vial are parameters.",
 "C44": "path_extension swaps its two options (C44_path_extension_options_refuted, C44_path_extension_does_nothing).",
 "C56": "Closed starting tour proved for the breadth-first starts, and for the Suurballe starts when a pair is feasible (C59_heuristic_start; false otherwise: C59_heuristic_not_simple_refuted). False parts: C56_extension_dropped_refuted, C56_no_cycle_refuted, C56_collapse_option_ignored_refuted, C56_extension_not_implemented_refuted.",
 "C59": "The functions of tspwplib on split vertices (not in /repo) taken by specification (Spec_Split). False parts: C59_root_bound_refuted, C59_solver_cuts_off_refuted, C59_start_not_simple_refuted, C59_heuristic_not_simple_refuted.",
 "C57": "SCIP taken by stated assumptions (Spec_Solve: scip_run, scip_finished). False parts: C57_start_below_quota_refuted, C57_basic_no_solution_refuted.",
 "C61": "SCIP, tspwplib's order_edge_list and is_pctsp_yes_instance, and the split graph taken by specification (Spec_RunAlg: lab_ok, maps_call; Spec_Solve). False part: C61_disjoint_paths_cut_refuted.",
 "C60": "The functions of tspwplib on split vertices taken by specification; metricness (tspwplib) left out. False parts: C60_max_cost_refuted (for a numbering of the split vertices that meets the specification), C60_ratio_refuted.",
 "C62": "The files of the data sets and uuid4 are parameters; exactness for the experiments without cost-cover rows (for the others see C61_exact). False parts: C62_relaxation_refuted, C62_collapse_ignored, C62_options_ignored, C62_commands_not_implemented.",
 "C63": "pandas (data frames, merge, assignment of columns) is taken by specification; csv text itself is not modelled. False parts: C63_feasible_is_tour_refuted, C63_every_result_refuted, C63_distinct_refuted, C63_all_refuted, C63_no_results.",
 "C64": "Tasks run one after the other, in any order; Slurm itself (what an array range means) is taken by specification. Reading a problem is assumed not to raise. False parts: C64_two_days_refuted, C64_no_vials_refuted, C64_negative_size_refuted, C64_remake_refuted; exceptions in C64_script_errors, C64_vial_errors.",
 "C65": "Numbers of a table are exact rationals, NaN and infinities; labels and columns of the written tables are in C67 (heuristics_table does not write its file: the line is commented out, tables_app.py:544). False parts: C65_count_refuted, C65_infeasible_refuted, C65_unknown_bound_refuted, C65_heuristic_optimal_refuted, C65_other_experiments_refuted; C65_empty_field.",
 "C66": "SCIP chooses the calls; SCIPbranchLP and SCIPcomputeGap are taken as given. Numbers of nodes below 2^31-1 (C66_large_numbers_refuted beyond). The premise on an edge at the root is that of C46.",
 "C67": "The operations of pandas (replace, rename, unstack, swaplevel, sort_index, set_levels) are modelled as documented; rows are listed in order of their first occurrence. The LaTeX writer itself is not modelled. False parts: C67_strategy_column_refuted, C67_unsorted_refuted.",
 "C68": "Loading of graphs, sparsify_uid, mst_cost and metricness (tspwplib) are parameters; get_graph_stats is C60. pandas as documented; which exception it raises without the directory depends on its version and is a parameter. Csv files without rows are not modelled for cost cover. False parts: C68_all_refuted, and the exact results in C68_all_new_directory, C68_all_nowhere, C68_all_stops.",
 "C69": "Colours of vertices, fonts, sizes and margins are left out. What plotly does with a figure is taken from its documentation. False parts: C69_edges_refuted, C69_tour_refuted, C69_visible_refuted, C69_legend_refuted, with the exact results in C69_edges, C69_tour, C69_visible, C69_legend, C69_stops.",
 "C70": "What SCIP counts (a capture by SCIPaddVar, SCIPaddCons, a linear constraint for each coefficient other than zero, SCIPsetMessagehdlr) and what pybind11 and PySCIPOpt count is taken from their documentation; the transformed problem inside SCIPsolve and the rows added there are SCIP's own. False parts: C70_left_refuted, C70_pointers_refuted, C70_prize_refuted, C70_capsule_refuted, C70_knapsack_refuted, with the exact results in C70_left, C70_left_early, C70_pointers_copied, C70_pointers_later, C70_prize, C70_capsule, C70_knapsack, C70_knapsack_far.",
 "C71": "File names, uuids and the effects of mkdir, open, make_archive and unpack_archive are taken from the documentation of Python; permissions and other processes are left out. False parts: C71_reading_refuted, C71_zip_again_refuted, C71_unzip_refuted, C71_setup_again_refuted, C71_onerun_again_refuted; the exact results are in C71_nmissing, C71_zip, C71_roundtrip, C71_setup, C71_onerun.",
 "C72": "What SCIP does with names that are there already, with plug-ins after an error, with events, priorities and results of callbacks is taken from its documentation and source; presolving is off in this code. Doubles are exact rationals except the gaps, of which only a comparison is used. False parts: C72_distances_refuted, C72_larger_graph_refuted, C72_switched_off_refuted, C72_settings_refuted, C72_defaults_refuted, C72_invalid_refuted, C72_cut_numbers_without, C72_frequency; the exact results are in C72_again_handlers, C72_again_constraints, C72_again_events, C72_again_rows, C72_enforce, C72_never_invalid, C72_cut_numbers.",
 "C73": "The logging library of Python, the translation of exceptions by pybind11, and the names SCIP gives to variables without one are taken from their documentation and source. False parts: C73_level_zero_refuted, C73_default_logger_refuted, C73_all_tables_refuted, C73_error_text_refuted, C73_cost_error_refuted.",
 "C74": "The exponents of floats are not limited: numbers out of the range of float are refused by SCIP as well, and limits below 2^-126 seconds are not treated. The threshold of the gap is not computed with and counted in thousandths. Priorities and depths of the rules in the simple case are those of SCIP. False parts: C74_time_refuted, C74_defaults_refuted, C74_null, C74_never_simple; the exact results are in C74_time, C74_defaults, C74_reaches, C74_vials.",
 "C75": "tspwplib (reading files, sparsify_uid, renaming attributes, cost functions) and networkx are taken by their documentation; files do not change during a run. False parts: C75_experiments_refuted, C75_stale_prizes_refuted, C75_demands_refuted.",
 "C76": "The behaviour of boost::filtered_graph is taken from its header. The functions are used by the tests only. False parts: C76_edge_refuted, C76_hidden_refuted, C76_copy_refuted; C76_short, C76_log_null.",
 "C77": "networkx, tspwplib and SCIP by their documentation, as in C53, C61 and C75. The graph has a tour through the root, and sums stay in the range of int; with cost_cover_disjoint_paths the condition of C61 is needed (C61_disjoint_paths_cut_refuted).",
 "C78": "The file is not part of the build (its header does not exist), so the types of the lookup and of lists are taken from renaming.hh. Vertices in Python are natural numbers in the range of int. Unknown names are undefined behaviour (C78_unknown), and a lookup that was used before mixes names up (C78_used_lookup_refuted).",
}
