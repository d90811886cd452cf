# Formal model of pctsp: design

Everything here is about a *model* of the code in /repo, written by reading the
source. Nothing in /repo was built or run. Each definition in a model file cites the
file and lines it models and states its simplifications.
(This file is put together by `tools/gen_design.py` from `tools/design_head.md`,
`tools/design_how.py`, `MANIFEST.json` and `properties.jsonl`.)

## Layout (`rocq/theories`)

* `Base.v` – outcome monad `res` (`Ok` / `Throw e` / `UB u` / `OutOfFuel`), 32-bit
  integer check, checked list access. `Graph.v` – the Boost graph as (vertex count,
  edge list in insertion order).
* `M_*.v` – the models, function by function, no proofs.
* `Spec.v`, `Spec_*.v` – the independent specification vocabulary (walk, walk cost,
  simple cycle, minimum cut, best insertion, optimal tour …). The statements of the
  properties use these files and the modelled API functions, not the helpers of the
  models.
* `P_*.v` – lemmas and proofs.
* `Properties_*.v` – the property theorems (`Cnn_…`), `Print Assumptions` beneath each,
  and beside each theorem an `Example` (`…_case`) with a concrete non-trivial input that
  meets the hypotheses.

Names: `Cnn_…_refuted` is the negation of something one would expect of the code,
proved with a witness (a finding); `Cnn_…_partial` is a theorem that covers only part
of the expected statement because the rest is false.

## Modelling decisions

* **Undefined behaviour** is an outcome (`UB`) distinct from normal results and from
  C++ exceptions: reading a vector out of bounds, dereferencing or advancing past
  `end()`, signed overflow, division by zero, reading an uninitialised variable, null
  dereference, `front()`/`back()` of an empty list. The positive theorems have the form
  `preconditions -> exists r, f … = Ok r /\ …`, so they include absence of undefined
  behaviour, absence of exceptions and termination.
* **Fuel**: a loop without a structural measure takes fuel and returns `OutOfFuel` when
  it runs out; the theorems show the result is `Ok`, so it never runs out.
* **Integers**: `int` is `Z` with a range check at each arithmetic result (`chk`);
  `unsigned int` counters wrap (`u32`); sizes and positions are `nat`.
* **Graph**: `boost::adjacency_list<listS, vecS, undirectedS>`; vertices `0..n-1`, edges
  identified by insertion position; out-edge lists in insertion order; `boost::edge(u,v)`
  returns the first matching out-edge of `u` and is UB if `u` is not a vertex.
* **Floats**: IEEE binary32 through `Coq.Floats.SpecFloat` (pure Gallina, no axiom),
  assuming `FLT_EVAL_METHOD = 0`. Values of SCIP variables are rationals (a numerator
  per variable over a common denominator); SCIP's tolerance 1e-9 is part of the model.
* **Priority-queue ties, hash, set or pointer order, random draws, clocks**: a function
  parameter or an arbitrary list, universally quantified in the theorems.
* **Python**: dictionaries are association lists, exceptions are outcomes, the
  recursion limit is a parameter. `networkx`, `tspwplib`, `json`, `pydantic` functions
  are taken by the specification stated beside their use.
* **SCIP** is taken by an explicit contract (`Spec_Solve.scip_run`, `scip_finished`,
  `accepted`): which points it may store as solutions, when it raises the best-solution
  event, at which points it calls separation, and what a completed search means. The
  contract is a hypothesis of C57 and nothing else rests on it. The max-flow library is
  an arbitrary function for validity (C46) and "returns a maximum flow" for completeness.

## Trusted base

* The kernel of Coq 8.16.1 (and `coqchk`).
* `Print Assumptions` answers "Closed under the global context" for **every** theorem
  `Cnn_…`: no axiom, neither ours nor the standard library's, is used. The command is
  run beneath each theorem during the build; `vcheck` runs `coqchk -o` on all files.
  (`coqchk` also lists the axioms of `Coq.ssr.ssrunder`, which the standard library
  loads for the rewrite tactics; no theorem uses them.)
* That the models say what the code does: by reading, with the simplifications stated
  in the comments; this is what mutation testing cannot check.
* The library specifications listed above (Boost graph, `boost::edge`,
  `boost::connected_components`, SCIP, networkx, the C++ standard library), as far as
  they are used.

## What is modelled

| /repo | modelled in | not modelled |
|---|---|---|
| include/pctsp/walk.hh | M_Walk, M_Dijkstra, M_Messages (`walkToString`) | – |
| include/pctsp/graph.hh, src/graph.cpp | Graph, M_Graph, M_Solution, M_Filter | – |
| include/pctsp/heuristic.hh, src/heuristic.cpp | M_Extension, M_Collapse, M_Gain, M_Float | logging; the code of Boost's Dijkstra (modelled as the textbook loop with any tie break) |
| include/pctsp/data_structures.hh, src/data_structures.cpp | M_Solution, M_Lifetime | – |
| include/pctsp/renaming.hh | M_Renaming, M_Messages (the pair named in the error) | – |
| include/pctsp/preprocessing.hh, src/preprocessing.cpp | M_ILP | – |
| include/pctsp/constraint.hh, include/pctsp/algorithms.hh, src/algorithms.cpp | M_ILP, M_Solve, M_Lifetime (ownership), M_Plugins (handlers), M_Settings (parameters) | – |
| include/pctsp/subtour_elimination.hh, src/subtour_elimination.cpp | M_Subtour, M_MaxFlow, M_Handler, M_Plugins | `scip_print` |
| include/pctsp/cycle_cover.hh, src/cycle_cover.cpp | M_CycleCover, M_Plugins | – |
| include/pctsp/cost_cover.hh, src/cost_cover.cpp | M_CostCover, M_Plugins | – |
| include/pctsp/solution.hh, src/solution.cpp, src/separation.cpp | M_Solution, M_Filter | – |
| src/sciputils.cpp, include/pctsp/sciputils.hh | M_Subtour, M_Messages (names) | – |
| include/pctsp/exception.hh | Base, M_Messages (texts, translation to Python) | – |
| src/branching.cpp | M_Branching | – |
| src/event_handlers.cpp, include/pctsp/event_handlers.hh | M_Events, M_NodeStats, M_Plugins | – |
| src/stats.cpp, include/pctsp/stats.hh, filepath.hh | M_Stats | `std::put_time`, the stream's decimal output of doubles (parameters) |
| src/logger.cpp | M_Logger | Boost.Log |
| pctsp/pypctsp.cpp | M_Renaming, M_PyWrap, M_Solve, M_Lifetime | pybind11's conversions other than the int range |
| src/knapsack.cpp | M_Lifetime | – |
| src/pygraph.cpp | M_PyGraph | its last function, whose template is in a header that does not exist; the file is not built |
| src/node_selection.cpp | – | three calls of SCIP's own include functions (algorithms.cpp:266); the order in which SCIP visits nodes is arbitrary in the models |
| pctsp/algorithms/*.py | M_Python, M_PyCycle, M_PyWrap, M_RunAlg | logging |
| pctsp/preprocessing/preprocessing.py | M_Python, M_DisjointMap | the two steps that raise NotImplementedError |
| pctsp/suurballe/suurballe.py | M_Suurballe | – |
| pctsp/lab/lab.py, pctsp/lab/run_algorithm.py | M_Lab, M_PyWrap, M_RunAlg, M_Settings, M_LabTree (files), M_Messages (loggers), M_Load (graphs of vials), M_Experiment (from graph to result) | parsing TSPLIB files |
| pctsp/vial, pctsp/utils | M_Lab (results, file names), M_Messages (`get_pctsp_logger`) | pydantic validation in general |
| pctsp/apps/dataset_app.py | M_Dataset, M_Summary, M_Load | parsing TSPLIB files, metricness |
| pctsp/compare | all, M_Compare | file paths |
| pctsp/apps, pctsp/plot | `main_app`: batches (M_Lab), Slurm script, missing and single vials (M_Slurm), choice of experiments, parameters of the commands (M_Compare); files and archives (M_LabTree with `utils_app`); `csv_app` (M_Csv); `tables_app` (M_Tables, M_Labels, M_Summary, M_Messages); `plot_app`, `plot_edges`, `plot_vertices`, `plot_graph`, `plot_tour` (M_Plot) | other command line code, the LaTeX writer |


## Properties: what is modelled and how it is proved

### C01 Re-rooting a tour is a rotation (proved)

Modelled: `ReorderTourFromRoot` and its iterators. Proof: rotation lemma on lists.
Theorems: `C01_reorder_rotates`.
Refuted expectations: `C01_reorder_missing_root_refuted`.
Note: Refuted when the root is not on the tour (C01_reorder_missing_root_refuted).

### C02 Walk cost and edge list are exact (proved)

Modelled: `getEdgesInWalk`, `totalCost`, `totalPrize`, `totalPrizeOfTour`. Proof: induction on the walk.
Theorems: `C02_edges_in_walk_exact`, `C02_edges_in_walk_throws_iff`, `C02_total_cost_exact`, `C02_total_cost_throws_iff`, `C02_total_prize_exact`, `C02_total_prize_of_tour_exact`, `C02_total_prize_of_graph_exact`.
Refuted expectations: `C02_total_cost_overflow_refuted`.
Note: 32-bit sums: the bound on costs/prizes is needed (C02_total_cost_overflow_refuted).

### C03 Collapse keeps a tour feasible and never makes it dearer (proved)

Modelled: `collapse` and all it calls, Dijkstra with any tie break. Proof: loop invariant over the reverse scan; C10 for the paths; C48 for what is examined.
Theorems: `C03_collapse_sound`.
Refuted expectations: `C03_negative_prize_refuted`, `C03_negative_cost_refuted`.

### C04 Path extension preserves tours and never loses prize (proved)

Modelled: `pathExtension` and all it calls, `extensionUnitaryLoss`. Proof: loop invariant (closed simple tour at the root), BFS paths are simple and disjoint; the sequence of rounds is specified exactly in Spec_Ext.
Theorems: `C04_path_extension_sound`, `C04_path_extension_tour`, `C04_extension_unitary_loss_tour`, `C04_rounds`, `C04_step_too_long`, `C04_counter_not_reached`.
Refuted expectations: `C04_front_not_root_refuted`, `C04_negative_prize_refuted`, `C04_step_zero_refuted`, `C04_empty_tour_refuted`.
Note: Includes absence of UB. Findings: UB if the tour does not start at the root, with negative prizes, or with step size 0; std::length_error on the empty tour (…_refuted).

### C05 Path extension until prize feasible preserves tours (proved)

Modelled: `pathExtensionUntilPrizeFeasible`. Proof: same invariant and the same exact rounds.
Theorems: `C05_until_sound`, `C05_rounds`.

### C06 The combined extension-collapse heuristic is sound (proved)

Modelled: `pathExtensionCollapse`. Proof: composition of C03–C05; exact sequence of rounds in Spec_Combined.
Theorems: `C06_combined_sound`, `C06_rounds`, `C06_single_vertex`.

### C07 Unitary-gain extension preserves tours (proved)

Modelled: `extensionUnitaryGain`. Proof: insertion invariant, measure = vertices outside the tour; binary32 gains.
Theorems: `C07_unitary_gain_sound`, `C07_unitary_gain_prize`.
Note: Every inserted vertex is a best insertion (maximal binary32 gain, first in order) and its gain is above the average of the first round; on return no positive gain is above it.

### C08 Extension until prize feasible reaches the quota or is stuck (proved)

Modelled: `extensionUntilPrizeFeasible`. Proof: same.
Theorems: `C08_until_quota_or_stuck`, `C08_not_a_walk`.
Refuted expectations: `C08_empty_tour_refuted`.
Note: The attempt counter is never the reason for stopping; empty tour is UB (C08_empty_tour_refuted).

### C09 Breadth-first search marks exactly the vertices within the depth limit (proved)

Modelled: `breadthFirstSearch`, `depthFirstSearch`, `pathInTreeFromParents`. Proof: level invariant; DFS by a stack/closure invariant.
Theorems: `C09_bfs_exact`, `C09_dfs`.
Refuted expectations: `C09_dfs_depth_limit_refuted`.
Note: The sibling depthFirstSearch does not have the property (C09_dfs_depth_limit_refuted).

### C10 Blacklist Dijkstra returns a least-cost path avoiding the blacklist (proved)

Modelled: `dijkstraShortestPathBlacklist` with its Boost visitor. Proof: Dijkstra invariant for every rule that picks a closest vertex.
Theorems: `C10_dijkstra_blacklist`, `C10_dijkstra_simple_graph`, `C10_pick_exists`.

### C11 The integer program is an exact formulation (proved)

Modelled: the rows built by constraint.hh and algorithms.hh, `isSolSimpleCycle`. Proof: degree-two subgraphs decompose into cycles; counting.
Theorems: `C11_exact_with_loops`, `C11_exact_without_loops`, `C11_prize_row`, `C11_no_root_loop`.
Refuted expectations: `C11_parallel_edges_refuted`.
Note: For graphs without parallel edges, with a self-loop on every vertex or on none. Refuted for parallel edges (C11_parallel_edges_refuted).

### C12 Subtour elimination cuts are valid (proved)

Modelled: rows of `addSubtourEliminationConstraint`. Proof: counting the edges of a cycle inside a set.
Theorems: `C12_subtour_rows_valid`, `C12_wrong_sets_rejected`.
Note: Both forms of the cut; graphs with a self-loop on every vertex.

### C13 Disjoint-tour separation cuts off every integral non-tour (proved)

Modelled: `PCTSPseparateDisjointTour`. Proof: component invariant; the row of a component without the root is violated.
Theorems: `C13_disjoint_tours_separated`.
Refuted expectations: `C13_count_of_added_rows_refuted`.
Note: Assumes SCIP accepts violated rows (SCIPisCutEfficacious). The counter also counts rows that are not accepted (C13_count_of_added_rows_refuted).

### C14 Cycle cover cuts are valid (proved)

Modelled: `addCycleCover`, its separation and check. Proof: counting, prize sums.
Theorems: `C14_cover_row_valid`, `C14_separation`, `C14_check_exact`.
Refuted expectations: `C14_negative_prize_refuted`, `C14_root_outside_refuted`, `C14_counter_refuted`.
Note: Non-negative prizes and root in the set are needed (C14_negative_prize_refuted, C14_root_outside_refuted); the handler's counter is wrong (C14_counter_refuted).

### C15 Cost cover cuts never remove an improving tour (proved)

Modelled: cost cover rows, `calculateShortestPathDistances`. Proof: two arcs of a cycle; Dijkstra distances are exact.
Theorems: `C15_distances_exact`, `C15_shortest_path_covers_valid`, `C15_given_bounds_valid`, `C15_rows_bind`.
Refuted expectations: `C15_unreachable_vertex_refuted`, `C15_short_distances_refuted`, `C15_cost_map_ignored_refuted`.
Note: Bounds from shortestPathDistances exact on the component of the root; a vertex the root does not reach overflows (C15_unreachable_vertex_refuted), the cost_map argument is ignored (C15_cost_map_ignored_refuted), short bound vectors are UB (C15_short_distances_refuted).

### C16 The simple-cycle check is exact (proved)

Modelled: `isSimpleCycle`, `isGraphSimpleCycle`. Proof: walk invariant of the search.
Theorems: `C16_is_simple_cycle_exact`, `C16_is_simple_cycle_multigraph`, `C16_graph_simple_cycle_exact`.
Refuted expectations: `C16_parallel_edges_refuted`, `C16_graph_self_loop_refuted`.
Note: Exact for graphs without parallel edges; two parallel edges are accepted (C16_parallel_edges_refuted), isGraphSimpleCycle accepts one vertex with a self-loop.

### C17 Vertex renaming is a bijection onto an initial segment (proved)

Modelled: `renaming.hh`. Proof: invariant of the two-way map.
Theorems: `C17_rename_edges_bijection`, `C17_rename_vertices_bijection`, `C17_round_trip`.
Refuted expectations: `C17_reused_lookup_refuted`.
Note: Only for a fresh lookup: with a non-empty one numbers collide (C17_reused_lookup_refuted).

### C18 Component vectors partition the vertices (partial)

Modelled: `getConnectedComponentsVectors`, `connected_components`, `getNonSingularConnectedComponentVectors`. Proof: induction over the fill loop; the last function is described exactly and refuted against its documentation.
Theorems: `C18_component_vectors`, `C18_connected_components`, `C18_non_singular_exact`.
Refuted expectations: `C18_non_singular_refuted`.
Note: Proved for getConnectedComponentsVectors; false of getNonSingularConnectedComponentVectors (C18_non_singular_refuted; C18_non_singular_exact says what it returns and when that is right).

### C19 Self-loop preprocessing is complete and idempotent (proved)

Modelled: `hasSelfLoopsOnAllVertices`, the preprocessing in `modelPrizeCollectingTSP`. Proof: induction over the vertices.
Theorems: `C19_has_self_loops_exact`, `C19_preprocessing`.
Refuted expectations: `C19_partial_loops_refuted`.
Note: Refuted for graphs with self-loops on some but not all vertices: uninitialised constraint entries (C19_partial_loops_refuted).

### C20 A heuristic tour is injected as a feasible solution (proved)

Modelled: injection of the heuristic solution. Proof: with C11: counting over the rows.
Theorems: `C20_heuristic_solution_feasible`.
Refuted expectations: `C20_tour_edges_lost_refuted`.
Note: addHeuristicTourToSolver, used nowhere, loses the tour edges (C20_tour_edges_lost_refuted).

### C21 Cut and induced edge sets are exact (proved)

Modelled: `getEdgesFromCut`, `getEdgesInducedByVertices`, the edge list. Proof: induction over the edge list.
Theorems: `C21_cut_exact`, `C21_edge_list`, `C21_induced_exact`.
Refuted expectations: `C21_parallel_edges_refuted`.
Note: With parallel edges getEdgesInducedByVertices misses some (C21_parallel_edges_refuted).

### C22 Residual reachability splits the vertex set (proved)

Modelled: residual reachability search. Proof: search invariant; max-flow min-cut.
Theorems: `C22_reachable_partition`, `C22_residual_is_minimum_cut`.
Note: Searches exact for every network and weight vector; for the residual of a maximum flow the split is a minimum cut.

### C23 Tailing-off detection looks at exactly the last rounds (proved)

Modelled: rolling list, `isNodeTailingOff`. Proof: induction over the history of pushes.
Theorems: `C23_rolling_list_is_suffix`, `C23_disabled`, `C23_tailing_off_exact`.

### C24 Branching strategies produce the documented priority order (proved)

Modelled: `setBranchingStrategy` on a table of rules. Proof: case analysis and maximum over any table.
Theorems: `C24_relpscost_first`, `C24_strong_order`, `C24_tree_top`, `C24_other_strategies_unchanged`, `C24_default_depth`, `C24_names`, `C24_fullstrong_needed`.
Refuted expectations: `C24_pscost_refuted`, `C24_fullstrong_missing_refuted`, `C24_third_place_refuted`.
Note: PSCOST has no effect (C24_pscost_refuted); STRONG_AT_TREE_TOP without fullstrong installed uses a null pointer (C24_fullstrong_missing_refuted).

### C25 Python logging levels map monotonically (proved)

Modelled: log level mapping. Proof: case analysis over all integers.
Theorems: `C25_shown_like_python`, `C25_boost_numbers`, `C25_other_levels`.
Refuted expectations: `C25_monotone_refuted`.
Note: Exact on the six levels; on all integers the mapping is not monotone (C25_monotone_refuted).

### C26 Statistics files are aligned and round-trip (partial)

Modelled: the three writers, the YAML reader, the Python reader. Proof: writing then reading, by induction over the rows and the digits of numbers; the readers answer exactly on the files that hold a summary, any other file is the exception of the library.
Theorems: `C26_yaml_reader`, `C26_python_reader`, `C26_no_file`, `C26_node_csv`, `C26_bounds_csv`, `C26_numbers_read_back`, `C26_yaml_round_trip_partial`, `C26_python_reads_yaml`, `C26_stamps_injective`.
Refuted expectations: `C26_yaml_round_trip_refuted`, `C26_missing_file_refuted`, `C26_stamps_unpadded_refuted`, `C26_stamps_local_refuted`.
Note: CSV part proved. The YAML reader exchanges two fields (C26_yaml_round_trip_partial gives the exact result, C26_yaml_round_trip_refuted a witness); the Python reader does not. Reading a missing file is undefined in C++ instead of the exception that is meant (C26_missing_file_refuted). Time stamps: unpadded milliseconds, local time labelled Z (refuted).

### C27 Per-node cut counts are never lost (partial)

Modelled: node event handler and increments, `getSummaryStatsFromSCIP`. Proof: induction over the event history; the summary field by field.
Theorems: `C27_summary`, `C27_read_range`, `C27_read`, `C27_counts_kept_partial`, `C27_last_write`, `C27_never_written`, `C27_counts_lost_everywhere`.
Refuted expectations: `C27_counts_lost_refuted`, `C27_entry_missing_refuted`, `C27_increment_unannounced_refuted`.
Note: False in general: a node event at the largest number so far writes the entry again (C27_counts_lost_refuted, C27_counts_lost_everywhere). Proved: the exact contents of every entry, and the full claim when no entry is written after cuts were counted in it.

### C28 Bound intervals are ordered and disjoint (proved)

Modelled: bounds event handler. Proof: induction over the event history.
Theorems: `C28_records`, `C28_ordered`.
Refuted expectations: `C28_contiguous_refuted`.
Note: Consecutive intervals do not touch exactly (C28_contiguous_refuted): the clock is read twice per event.

### C29 Unitary loss selection is optimal and safe (proved)

Modelled: `chooseExtensionPathFromCandidates`, `indexOfSmallestLoss`. Proof: induction over binary32 vectors.
Theorems: `C29_choose_optimal`, `C29_smallest_loss`.
Note: Bit-exact binary32 losses; ties resolved to the first index.

### C30 Sub-paths of a cycle (proved)

Modelled: `getSubpathOfCycle`. Proof: list arithmetic.
Theorems: `C30_subpath_exact`, `C30_subpath_walk_nodup`, `C30_past_end`.

### C31 Swapping a path in a tour is exact (proved)

Modelled: `swapPathsInTour`. Proof: list arithmetic.
Theorems: `C31_swap_forward`, `C31_swap_wrapping`, `C31_swap_closed`.
Refuted expectations: `C31_swap_wrapping_refuted`.
Note: UB when a wrapping path avoids the front of the tour (C31_swap_wrapping_refuted).

### C32 Every model-building lookup reports missing objects (proved)

Modelled: lookups used to build the model. Proof: induction over the request list.
Theorems: `C32_self_loops`, `C32_edges_from_pairs`, `C32_edge_variables`, `C32_vertices_of_edges`.
Refuted expectations: `C32_unknown_vertex_refuted`.
Note: A vertex outside the graph is undefined behaviour, not an exception (C32_unknown_vertex_refuted).

### C33 Prize feasibility of a vertex list (proved)

Modelled: `isPrizeFeasible`. Proof: sum over the list.
Theorems: `C33_prize_feasible_exact`.
Refuted expectations: `C33_closed_tour_refuted`.
Note: A closed tour counts its first vertex twice (C33_closed_tour_refuted).

### C34 Cost-cover counters and upper-bound updates (proved)

Modelled: cost cover counters and upper-bound updates. Proof: induction over the rounds, monotonicity.
Theorems: `C34_counter_exact`, `C34_separation_monotone`, `C34_stays_forbidden`.
Refuted expectations: `C34_distinct_refuted`.
Note: The counter counts rows, not distinct rows: the same cover is counted again every call (C34_distinct_refuted).

### C35 Prizes on self-loops add up to the visited prize (proved)

Modelled: `putPrizeOntoEdgeWeights`. Proof: each vertex of a cycle has one self-loop.
Theorems: `C35_prize_on_self_loops`, `C35_cycle_weight_is_prize`.

### C36 Integral solutions round-trip through solution extraction (proved)

Modelled: `getSolutionEdges`, `getSolutionVertices`, `getSolutionGraph`. Proof: filters; degree constraints at integral points.
Theorems: `C36_solution_edges_exact`, `C36_solution_vertices_exact`, `C36_extractions_agree`, `C36_solution_graph_exact`, `C36_integral_exact`.
Refuted expectations: `C36_tolerance_refuted`.
Note: Positive means above SCIP's tolerance 1e-9; at fractional points below it the extractions differ (C36_tolerance_refuted).

### C37 Leaf removal keeps every cycle (proved)

Modelled: `remove_leaves`. Proof: recursion to the 2-core; a cycle survives each round.
Theorems: `C37_degree`, `C37_remove_leaves`.
Refuted expectations: `C37_recursion_limit_refuted`.
Note: Recursion limit an explicit parameter; long paths exhaust it (C37_recursion_limit_refuted).

### C38 Initial tours built from disjoint paths are tours (proved)

Modelled: `tour_from_vertex_disjoint_paths`. Proof: list lemmas.
Theorems: `C38_tour_from_disjoint_paths`, `C38_errors`.
Refuted expectations: `C38_single_edge_refuted`.
Note: Both paths the same single edge: the tour goes there and back (C38_single_edge_refuted).

### C39 Suurballe heuristic picks the cheapest feasible starting tour (proved)

Modelled: `suurballes_heuristic`, `suurballes_tour_initialization`. Proof: fold invariant (minimum / maximum).
Theorems: `C39_suurballes_heuristic`, `C39_tour_initialization`.
Refuted expectations: `C39_fallback_not_simple_refuted`, `C39_trivial_entry_refuted`.
Note: The fallback tour need not be simple (C39_fallback_not_simple_refuted); one trivial entry raises ValueError for all (C39_trivial_entry_refuted).

### C40 BFS cycle search returns a cycle through the root (proved)

Modelled: `find_cycle_from_bfs`. Proof: BFS tree invariant for every iteration order.
Theorems: `C40_find_cycle`.
Note: For every iteration order of Python sets and neighbour order.

### C41 Ancestor test from pre/post order numbers is exact (proved)

Modelled: pre/post order numbering, `is_ancestor`. Proof: induction over the tree.
Theorems: `C41_is_ancestor`, `C41_recursion_limit`.
Note: Recursion limit an explicit parameter; exact (C41_recursion_limit).

### C42 Adjusted edge costs are non-negative and telescoping (proved)

Modelled: adjusted costs, `edge_disjoint_path_cost`. Proof: telescoping along a path.
Theorems: `C42_shortest_path_tree`, `C42_adjusted_costs`, `C42_pair_cost`.
Note: Dijkstra's result (networkx) taken by its specification.

### C43 Batches cover every vial exactly once (proved)

Modelled: `Lab` batches, result files, the nbatches command. Proof: ceiling division in binary64; list splitting; which files raise which exception.
Theorems: `C43_nbatches_app`, `C43_read_results`, `C43_nbatches`, `C43_batch_size_zero`, `C43_batches_cover`, `C43_run_all_batches`, `C43_each_vial_once`, `C43_missing_vials`, `C43_infeasible_vials`, `C43_rerun_missing`.
Refuted expectations: `C43_nbatches_large_refuted`, `C43_infeasible_raises_refuted`, `C43_bad_fields_raise_refuted`, `C43_only_missing_batches_refuted`.
Note: Below 2^53 vials (C43_nbatches_large_refuted beyond). run_batch(only_missing_results=True) at consecutive offsets skips vials (C43_only_missing_batches_refuted); unreadable files make the filters raise (C43_infeasible_raises_refuted, C43_bad_fields_raise_refuted). Loading and solving a vial are parameters.

### C44 Python wrapper options reach the C++ heuristics under their own names (proved)

Modelled: the Python wrappers of the bindings. Proof: computation for all arguments.
Theorems: `C44_graph_of_caller`, `C44_arguments`, `C44_options_reach`, `C44_path_extension_swapped`, `C44_path_extension_does_nothing`, `C44_option_range`.
Refuted expectations: `C44_path_extension_options_refuted`.
Note: path_extension swaps its two options (C44_path_extension_options_refuted, C44_path_extension_does_nothing).

### C45 Row capacity classification (proved)

Modelled: `sciputils.cpp`. Proof: induction over the variables.
Theorems: `C45_fill_exact`, `C45_row_value`, `C45_row_not_efficacious`.
Refuted expectations: `C45_cutoff_lost_refuted`.
Note: A later row of the same round overwrites a cutoff (C45_cutoff_lost_refuted).

### C46 Max-flow separation uses each edge's own capacity when the support is connected (proved)

Modelled: the max-flow separation. Proof: validity for any residuals; completeness from max-flow min-cut.
Theorems: `C46_rows_valid`, `C46_capacities_aligned`, `C46_capacity_precision`, `C46_small_cuts_found`, `C46_exact_for_full_vertices`, `C46_separate_subtour_valid`, `C46_connected_points_separated`.
Refuted expectations: `C46_root_without_edge_refuted`, `C46_capacities_misaligned_refuted`, `C46_rounded_flow_refuted`, `C46_light_vertex_refuted`, `C46_violated_missed_refuted`.
Note: Flow library: any residuals for validity, maximum flows for completeness (checked for a concrete library in C46_case). Misaligned capacities when the support has another component (C46_capacities_misaligned_refuted), undefined behaviour when the root has no support edge (C46_root_without_edge_refuted), rows not violated because of rounding or y_v < 1 (C46_rounded_flow_refuted, C46_light_vertex_refuted), violated inequality missed for y_v < 1 (C46_violated_missed_refuted).

### C47 Path extension until prize feasible stops at the quota (partial)

Modelled: `pathExtensionUntilPrizeFeasible`. Proof: the exact rounds do not depend on the quota; a witness where the loop passes the quota.
Theorems: `C47_quota_not_consulted`.
Refuted expectations: `C47_stop_condition_refuted`.
Note: The property is false of the code (C47_stop_condition_refuted: the prize is never updated in the loop). What it does instead: C47_quota_not_consulted, and the exact rounds in C05_rounds.

### C48 Collapse misses no single-vertex collapse (proved)

Modelled: `collapse`. Proof: invariant: the cheapest option seen so far.
Theorems: `C48_collapse_locally_optimal`.

### C49 On complete metric instances the unitary-gain extension always meets an attainable quota (proved)

Modelled: `extensionUntilPrizeFeasible`. Proof: triangle inequality gives every outside vertex a positive gain; C08.
Theorems: `C49_until_complete_metric`.

### C50 Insertions that make the tour cheaper are never passed over (partial)

Modelled: `extensionUntilPrizeFeasible`. Proof: sign of the binary32 gain.
Theorems: `C50_negative_increase_never_inserted`, `C50_only_profitable_stuck`.
Refuted expectations: `C50_profitable_insertion_ignored_refuted`.
Note: The property is false of the code (C50_profitable_insertion_ignored_refuted); proved: an inserted vertex never lowers the cost, and when every possible insertion would lower it nothing is inserted (C50_only_profitable_stuck).

### C51 Unitary-gain extension inserts a vertex when one has positive gain (partial)

Modelled: `extensionUnitaryGain`. Proof: the only gain equals the average: rounding gives canonical binary32 numbers, and dividing one by 1 returns it; the exact condition for an insertion from C07.
Theorems: `C51_single_candidate_never_inserted`, `C51_inserts_iff_above_average`.
Refuted expectations: `C51_single_candidate_refuted`.
Note: The claim is false of the code (C51_single_candidate_refuted); for every graph and tour a single outside vertex is never inserted (C51_single_candidate_never_inserted), and something is inserted exactly when a positive gain exceeds the average (C51_inserts_iff_above_average).

### C52 The heuristic bindings answer in the caller's terms (proved)

Modelled: the six heuristic bindings. Proof: renaming is a graph isomorphism; transport of C03–C08.
Theorems: `C52_maps_filled`, `C52_collapse`, `C52_path_extension`, `C52_path_extension_until`, `C52_path_extension_collapse`, `C52_unitary_gain`, `C52_extension_until`.
Refuted expectations: `C52_unknown_vertex_refuted`, `C52_no_edge_refuted`.
Note: Composition of C17 with C03-C08 for the six heuristic bindings. Vertices on no edge are UB (C52_unknown_vertex_refuted).

### C53 Preprocessing keeps the cycles through the root (proved)

Modelled: `run_preprocessing`. Proof: cycles through the root survive each step; the exceptions of an unknown root and of the cutoff switches.
Theorems: `C53_cutoffs`, `C53_unknown_root`, `C53_components`, `C53_one_connected`, `C53_run_preprocessing`.
Refuted expectations: `C53_single_block_refuted`.
Note: networkx components and blocks taken by their specification; the two cutoff steps raise NotImplementedError. The block restriction can leave several blocks (C53_single_block_refuted).

### C54 Random starting tours (proved)

Modelled: random tours. Proof: for every sequence of draws; the exceptions of a missing root.
Theorems: `C54_errors`, `C54_random_tour_complete_graph`, `C54_random_pair`, `C54_random_pair_result`.
Refuted expectations: `C54_single_pair_refuted`, `C54_checked_pair_not_used_refuted`.
Note: The random generator is an arbitrary sequence of draws. False parts: C54_single_pair_refuted, C54_checked_pair_not_used_refuted.

### C55 Suurballe's algorithm finds least-cost disjoint pairs (proved)

Modelled: `suurballe` complete. Proof: invariant of the main loop (forest of unlabelled vertices, non-tree edges grouped by component, tentative distances, causes); lower bound by a potential along any disjoint pair; the extracted walks by induction on the chain of causes; refutations by running the model.
Theorems: `C55_split_graphs`, `C55_recursion_limit`, `C55_unknown_target`, `C55_remove`, `C55_no_parent`.
Refuted expectations: `C55_not_optimal_refuted`, `C55_pair_missed_refuted`, `C55_not_disjoint_refuted`.
Note: Proved in full on split graphs (C55_split_graphs). False for general graphs (three refutations by running the full model): edges are skipped while a list changes under a for loop.

### C56 run_heuristic runs the named heuristic and returns a tour at the root (proved)

Modelled: `run_heuristic`. Proof: composition of C39, C40, C44, C52; empty maps and default options.
Theorems: `C56_empty_maps`, `C56_suurballes_heuristic`, `C56_options`, `C56_path_extension_collapse`, `C56_extension_collapse`, `C56_bfs_start`, `C56_collapse_option_ignored`.
Refuted expectations: `C56_no_cycle_refuted`, `C56_extension_dropped_refuted`, `C56_collapse_option_ignored_refuted`, `C56_extension_not_implemented_refuted`.
Note: Closed starting tour proved for the breadth-first starts, and for the Suurballe starts when a pair is feasible (C59_heuristic_start; false otherwise: C59_heuristic_not_simple_refuted). False parts: C56_extension_dropped_refuted, C56_no_cycle_refuted, C56_collapse_option_ignored_refuted, C56_extension_not_implemented_refuted.

### C57 Branch and cut returns an optimal tour (proved)

Modelled: `solvePrizeCollectingTSPBranchAndCut`, its binding and the plugins it installs. Proof: C11–C15, C20 and C46 with the contract of SCIP.
Theorems: `C57_optimal`, `C57_binding_optimal`, `C57_counts`.
Refuted expectations: `C57_start_below_quota_refuted`, `C57_basic_no_solution_refuted`.
Note: SCIP taken by stated assumptions (Spec_Solve: scip_run, scip_finished). False parts: C57_start_below_quota_refuted, C57_basic_no_solution_refuted.

### C58 The dictionary form of the model describes the given instance (proved)

Modelled: the dictionary overload of `modelPrizeCollectingTSP`. Proof: fold invariant: the last entry for an index wins.
Theorems: `C58_dictionary_model`, `C58_unknown_edge`.

### C59 Disjoint-path costs bound the tours, and the paths make starting tours (proved)

Modelled: the two maps of disjoint paths on split graphs, with the whole of `suurballe`. Proof: walks of the split graph correspond to walks of the graph; C55 on split graphs; a minimal pair has no closed walk of positive cost; a tour is a pair of vertex-disjoint paths; refutations by running the model up to the solver.
Theorems: `C59_disjoint_maps`, `C59_tour_bounds`, `C59_root_entry`, `C59_suurballes_heuristic`, `C59_tour_initialization`, `C59_heuristic_start`.
Refuted expectations: `C59_root_bound_refuted`, `C59_solver_cuts_off_refuted`, `C59_start_not_simple_refuted`, `C59_heuristic_not_simple_refuted`.
Note: The functions of tspwplib on split vertices (not in /repo) taken by specification (Spec_Split). False parts: C59_root_bound_refuted, C59_solver_cuts_off_refuted, C59_start_not_simple_refuted, C59_heuristic_not_simple_refuted.

### C60 Instance statistics are what their names say (proved)

Modelled: `get_graph_stats`. Proof: fold invariant of the loop over the pairs; sums over the edge list; C53 and C59 for the subgraph and the pairs; refutations by running the model.
Theorems: `C60_fields`, `C60_errors`, `C60_max_cost`.
Refuted expectations: `C60_max_cost_refuted`, `C60_ratio_refuted`.
Note: The functions of tspwplib on split vertices taken by specification; metricness (tspwplib) left out. False parts: C60_max_cost_refuted (for a numbering of the split vertices that meets the specification), C60_ratio_refuted.

### C61 The result of an experiment is a tour with its cost and prize (proved)

Modelled: `run_algorithm`, `solve_pctsp`. Proof: C57, C59 and C56 composed; the result from the edge list by permuting the edges of a tour; a refutation by running the model up to the solver.
Theorems: `C61_result`, `C61_exact`, `C61_heuristic`, `C61_suurballes_heuristic`, `C61_bfs_path_extension`, `C61_bfs_extension`, `C61_not_implemented`, `C61_missing_option`.
Refuted expectations: `C61_disjoint_paths_cut_refuted`.
Note: SCIP, tspwplib's order_edge_list and is_pctsp_yes_instance, and the split graph taken by specification (Spec_RunAlg: lab_ok, maps_call; Spec_Solve). False part: C61_disjoint_paths_cut_refuted.

### C62 An experiment has one vial for every combination of its settings, and every vial can be run (proved)

Modelled: `product_of_vials`, the data and parameter lists, every experiment, the lookup tables and the parameters of the commands. Proof: positions in a product of lists; every experiment by its lists; exactness by C61; ineffective options because the two runs are convertible.
Theorems: `C62_vials`, `C62_vials_count`, `C62_tspwplib_data`, `C62_londonaq_data`, `C62_data_count`, `C62_experiment`, `C62_distinct`, `C62_settings`, `C62_command_settings`, `C62_runnable`, `C62_baseline`, `C62_simple_branch_cut`, `C62_collapse_ignored`, `C62_options_ignored`, `C62_commands`, `C62_commands_not_implemented`.
Refuted expectations: `C62_relaxation_refuted`.
Note: The files of the data sets and uuid4 are parameters; exactness for the experiments without cost-cover rows (for the others see C61_exact). False parts: C62_relaxation_refuted, C62_collapse_ignored, C62_options_ignored, C62_commands_not_implemented.

### C63 The tables of results have one row for every vial with a result (proved)

Modelled: `flat_dict_from_vial`, the data frames and joins of pandas, the reading of results and statistics, both tables and the command that writes all of them. Proof: induction over the vials; a join on distinct keys gives one row for each common key; every added column by evaluation of a row.
Theorems: `C63_flat_dict`, `C63_heuristics`, `C63_branch_cut`, `C63_feasible`, `C63_feasible_is_tour`, `C63_no_results`, `C63_no_stats`, `C63_bad_result`, `C63_bad_stats`, `C63_all`.
Refuted expectations: `C63_feasible_is_tour_refuted`, `C63_every_result_refuted`, `C63_distinct_refuted`, `C63_all_refuted`.
Note: pandas (data frames, merge, assignment of columns) is taken by specification; csv text itself is not modelled. False parts: C63_feasible_is_tour_refuted, C63_every_result_refuted, C63_distinct_refuted, C63_all_refuted, C63_no_results.

### C64 The Slurm script runs every vial of the experiment once, whatever the order of its tasks (proved)

Modelled: the batch, slurm, missing and vial commands and the tasks of the script. Proof: the batches of permuted tasks are a permutation of the vials; C43; error bound of two roundings for the hours; refutations by running the model.
Theorems: `C64_script`, `C64_script_errors`, `C64_tasks`, `C64_rerun`, `C64_vial`, `C64_vial_errors`.
Refuted expectations: `C64_two_days_refuted`, `C64_no_vials_refuted`, `C64_negative_size_refuted`, `C64_remake_refuted`.
Note: Tasks run one after the other, in any order; Slurm itself (what an array range means) is taken by specification. Reading a problem is assumed not to raise. False parts: C64_two_days_refuted, C64_no_vials_refuted, C64_negative_size_refuted, C64_remake_refuted; exceptions in C64_script_errors, C64_vial_errors.

### C65 The lines of the LaTeX tables say what the results say (proved)

Modelled: tailing_off_table, cost_cover_table, get_heuristics_df and heuristics_table, from the rows of the csv files. Proof: counts and means over selected rows; groups with distinct keys; first entries of each kind; link to C62 and C63; refutations by running the model.
Theorems: `C65_cost_cover`, `C65_tailing_off`, `C65_experiment`, `C65_empty_field`, `C65_heuristics_bounds`, `C65_heuristic_optimal`, `C65_heuristics_lines`, `C65_heuristics_experiment`, `C65_columns`, `C65_objective`, `C65_unknown_algorithm`, `C65_heuristics_empty_field`.
Refuted expectations: `C65_other_experiments_refuted`, `C65_heuristic_optimal_refuted`, `C65_count_refuted`, `C65_infeasible_refuted`, `C65_unknown_bound_refuted`.
Note: Numbers of a table are exact rationals, NaN and infinities; labels and columns of the written tables are in C67 (heuristics_table does not write its file: the line is commented out, tables_app.py:544). False parts: C65_count_refuted, C65_infeasible_refuted, C65_unknown_bound_refuted, C65_heuristic_optimal_refuted, C65_other_experiments_refuted; C65_empty_field.

### C66 The subtour handler answers every call rightly, node by node (proved)

Modelled: the callbacks of PCTSPconshdlrSubtour as a machine whose state is the vector of gap lists and the rows in SCIP (M_Handler). Proof: invariant over the calls: the list of a node is what is kept of the gaps rejected there (Spec_Handler.rejected); C16, C23 and C46 for the single steps; refutation by running the model.
Theorems: `C66_answers`, `C66_history_unique`, `C66_never_branches`, `C66_default`, `C66_no_progress`.
Refuted expectations: `C66_large_numbers_refuted`.
Note: SCIP chooses the calls; SCIPbranchLP and SCIPcomputeGap are taken as given. Numbers of nodes below 2^31-1 (C66_large_numbers_refuted beyond). The premise on an edge at the root is that of C46.

### C67 The labels of the tables name the values beneath them (proved)

Modelled: DataFrames with one or several lines of headings, pretty_dataframe, unstack, swaplevel, sort_index and the ends of cost_cover_table and tailing_off_table (M_Labels). Proof: sorted columns have the codes of their numbers in the first block; labels as a function of the name by dictionaries without repetitions; refutations by running the model.
Theorems: `C67_distinct`, `C67_labels`, `C67_flat`, `C67_multi`, `C67_cost_cover`, `C67_tailing_off`, `C67_strategy_flat`, `C67_strategy_multi`.
Refuted expectations: `C67_strategy_column_refuted`, `C67_unsorted_refuted`.
Note: The operations of pandas (replace, rename, unstack, swaplevel, sort_index, set_levels) are modelled as documented; rows are listed in order of their first occurrence. The LaTeX writer itself is not modelled. False parts: C67_strategy_column_refuted, C67_unsorted_refuted.

### C68 The statistics and tables of the data sets, and the command for all tables (proved)

Modelled: stats_of_dataset, summarize_dataset and generate_all_tables with the csv files, the directory and the files in it (M_Summary). Proof: every step of the command writes one file or nothing, all under different names; the table of tspwplib by the labels of C67, groups and means of C65, and selection from the product of the lists; refutations by running the model.
Theorems: `C68_statistics`, `C68_londonaq_rows`, `C68_tspwplib_rows`, `C68_heuristics`, `C68_londonaq`, `C68_tspwplib`, `C68_tspwplib_csv`, `C68_all`, `C68_all_new_directory`, `C68_all_nowhere`, `C68_all_stops`.
Refuted expectations: `C68_all_refuted`.
Note: Loading of graphs, sparsify_uid, mst_cost and metricness (tspwplib) are parameters; get_graph_stats is C60. pandas as documented; which exception it raises without the directory depends on its version and is a parameter. Csv files without rows are not modelled for cost cover. False parts: C68_all_refuted, and the exact results in C68_all_new_directory, C68_all_nowhere, C68_all_stops.

### C69 The drawings of graphs and tours and the figures of the heuristics (proved)

Modelled: edge_scatter, tour_edges_trace, plot_heuristics_figure with the tables of vertices, edges and results (M_Plot); what plotly draws is in the specification: a line from each point to the next, and only what is within the axes. Proof: the consecutive pairs of a flattened list of pairs are the pairs and the joints between them; boxes by induction over the kappas, with the legend; refutations by running the model.
Theorems: `C69_edges`, `C69_edges_missing`, `C69_tour`, `C69_in_order`, `C69_figures`, `C69_stops`, `C69_visible`, `C69_categories`, `C69_bands`, `C69_no_colour`, `C69_legend`.
Refuted expectations: `C69_edges_refuted`, `C69_tour_refuted`, `C69_visible_refuted`, `C69_legend_refuted`.
Note: Colours of vertices, fonts, sizes and margins are left out. What plotly does with a figure is taken from its documentation. False parts: C69_edges_refuted, C69_tour_refuted, C69_visible_refuted, C69_legend_refuted, with the exact results in C69_edges, C69_tour, C69_visible, C69_legend, C69_stops.

### C70 Who owns what: reference counts and lifetimes of the objects given to SCIP and Python (proved)

Modelled: the captures and releases of lt_edge_variables, lt_prize, lt_linear, lt_solve, free_prob and lt_knapsack on a memory of counted variables and constraints, driven by the rows of model_pctsp and solve_setup; the trace of new, include and message handler calls; the addresses in the problem data; the references of the capsule (M_Lifetime). Proof: induction over the captures and releases with the counts as a function; the rows of the model use only edge variables; the traces and pointers by cases; refutations by running the model.
Theorems: `C70_counts`, `C70_prize`, `C70_left`, `C70_made`, `C70_left_early`, `C70_pointers`, `C70_pointers_copied`, `C70_pointers_later`, `C70_knapsack`, `C70_knapsack_far`, `C70_capsule`, `C70_from_cpp`.
Refuted expectations: `C70_left_refuted`, `C70_pointers_refuted`, `C70_prize_refuted`, `C70_capsule_refuted`, `C70_knapsack_refuted`.
Note: What SCIP counts (a capture by SCIPaddVar, SCIPaddCons, a linear constraint for each coefficient other than zero, SCIPsetMessagehdlr) and what pybind11 and PySCIPOpt count is taken from their documentation; the transformed problem inside SCIPsolve and the rows added there are SCIP's own. False parts: C70_left_refuted, C70_pointers_refuted, C70_prize_refuted, C70_capsule_refuted, C70_knapsack_refuted, with the exact results in C70_left, C70_left_early, C70_pointers_copied, C70_pointers_later, C70_prize, C70_capsule, C70_knapsack, C70_knapsack_far.

### C71 The files of a lab: what each command writes, and archives of experiments (proved)

Modelled: paths, directories, files with their contents and the tree of a lab; mkdir, writing, Lab.__init__, get_experiment_dir, get_vial_dir, reading and writing experiments and results, missing_vials, infeasible_vials, run_experiment_from_vial_list and the commands as functions on the tree that keep what was done before an exception; make_archive and unpack_archive (M_LabTree). Proof: a frame property closed under sequencing, loops and try; the loops refine those of C43 on the stored results; the round trip by an invariant that every path is either as before or as in the archive; a command that ends with a value or an exception for every tree by the same closure; refutations by running the model.
Theorems: `C71_names`, `C71_elsewhere`, `C71_nmissing`, `C71_infeasible`, `C71_missing`, `C71_setup`, `C71_lab`, `C71_lab_stops`, `C71_batch`, `C71_rerun`, `C71_onerun`, `C71_no_lab_dir`, `C71_never_set_up`, `C71_zip`, `C71_roundtrip`, `C71_definite`, `C71_file_in_the_way`, `C71_file_for_experiment`, `C71_unreadable`, `C71_unwritable`, `C71_result_errors`, `C71_write_errors`, `C71_archive_errors`.
Refuted expectations: `C71_reading_refuted`, `C71_zip_again_refuted`, `C71_unzip_refuted`, `C71_setup_again_refuted`, `C71_onerun_again_refuted`.
Note: File names, uuids and the effects of mkdir, open, make_archive and unpack_archive are taken from the documentation of Python; permissions and other processes are left out. False parts: C71_reading_refuted, C71_zip_again_refuted, C71_unzip_refuted, C71_setup_again_refuted, C71_onerun_again_refuted; the exact results are in C71_nmissing, C71_zip, C71_roundtrip, C71_setup, C71_onerun.

### C72 The handlers given to SCIP: which there are, whom SCIP tells what, and which solutions it accepts (proved)

Modelled: the tables of constraint and event handlers found by name, the range of their parameters that SCIP checks, the constructor arguments with names, priorities and flags, install with install_model and install_cover on any earlier state, trans_cons, the numbers of cost cover constraints; catching, dropping and executing events (run_phases); asking the active handlers in the order of their priorities (enforce_run, check_solution); locks of rows (M_Plugins). Proof: names found in lists in the order of inclusion, so that a call refines solve_setup on a new SCIP and appends what is missing on a used one; events by induction over the phases with the subscriptions as invariant; the order of handlers is determined by strictly falling priorities; enforcement refines the callbacks of C66 call by call; checks by the characterisation of tours by rows and subtour check of C11; locks by the degree rows; refutations by running the model.
Theorems: `C72_fresh`, `C72_frequency`, `C72_distinct`, `C72_transformed`, `C72_again_handlers`, `C72_again_constraints`, `C72_again_events`, `C72_again_rows`, `C72_events`, `C72_events_go`, `C72_cut_numbers`, `C72_cut_numbers_without`, `C72_enforce_order`, `C72_check_order`, `C72_enforce`, `C72_never_invalid`, `C72_check`, `C72_accepted_checked`, `C72_locks`.
Refuted expectations: `C72_distances_refuted`, `C72_larger_graph_refuted`, `C72_switched_off_refuted`, `C72_settings_refuted`, `C72_defaults_refuted`, `C72_invalid_refuted`.
Note: What SCIP does with names that are there already, with plug-ins after an error, with events, priorities and results of callbacks is taken from its documentation and source; presolving is off in this code. Doubles are exact rationals except the gaps, of which only a comparison is used. False parts: C72_distances_refuted, C72_larger_graph_refuted, C72_switched_off_refuted, C72_settings_refuted, C72_defaults_refuted, C72_invalid_refuted, C72_cut_numbers_without, C72_frequency; the exact results are in C72_again_handlers, C72_again_constraints, C72_again_events, C72_again_rows, C72_enforce, C72_never_invalid, C72_cut_numbers.

### C73 What the user is told: log lines, errors in Python, and names (proved)

Modelled: the registry of loggers with levels and handlers, the programs that ask for loggers and give messages, the messages of preprocessing and of the table command, the classes and texts of the exceptions with the translation of pybind11, the pairs that exceptions name, the names of variables, rows and constraints. Proof: the registry after any calls is described call by call, a message is counted along the prefixes of its name; names and texts are read back by cutting at characters that numbers do not contain; the pair named in an error is found by induction over the dictionary or walk, through the renaming.
Theorems: `C73_copies`, `C73_level`, `C73_command`, `C73_level_zero`, `C73_default_logger`, `C73_all_tables`, `C73_preprocessing`, `C73_error_text`, `C73_error_class`, `C73_error_caught`, `C73_error_distinct`, `C73_walk_error`, `C73_gain_error`, `C73_cost_error`, `C73_row_names`, `C73_degree_names`, `C73_variable_names`, `C73_walk_string`.
Refuted expectations: `C73_level_zero_refuted`, `C73_default_logger_refuted`, `C73_all_tables_refuted`, `C73_error_text_refuted`, `C73_cost_error_refuted`.
Note: The logging library of Python, the translation of exceptions by pybind11, and the names SCIP gives to variables without one are taken from their documentation and source. False parts: C73_level_zero_refuted, C73_default_logger_refuted, C73_all_tables_refuted, C73_error_text_refuted, C73_cost_error_refuted.

### C74 The settings of a run reach the solver (proved)

Modelled: the settings of run_algorithm, solve_pctsp with its defaults, the binding with its conversions, solvePrizeCollectingTSP and modelPrizeCollectingTSP with theirs, the rounding of the limit to float, the range that SCIP checks (M_Settings). Proof: one equation for calls with all numbers given, from which the places are read off; the order of the rules by C24; rounding by comparing with any other float in a common unit; the experiments by their settings in C62, the handlers by C72; refutations by running the model.
Theorems: `C74_reaches`, `C74_type_error`, `C74_null`, `C74_rounding`, `C74_time`, `C74_whole_seconds`, `C74_defaults`, `C74_vials`, `C74_never_simple`, `C74_commands`, `C74_same_flags`, `C74_handlers`.
Refuted expectations: `C74_time_refuted`, `C74_defaults_refuted`.
Note: The exponents of floats are not limited: numbers out of the range of float are refused by SCIP as well, and limits below 2^-126 seconds are not treated. The threshold of the gap is not computed with and counted in thousandths. Priorities and depths of the rules in the simple case are those of SCIP. False parts: C74_time_refuted, C74_defaults_refuted, C74_null, C74_never_simple; the exact results are in C74_time, C74_defaults, C74_reaches, C74_vials.

### C75 Every vial is run on the graph its data configuration describes (proved)

Modelled: the loading part of run_experiment_from_vial_list with the variable problem, the same for the tables, the vials of the commands tsplib and londonaq; tspwplib and networkx functions on attributes by their documentation, sparsify_uid and the cost functions as parameters (M_Load). Proof: the renamings by induction over the edges and vertices; the rounds by induction with the invariant that problem does not matter for good files; the rows of the tables by the loops of C68, the sizes by C60, the instances of the experiments by C62; refutations by running the model.
Theorems: `C75_graph`, `C75_loads`, `C75_attributes`, `C75_fair`, `C75_no_directory`, `C75_no_weight`, `C75_rounds`, `C75_refines_lab`, `C75_table`, `C75_sizes`, `C75_experiments`, `C75_londonaq_command`, `C75_no_demand`, `C75_tsplib_command`.
Refuted expectations: `C75_experiments_refuted`, `C75_stale_prizes_refuted`, `C75_demands_refuted`.
Note: tspwplib (reading files, sparsify_uid, renaming attributes, cost functions) and networkx are taken by their documentation; files do not change during a run. False parts: C75_experiments_refuted, C75_stale_prizes_refuted, C75_demands_refuted.

### C76 Views of a graph show its induced subgraph (proved)

Modelled: the filters, the view with the iterators and boost::edge as in boost/graph/filtered_graph.hpp, numEdgesInFilteredGraph, getVertexPairVectorFromGraph, printEdges, logSolutionEdges (M_Filter). Proof: the loops are filters of the lists; what passes is then compared with the end points of the edges; refutations by running the model.
Theorems: `C76_vertices`, `C76_short`, `C76_edges`, `C76_induced`, `C76_adjacent`, `C76_adjacent_edges`, `C76_edge`, `C76_count`, `C76_copy`, `C76_print`, `C76_log`, `C76_log_null`.
Refuted expectations: `C76_edge_refuted`, `C76_hidden_refuted`, `C76_copy_refuted`.
Note: The behaviour of boost::filtered_graph is taken from its header. The functions are used by the tests only. False parts: C76_edge_refuted, C76_hidden_refuted, C76_copy_refuted; C76_short, C76_log_null.

### C77 The result of a vial is right for the graph that was loaded (proved)

Modelled: run_algorithm as the lab calls it, joined to the models of loading, preprocessing and branch and cut (M_Experiment). Proof: tours of the graph of networkx and of the list of edges are translated into each other with their costs and prizes; preprocessing keeps the tours through the root and their edges are not more; then C61 and C62; rotation of tours for the comparison of vials.
Theorems: `C77_exact`, `C77_baseline`, `C77_simple_branch_cut`, `C77_heuristics`, `C77_exact_beats`, `C77_one_optimum`, `C77_empty`, `C77_loaded`.
Note: networkx, tspwplib and SCIP by their documentation, as in C53, C61 and C75. The graph has a tour through the root, and sums stay in the range of int; with cost_cover_disjoint_paths the condition of C61 is needed (C61_disjoint_paths_cut_refuted).

### C78 Graphs and maps from Python objects keep names, costs and prizes together (proved)

Modelled: the functions of src/pygraph.cpp (M_PyGraph). Proof: induction over the items of the dict, every step a write to a vector; names are replaced by positions with the lookup of C17; the bindings of pypctsp.cpp are compared step by step.
Theorems: `C78_prizes`, `C78_prizes_stop`, `C78_costs`, `C78_costs_stop`, `C78_graph`, `C78_unknown`, `C78_as_bindings`.
Refuted expectations: `C78_used_lookup_refuted`.
Note: The file is not part of the build (its header does not exist), so the types of the lookup and of lists are taken from renaming.hh. Vertices in Python are natural numbers in the range of int. Unknown names are undefined behaviour (C78_unknown), and a lookup that was used before mixes names up (C78_used_lookup_refuted).

## Findings (refuted theorems, with the comment above each)

* `C24_pscost_refuted` – PSCOST selects nothing: pscost may stay behind another rule.
* `C24_fullstrong_missing_refuted` – The tree top strategy without fullstrong installed uses a null pointer.
* `C24_third_place_refuted` – branching.cpp:94 says that rules of high priority are executed third: a rule of priority 2999 keeps it and so overtakes a rule that had more.
* `C25_monotone_refuted` – The mapping is not monotone on all integers: 45 shows more than 30 does, although python would show less.
* `C03_negative_prize_refuted` – With negative prizes the one-vertex path from a vertex to itself counts as a collapse and the result is no closed tour any more.
* `C03_negative_cost_refuted` – A negative cost met by the shortest-path search: [boost::negative_edge] leaves collapse.
* `C62_relaxation_refuted` – A third of the vials of disjoint_tours_vs_heuristics raise NotImplementedError.
* `C15_unreachable_vertex_refuted` – A vertex that cannot be reached makes the doubling overflow.
* `C15_short_distances_refuted` – Distances for fewer vertices than the graph has (for instance none, the default).
* `C15_cost_map_ignored_refuted` – The cost map argument is ignored: with a cost map other than the weights of the graph a tour cheaper than the bound is cut off.
* `C34_distinct_refuted` – The counter is not the number of different inequalities: each event adds the earlier ones again.
* `C63_feasible_is_tour_refuted` – C63: without a positive quota it does not: a result without any edge is called feasible, at cost 0.
* `C63_every_result_refuted` – C63: the table of branch and cut does not contain every result.
* `C63_distinct_refuted` – C63: two vials with one identifier give four rows.
* `C63_all_refuted` – C63: an experiment that was created but not run stops it before the next table.
* `C13_count_of_added_rows_refuted` – Rows SCIP does not find efficacious are counted as added all the same.
* `C14_negative_prize_refuted` – With a negative prize the row cuts off a tour that meets the quota.
* `C14_root_outside_refuted` – addCycleCover on a set without the root cuts off a tour that avoids the set.
* `C14_counter_refuted` – The handler counts a row when [result] already was SCIP_SEPARATED and none is added.
* `C18_non_singular_refuted` – getNonSingularConnectedComponentVectors returns the first vectors instead of the ones with more than one vertex.
* `C21_parallel_edges_refuted` – With parallel edges only the first of each bundle is returned.
* `C32_unknown_vertex_refuted` – A vertex that is not in the graph is read out of bounds, not reported.
* `C33_closed_tour_refuted` – A closed tour lists its first vertex twice and its prize is counted twice.
* `C36_tolerance_refuted` – At a fractional point of the degree rows the extractions can differ: here every edge has value 1e-9, which SCIP takes for zero, while the self loops are above that.
* `C45_cutoff_lost_refuted` – A cutoff is lost when the next row of the same separation round is feasible.
* `C16_parallel_edges_refuted` – The premise on parallel edges is needed: two parallel edges are accepted although there is no cycle with three vertices.
* `C16_graph_self_loop_refuted` – The sibling isGraphSimpleCycle accepts a single vertex with a self loop.
* `C60_max_cost_refuted` – max_disjoint_paths_cost is in general not the largest cost of a pair: the vertex with the largest prize is passed as if it were the biggest vertex id, so with this numbering the vertices above it are left out.
* `C60_ratio_refuted`
* `C31_swap_wrapping_refuted` – If the wrapped path avoids the front of the tour (which is legal when the root is elsewhere) the list iterator runs past the end.
* `C04_front_not_root_refuted` – The tour must start at the root: otherwise a path wrapping over the front of the tour is accepted and [last_index = i + step_size] runs past the end (heuristic.hh:293-297).
* `C04_negative_prize_refuted` – Prizes must be non-negative: shortcutting a negative prize next to the root is accepted and again the index runs past the end.
* `C04_step_zero_refuted` – The step size 0 must be excluded.
* `C04_empty_tour_refuted` – An empty tour makes the code create vectors of size -1: [std::length_error].
* `C47_stop_condition_refuted` – The documented stop condition does not hold: [t] is below the quota, one insertion gives [t1] which meets it (so [t1] would be returned unchanged), yet the function goes on and returns the dearer [t2].
* `C76_edge_refuted` – One expects [boost::edge] to find edges of the view only. With [||] in the filter of edges (graph.hh:413) it finds the edge to a vertex that is not in the view; and a vertex that is not in the view has neighbours there.
* `C76_hidden_refuted`
* `C76_copy_refuted` – One expects the same of all graphs; vertices without edges at the end are lost.
* `C08_empty_tour_refuted` – The empty tour is dereferenced.
* `C50_profitable_insertion_ignored_refuted` – ** C50 (refuted): a vertex whose insertion makes the tour cheaper is passed over, because the increase of the cost is negative and so is the gain.
* `C51_single_candidate_refuted` – ** C51 (refuted): with one outside vertex its gain is the average, so it is never above the average and nothing is inserted.
* `C66_large_numbers_refuted` – The numbers of nodes are cut to 32 bits: node 2^32 shares the history of node 0, node 2^31 makes the vector throw, and the largest int overflows.
* `C11_parallel_edges_refuted` – Parallel edges break the formulation: the degree rows name the first of them twice and the second never, so a cycle through the first is cut off.
* `C19_partial_loops_refuted` – A graph with a self loop on some but not all vertices gets a second loop there; the degree constraint of that vertex then has entries that were never written.
* `C20_tour_edges_lost_refuted` – addHeuristicTourToSolver (used nowhere) sets the self loops but no edge of the tour.
* `C43_nbatches_large_refuted` – Beyond the range a batch can be lost.
* `C43_infeasible_raises_refuted` – A truncated file (not JSON) makes infeasible_vials raise, although missing_vials handles it.
* `C43_bad_fields_raise_refuted` – A file with other fields makes both raise.
* `C43_only_missing_batches_refuted` – With only_missing_results=True the list of missing vials is computed anew for every batch and gets shorter, while the offsets grow: solvable vials are skipped.
* `C71_reading_refuted` – That the commands which only print leave the tree as it is: [nmissing] makes the directories of the vials.
* `C71_zip_again_refuted` – That zipping again cannot lose anything: after the directory is gone the archive is replaced by an empty one, and the results are lost.
* `C71_unzip_refuted` – That the directory after [unzip] is the archived one: what came after [zip] is still there.
* `C71_setup_again_refuted` – That [setup] for an experiment that was run keeps its results in view: the vials have new uuids, so all are missing, although the files of the old results are still there.
* `C71_onerun_again_refuted` – That the commands for one run collect their runs: the second replaces the vial and the result of the first in experiment.json and results.json.
* `C67_strategy_column_refuted` – If the strategy is a column, the numbers of the other columns are taken for strategies too.
* `C67_unsorted_refuted` – The columns as unstack leaves them, not sorted: the mean gaps are called times.
* `C70_left_refuted` – The claim that nothing is left after a call is false: the handler made for the cycle covers is not deleted when they are off.
* `C70_pointers_refuted` – The claim that the problem data can be read during the call, whatever the compiler does about the returned map, is false.
* `C70_prize_refuted` – The claim that [PCTSPaddPrizeConstraint] leaves the references of others alone is false: after a second prize constraint freeing the problem uses a variable after its end.
* `C70_capsule_refuted` – The claim that the binding reads the capsule while it exists is false for a model that keeps no reference to the capsule it returns.
* `C70_knapsack_refuted` – The claim that [knapsack] leaves nothing behind is false.
* `C75_experiments_refuted`
* `C75_stale_prizes_refuted` – One expects the prizes of a graph of londonaq to come from its file. If a demand is missing, they are the scores of the last instance of OPLib that was loaded before, and without one an UnboundLocalError stops all vials.
* `C75_demands_refuted` – One expects the prizes of an instance of OPLib to be its scores, as in the table. If all its vertices have demands, vials are run with these, and the table is about another graph.
* `C46_root_without_edge_refuted` – A root without support edge, which the model's root row excludes but a value within the tolerance of 0 does not: the name of the root is looked up past the end of the lookup.
* `C46_capacities_misaligned_refuted` – Support in more than one component: the capacities of the root's component are those of other edges (the vector is indexed by position among all support edges, line 353). Edge (2,3) of value 1/2 gets capacity 1; the set {3,4,5} of value 1 is missed for vertex 4 with y_4 = 1, and no violated row is added although the counter says two.
* `C46_rounded_flow_refuted`
* `C46_light_vertex_refuted`
* `C46_violated_missed_refuted`
* `C73_level_zero_refuted`
* `C73_default_logger_refuted`
* `C73_all_tables_refuted`
* `C73_error_text_refuted` – ... which two of them do: the vertex that is missing is not told.
* `C73_cost_error_refuted` – ... not by the names the caller gave them: here 3 and 0 are not joined, and the text denies the edge between 0 and 2, which is there.
* `C69_edges_refuted` – The claim that only edges are drawn is false: two sides of the square are joined by a diagonal.
* `C69_tour_refuted` – The claim that the drawing of a tour has lines between consecutive vertices only is false: the rows (0, 1) and (2, 3) of the tour 0, 1, 2, 3, 0 are drawn with the row (1, 2) after them, and so is the diagonal from 3 to 1.
* `C69_visible_refuted` – The claim that every gap can be seen is false: one of 19 in 2000 is in a box of each row, and outside of both axes.
* `C69_legend_refuted` – The claim that every figure has a legend is false, with the same rows.
* `C72_distances_refuted` – One expects the distances of the last call to be used: those of the first are.
* `C72_larger_graph_refuted` – With a larger graph these distances are read past their end.
* `C72_switched_off_refuted` – One expects a handler that is switched off to do nothing: it goes on adding rows when there is a better solution.
* `C72_settings_refuted` – One expects the settings of the last call for the subtour handler: those of the first stay.
* `C72_defaults_refuted` – One expects all of SCIP's plug-ins after a call that asks for them: the first that is there stops the rest.
* `C72_invalid_refuted` – One expects that the integral solutions of the model that are not a cycle are always just rejected. The first here is, and the second stops SCIP with an error.
* `C78_used_lookup_refuted` – With a lookup that is not empty the counter starts at 0 all the same: two names become one vertex, and an edge a loop.
* `C44_path_extension_options_refuted` – path_extension(..., path_depth_limit=2, step_size=1) does not do what the C++ function does with depth limit 2 and step size 1.
* `C56_no_cycle_refuted`
* `C56_extension_dropped_refuted` – The tour of extension_until_prize_feasible is dropped (run_algorithm.py:104): although it collects the quota, the heuristic returns a tour that does not.
* `C56_collapse_option_ignored_refuted`
* `C56_extension_not_implemented_refuted` – The algorithm "extension" counts as a heuristic (model_params.py:52) but is not implemented.
* `C37_recursion_limit_refuted` – However large the recursion limit of the interpreter is, there is a graph (a path) on which remove_leaves fails with RecursionError.
* `C53_single_block_refuted` – The documentation of remove_one_connected_components promises a graph whose vertices are all in one biconnected component. With two triangles sharing the root the result keeps both, and no simple cycle passes through vertices of both.
* `C38_single_edge_refuted` – When both paths are the same single edge the result goes there and back: two paths that are disjoint inside give a tour of three or more vertices only if one has an inside.
* `C39_fallback_not_simple_refuted` – The fallback of the initialisation does not check that the tour is simple.
* `C39_trivial_entry_refuted` – One unusable entry makes the whole heuristic fail, even if others are feasible.
* `C54_single_pair_refuted` – With exactly one pair the function always fails with IndexError, whatever the pair and the seed: after checking the vertex it draws another one from the empty list.
* `C54_checked_pair_not_used_refuted` – The pair that is checked is not the pair that is used: the first vertex drawn has a proper tour, the returned one goes there and back along one edge.
* `C17_reused_lookup_refuted` – The counter starts at 0 even if the lookup is not empty: the first new vertex collides, is not inserted, and is renamed to a number that belongs to another vertex.
* `C52_unknown_vertex_refuted` – A vertex that is on no edge of the call: undefined behaviour of the lookup.
* `C52_no_edge_refuted` – A cost for a pair that is no edge.
* `C61_disjoint_paths_cut_refuted` – With cost_cover_disjoint_paths the same vial returns an empty result although SCIP finished: the row for the root, whose entry is 4, is violated by every tour.
* `C74_time_refuted` – One expects every limit to arrive as it is, and a negative limit to stop the solver or be refused.
* `C74_defaults_refuted` – One expects them to agree on everything; they do not on the first branching rule, the threshold of the gap (1 and 10 thousandths), the plug-ins of SCIP, and the directory.
* `C64_two_days_refuted` – The name of the cap says two days in hours but its value is 172800, the seconds of two days: the script of 13 vials with the default limit of four hours asks for 53 hours.
* `C64_no_vials_refuted` – A script without tasks is written for an experiment without vials and for a negative batch size, and Slurm rejects it.
* `C64_negative_size_refuted`
* `C64_remake_refuted` – The tasks read the file of missing vials when they start: if missing is called again while the script runs, the file gets shorter and vials that could be solved are not run.
* `C57_start_below_quota_refuted`
* `C57_basic_no_solution_refuted` – The other two solvers of algorithms.cpp ask only whether the status is infeasible: stopped before the first solution they return the edges of the current LP solution, which need not be a tour, or read through a null pointer.
* `C59_root_bound_refuted`
* `C59_solver_cuts_off_refuted`
* `C59_start_not_simple_refuted`
* `C59_heuristic_not_simple_refuted`
* `C26_yaml_round_trip_refuted`
* `C26_missing_file_refuted` – Without the directory nothing is written, and reading what is not there is not the exception it is meant to be (stats.cpp:26) but undefined.
* `C26_stamps_unpadded_refuted` – The milliseconds are not padded: read as a decimal fraction, as ISO 8601 does, an earlier time gets a later text, and different times the same instant.
* `C26_stamps_local_refuted` – The text is local time but ends in Z: away from UTC it is the UTC text of another time.
* `C27_counts_lost_refuted` – Counts are lost: the event after the root was solved writes its entry again.
* `C27_entry_missing_refuted` – A node visited after one with a larger number has no entry of its own.
* `C27_increment_unannounced_refuted` – Counting before the first node event is undefined behaviour.
* `C28_contiguous_refuted` – An interval need not start when the one before ended.
* `C68_all_refuted` – C68: it is not so that the command writes every table that is due whenever it ends well: the directory is made, but not for the first table.
* `C55_not_optimal_refuted` – The reported cost is not always the least one: on the graph above two edge-disjoint walks of total cost 19 lead to vertex 1, the algorithm reports 34 and extracts a pair that is not optimal and not even a pair of paths (4 is visited twice). A list is changed while a for loop runs over it (suurballe.py:305,429), so edges are skipped.
* `C55_pair_missed_refuted`
* `C55_not_disjoint_refuted`
* `C65_other_experiments_refuted` – C65: for any other experiment no table is written, although the command offers them all.
* `C65_heuristic_optimal_refuted` – C65: but not the converse: one that finds a tour of cost 0, with a bound of 0, is not called optimal.
* `C65_count_refuted` – C65: a solution of cost 0 that the solver proved to be optimal is not counted as optimal.
* `C65_infeasible_refuted` – C65: the table of tailing off, which does not look at the status, counts an instance that was proved to have no solution as solved to optimality.
* `C65_unknown_bound_refuted` – C65: in that table the bound 10^20 of a run that found no solution enters the mean gap; in the other it does not.
* `C01_reorder_missing_root_refuted` – If the root is not on the tour the result is neither closed nor a walk of the graph, and does not start at the root: the precondition [In r t] cannot be dropped.
* `C02_total_cost_overflow_refuted` – Without a bound on the costs the sum overflows: the 32-bit accumulation is UB.
* `C09_dfs_depth_limit_refuted` – With a smaller limit [depthFirstSearch] does not have this property: a vertex within the limit may stay unmarked because a longer branch used it up first, and the parent of the source is never set, so paths cannot be read back.

## Findings outside the theorems (by reading)

* The `scip_lock` callbacks of the constraint handlers declare no locks, so SCIP's dual
  presolving could fix variables; presolving is switched off in this code (C72).
* `PCTSPcreateConsSubtour` passes an uninitialised pointer (`consdata`) to `SCIPcreateCons`;
  no callback of the handler reads it.
* `CycleCoverConshdlr::scip_enfolp` / `scip_enfops` do not set the result.
* `heuristics_table` sets a LaTeX format with three columns per algorithm for a table with
  four; its file is not written (tables_app.py:544 is a comment).
* `summary_df.index.rename(...)` (tables_app.py) discards its result.
* The label of `preprocessed_total_cost` lacks a closing dollar sign, and that of `min_gap` has
  a doubled backslash: LaTeX stops at the first and prints the second wrongly.
* `summarize_dataset` does not make the directory of the tables, the other commands do; the LaTeX
  of its tables has the names `graph_name` and `EUC_2D` with an underscore outside of math mode.
* `edge_scatter` puts no gap between the edges: plotly joins the end of each to the start of the
  next row, and a tour is drawn with chords unless its edges are in order in the table.
* Of the figures of the heuristics only the first has a legend; a gap between 0.009 and 0.01 is
  seen in neither row; the results of londonaq are needed and not drawn.
* `knapsack` solves a model and throws the solution away.
* `joinVariableNames` constructs a `VariableIsNullException` without throwing it, and asks SCIP for
  the name of a null variable next.
* One constructor of `CostCoverEventHandler` leaves its two counters unset (it is not used).
* The properties C18, C26, C27, C47, C50, C51 are marked partial because the code
  does not have them in full: the false part is refuted, the rest is proved.

## Testing the theorems against wrong programs

`seeded/LOG.jsonl` has one line per wrong program: a scratch copy of the development was
edited in one definition of a model, rebuilt, and the proofs that failed recorded. The
theorems named under `theorems_failed` are the property theorems that depend on the
proof that broke. Edits that broke nothing are either equivalent programs (the verdict
says why) or led to a stronger theorem (`theorems_tightened`), after which the edit was
tried again.
