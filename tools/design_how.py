# per property: (what is modelled, how it is proved)
HOW = {
"C01": ("`ReorderTourFromRoot` and its iterators", "rotation lemma on lists"),
"C02": ("`getEdgesInWalk`, `totalCost`, `totalPrize`, `totalPrizeOfTour`", "induction on the walk"),
"C03": ("`collapse` and all it calls, Dijkstra with any tie break", "loop invariant over the reverse scan; C10 for the paths; C48 for what is examined"),
"C04": ("`pathExtension` and all it calls, `extensionUnitaryLoss`", "loop invariant (closed simple tour at the root), BFS paths are simple and disjoint; the sequence of rounds is specified exactly in Spec_Ext"),
"C05": ("`pathExtensionUntilPrizeFeasible`", "same invariant and the same exact rounds"),
"C06": ("`pathExtensionCollapse`", "composition of C03–C05; exact sequence of rounds in Spec_Combined"),
"C07": ("`extensionUnitaryGain`", "insertion invariant, measure = vertices outside the tour; binary32 gains"),
"C08": ("`extensionUntilPrizeFeasible`", "same"),
"C09": ("`breadthFirstSearch`, `depthFirstSearch`, `pathInTreeFromParents`", "level invariant; DFS by a stack/closure invariant"),
"C10": ("`dijkstraShortestPathBlacklist` with its Boost visitor", "Dijkstra invariant for every rule that picks a closest vertex"),
"C11": ("the rows built by constraint.hh and algorithms.hh, `isSolSimpleCycle`", "degree-two subgraphs decompose into cycles; counting"),
"C12": ("rows of `addSubtourEliminationConstraint`", "counting the edges of a cycle inside a set"),
"C13": ("`PCTSPseparateDisjointTour`", "component invariant; the row of a component without the root is violated"),
"C14": ("`addCycleCover`, its separation and check", "counting, prize sums"),
"C15": ("cost cover rows, `calculateShortestPathDistances`", "two arcs of a cycle; Dijkstra distances are exact"),
"C16": ("`isSimpleCycle`, `isGraphSimpleCycle`", "walk invariant of the search"),
"C17": ("`renaming.hh`", "invariant of the two-way map"),
"C18": ("`getConnectedComponentsVectors`, `connected_components`, `getNonSingularConnectedComponentVectors`", "induction over the fill loop; the last function is described exactly and refuted against its documentation"),
"C19": ("`hasSelfLoopsOnAllVertices`, the preprocessing in `modelPrizeCollectingTSP`", "induction over the vertices"),
"C20": ("injection of the heuristic solution", "with C11: counting over the rows"),
"C21": ("`getEdgesFromCut`, `getEdgesInducedByVertices`, the edge list", "induction over the edge list"),
"C22": ("residual reachability search", "search invariant; max-flow min-cut"),
"C23": ("rolling list, `isNodeTailingOff`", "induction over the history of pushes"),
"C24": ("`setBranchingStrategy` on a table of rules", "case analysis and maximum over any table"),
"C25": ("log level mapping", "case analysis over all integers"),
"C26": ("the three writers, the YAML reader, the Python reader", "writing then reading, by induction over the rows and the digits of numbers; the readers answer exactly on the files that hold a summary, any other file is the exception of the library"),
"C27": ("node event handler and increments, `getSummaryStatsFromSCIP`", "induction over the event history; the summary field by field"),
"C28": ("bounds event handler", "induction over the event history"),
"C29": ("`chooseExtensionPathFromCandidates`, `indexOfSmallestLoss`", "induction over binary32 vectors"),
"C30": ("`getSubpathOfCycle`", "list arithmetic"),
"C31": ("`swapPathsInTour`", "list arithmetic"),
"C32": ("lookups used to build the model", "induction over the request list"),
"C33": ("`isPrizeFeasible`", "sum over the list"),
"C34": ("cost cover counters and upper-bound updates", "induction over the rounds, monotonicity"),
"C35": ("`putPrizeOntoEdgeWeights`", "each vertex of a cycle has one self-loop"),
"C36": ("`getSolutionEdges`, `getSolutionVertices`, `getSolutionGraph`", "filters; degree constraints at integral points"),
"C37": ("`remove_leaves`", "recursion to the 2-core; a cycle survives each round"),
"C38": ("`tour_from_vertex_disjoint_paths`", "list lemmas"),
"C39": ("`suurballes_heuristic`, `suurballes_tour_initialization`", "fold invariant (minimum / maximum)"),
"C40": ("`find_cycle_from_bfs`", "BFS tree invariant for every iteration order"),
"C41": ("pre/post order numbering, `is_ancestor`", "induction over the tree"),
"C42": ("adjusted costs, `edge_disjoint_path_cost`", "telescoping along a path"),
"C43": ("`Lab` batches, result files, the nbatches command", "ceiling division in binary64; list splitting; which files raise which exception"),
"C44": ("the Python wrappers of the bindings", "computation for all arguments"),
"C45": ("`sciputils.cpp`", "induction over the variables"),
"C46": ("the max-flow separation", "validity for any residuals; completeness from max-flow min-cut"),
"C47": ("`pathExtensionUntilPrizeFeasible`", "the exact rounds do not depend on the quota; a witness where the loop passes the quota"),
"C48": ("`collapse`", "invariant: the cheapest option seen so far"),
"C49": ("`extensionUntilPrizeFeasible`", "triangle inequality gives every outside vertex a positive gain; C08"),
"C50": ("`extensionUntilPrizeFeasible`", "sign of the binary32 gain"),
"C51": ("`extensionUnitaryGain`", "the only gain equals the average: rounding gives canonical binary32 numbers, and dividing one by 1 returns it; the exact condition for an insertion from C07"),
"C52": ("the six heuristic bindings", "renaming is a graph isomorphism; transport of C03–C08"),
"C53": ("`run_preprocessing`", "cycles through the root survive each step; the exceptions of an unknown root and of the cutoff switches"),
"C54": ("random tours", "for every sequence of draws; the exceptions of a missing root"),
"C55": ("`suurballe` complete", "invariant of the main loop (forest of unlabelled vertices, non-tree edges grouped by component, tentative distances, causes); lower bound by a potential along any disjoint pair; the extracted walks by induction on the chain of causes; refutations by running the model"),
"C56": ("`run_heuristic`", "composition of C39, C40, C44, C52; empty maps and default options"),
"C57": ("`solvePrizeCollectingTSPBranchAndCut`, its binding and the plugins it installs", "C11–C15, C20 and C46 with the contract of SCIP"),
"C58": ("the dictionary overload of `modelPrizeCollectingTSP`", "fold invariant: the last entry for an index wins"),
"C59": ("the two maps of disjoint paths on split graphs, with the whole of `suurballe`", "walks of the split graph correspond to walks of the graph; C55 on split graphs; a minimal pair has no closed walk of positive cost; a tour is a pair of vertex-disjoint paths; refutations by running the model up to the solver"),
"C60": ("`get_graph_stats`", "fold invariant of the loop over the pairs; sums over the edge list; C53 and C59 for the subgraph and the pairs; refutations by running the model"),
"C61": ("`run_algorithm`, `solve_pctsp`", "C57, C59 and C56 composed; the result from the edge list by permuting the edges of a tour; a refutation by running the model up to the solver"),
"C62": ("`product_of_vials`, the data and parameter lists, every experiment, the lookup tables and the parameters of the commands", "positions in a product of lists; every experiment by its lists; exactness by C61; ineffective options because the two runs are convertible"),
"C63": ("`flat_dict_from_vial`, the data frames and joins of pandas, the reading of results and statistics, both tables and the command that writes all of them", "induction over the vials; a join on distinct keys gives one row for each common key; every added column by evaluation of a row"),
"C64": ("the batch, slurm, missing and vial commands and the tasks of the script", "the batches of permuted tasks are a permutation of the vials; C43; error bound of two roundings for the hours; refutations by running the model"),
"C66": ("the callbacks of PCTSPconshdlrSubtour as a machine whose state is the vector of gap lists and the rows in SCIP (M_Handler)", "invariant over the calls: the list of a node is what is kept of the gaps rejected there (Spec_Handler.rejected); C16, C23 and C46 for the single steps; refutation by running the model"),
"C65": ("tailing_off_table, cost_cover_table, get_heuristics_df and heuristics_table, from the rows of the csv files", "counts and means over selected rows; groups with distinct keys; first entries of each kind; link to C62 and C63; refutations by running the model"),
"C67": ("DataFrames with one or several lines of headings, pretty_dataframe, unstack, swaplevel, sort_index and the ends of cost_cover_table and tailing_off_table (M_Labels)", "sorted columns have the codes of their numbers in the first block; labels as a function of the name by dictionaries without repetitions; refutations by running the model"),
"C68": ("stats_of_dataset, summarize_dataset and generate_all_tables with the csv files, the directory and the files in it (M_Summary)", "every step of the command writes one file or nothing, all under different names; the table of tspwplib by the labels of C67, groups and means of C65, and selection from the product of the lists; refutations by running the model"),
"C69": ("edge_scatter, tour_edges_trace, plot_heuristics_figure with the tables of vertices, edges and results (M_Plot); what plotly draws is in the specification: a line from each point to the next, and only what is within the axes", "the consecutive pairs of a flattened list of pairs are the pairs and the joints between them; boxes by induction over the kappas, with the legend; refutations by running the model"),
"C70": ("the captures and releases of lt_edge_variables, lt_prize, lt_linear, lt_solve, free_prob and lt_knapsack on a memory of counted variables and constraints, driven by the rows of model_pctsp and solve_setup; the trace of new, include and message handler calls; the addresses in the problem data; the references of the capsule (M_Lifetime)", "induction over the captures and releases with the counts as a function; the rows of the model use only edge variables; the traces and pointers by cases; refutations by running the model"),
"C71": ("paths, directories, files with their contents and the tree of a lab; mkdir, writing, Lab.__init__, get_experiment_dir, get_vial_dir, reading and writing experiments and results, missing_vials, infeasible_vials, run_experiment_from_vial_list and the commands as functions on the tree that keep what was done before an exception; make_archive and unpack_archive (M_LabTree)", "a frame property closed under sequencing, loops and try; the loops refine those of C43 on the stored results; the round trip by an invariant that every path is either as before or as in the archive; a command that ends with a value or an exception for every tree by the same closure; refutations by running the model"),
"C72": ("the tables of constraint and event handlers found by name, the range of their parameters that SCIP checks, the constructor arguments with names, priorities and flags, install with install_model and install_cover on any earlier state, trans_cons, the numbers of cost cover constraints; catching, dropping and executing events (run_phases); asking the active handlers in the order of their priorities (enforce_run, check_solution); locks of rows (M_Plugins)", "names found in lists in the order of inclusion, so that a call refines solve_setup on a new SCIP and appends what is missing on a used one; events by induction over the phases with the subscriptions as invariant; the order of handlers is determined by strictly falling priorities; enforcement refines the callbacks of C66 call by call; checks by the characterisation of tours by rows and subtour check of C11; locks by the degree rows; refutations by running the model"),
"C73": ("the registry of loggers with levels and handlers, the programs that ask for loggers and give messages, the messages of preprocessing and of the table command, the classes and texts of the exceptions with the translation of pybind11, the pairs that exceptions name, the names of variables, rows and constraints", "the registry after any calls is described call by call, a message is counted along the prefixes of its name; names and texts are read back by cutting at characters that numbers do not contain; the pair named in an error is found by induction over the dictionary or walk, through the renaming"),
"C74": ("the settings of run_algorithm, solve_pctsp with its defaults, the binding with its conversions, solvePrizeCollectingTSP and modelPrizeCollectingTSP with theirs, the rounding of the limit to float, the range that SCIP checks (M_Settings)", "one equation for calls with all numbers given, from which the places are read off; the order of the rules by C24; rounding by comparing with any other float in a common unit; the experiments by their settings in C62, the handlers by C72; refutations by running the model"),
"C75": ("the loading part of run_experiment_from_vial_list with the variable problem, the same for the tables, the vials of the commands tsplib and londonaq; tspwplib and networkx functions on attributes by their documentation, sparsify_uid and the cost functions as parameters (M_Load)", "the renamings by induction over the edges and vertices; the rounds by induction with the invariant that problem does not matter for good files; the rows of the tables by the loops of C68, the sizes by C60, the instances of the experiments by C62; refutations by running the model"),
"C76": ("the filters, the view with the iterators and boost::edge as in boost/graph/filtered_graph.hpp, numEdgesInFilteredGraph, getVertexPairVectorFromGraph, printEdges, logSolutionEdges (M_Filter)", "the loops are filters of the lists; what passes is then compared with the end points of the edges; refutations by running the model"),
"C77": ("run_algorithm as the lab calls it, joined to the models of loading, preprocessing and branch and cut (M_Experiment)", "tours of the graph of networkx and of the list of edges are translated into each other with their costs and prizes; preprocessing keeps the tours through the root and their edges are not more; then C61 and C62; rotation of tours for the comparison of vials"),
"C78": ("the functions of src/pygraph.cpp (M_PyGraph)", "induction over the items of the dict, every step a write to a vector; names are replaced by positions with the lookup of C17; the bindings of pypctsp.cpp are compared step by step"),
}
