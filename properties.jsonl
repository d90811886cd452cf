{"id": "C01", "title": "Re-rooting a tour is a rotation", "statement": "Calling ReorderTourFromRoot on a closed simple tour that visits the root returns a closed tour that starts and ends at the root, visits the same vertices in the same cyclic order, and has the same total edge cost and the same total prize; re-rooting twice changes nothing.", "quantifier": "for every graph, every cost and prize map, every closed simple tour and every root on the tour", "why_tests_cant": "Tests re-root a handful of fixed tours; the claim is about every rotation of every tour and about cost/prize being untouched.", "anchors": ["include/pctsp/walk.hh: ReorderTourFromRoot"]}
{"id": "C02", "title": "Walk cost and edge list are exact", "statement": "getEdgesInWalk returns, for every consecutive pair of vertices, an edge of the graph joining them (as many edges as steps); totalCost of a walk equals the sum of the costs of those edges; both raise EdgeNotFoundException exactly when some consecutive pair is not an edge; totalPrize is the sum of prizes and totalPrizeOfTour counts the root once.", "quantifier": "for every graph, cost map, prize map and every vertex sequence of any length over the graph's vertices", "why_tests_cant": "Tests check fixed small walks; the equivalence (error iff a step is not an edge) and the sums quantify over unbounded walks.", "anchors": ["include/pctsp/walk.hh: getEdgesInWalk, totalCost, totalPrize, totalPrizeOfTour, totalPrizeOfGraph"]}
{"id": "C03", "title": "Collapse keeps a tour feasible and never makes it dearer", "statement": "collapse applied to a prize-feasible closed simple tour through the root returns a closed simple tour that starts and ends at the root, whose prize is still at least the quota and whose cost is at most that of the input; applied to a tour below the quota it returns the same tour re-rooted. No undefined behaviour occurs.", "quantifier": "for every undirected graph, non-negative costs, non-negative prizes, quota, root and closed simple tour through the root", "why_tests_cant": "Tests run collapse on two or three example tours; feasibility and cost monotonicity over all tours and all shortest-path tie-breaks cannot be enumerated.", "anchors": ["include/pctsp/heuristic.hh: collapse, findCollapsePaths, getSubPathOverTour", "include/pctsp/walk.hh: dijkstraShortestPathBlacklist"]}
{"id": "C04", "title": "Path extension preserves tours and never loses prize", "statement": "pathExtension applied to a closed simple tour that starts at the root returns a closed simple tour through the root; the prize of the result is at least the prize of the input. No undefined behaviour occurs.", "quantifier": "for every graph, non-negative prizes, any costs in range, any step size >= 1, any path depth limit, and every closed simple tour whose first vertex is the root", "why_tests_cant": "Extension interleaves list splicing with BFS and index arithmetic; tests use a few tours and depth limits, the invariant is over all of them.", "anchors": ["include/pctsp/heuristic.hh: pathExtension, findExtensionPaths, chooseExtensionPathFromCandidates, swapPathsInTour"]}
{"id": "C05", "title": "Path extension until prize feasible preserves tours", "statement": "pathExtensionUntilPrizeFeasible applied to a closed simple tour that starts at the root returns a closed simple tour through the root with at least the prize of the input (strictly more unless it returns the input itself); a tour already at or above the quota is returned unchanged. No undefined behaviour occurs.", "quantifier": "for every graph, non-negative prizes, step size >= 1, path depth limit, quota and closed simple tour starting at the root", "why_tests_cant": "A test that checks the final prize >= quota cannot see that the loop ran past the quota, nor can it cover all tours.", "anchors": ["include/pctsp/heuristic.hh: pathExtensionUntilPrizeFeasible", "pctsp/algorithms/path_extension_collapse.py: path_extension_until_prize_feasible"]}
{"id": "C06", "title": "The combined extension-collapse heuristic is sound", "statement": "pathExtensionCollapse returns either the empty list or a closed simple tour through the root whose prize is at least the quota.", "quantifier": "for every graph, non-negative costs and prizes, quota, step size >= 1, depth limit, and every closed simple tour that starts at the root (or tour of fewer than three vertices)", "why_tests_cant": "Composition of loops whose intermediate tours are unbounded; tests only see end results on a handful of graphs.", "anchors": ["include/pctsp/heuristic.hh: pathExtensionCollapse", "pctsp/algorithms/path_extension_collapse.py: path_extension_collapse"]}
{"id": "C07", "title": "Unitary-gain extension preserves tours", "statement": "extensionUnitaryGain returns a closed simple tour that contains every vertex of the input tour in the same cyclic order, with prize at least that of the input, and terminates within one insertion per vertex outside the tour.", "quantifier": "for every graph, non-negative prizes, positive costs, root and closed simple tour", "why_tests_cant": "The loop is driven by floating point averages; tests cannot cover every cost/prize pattern or prove termination.", "anchors": ["include/pctsp/heuristic.hh: extensionUnitaryGain, findVertexWithBiggestGain, insertBiggestGainVertexIntoTour, calculateAverageGain"]}
{"id": "C08", "title": "Extension until prize feasible reaches the quota or is stuck", "statement": "extensionUntilPrizeFeasible returns a closed simple tour extending the input; on return either the prize is at least the quota or no vertex outside the tour has a positive unitary gain (it never stops for any other reason).", "quantifier": "for every graph, positive prizes, positive costs, quota, and every closed simple tour", "why_tests_cant": "The alternative 'stuck' is a statement about all vertices and all insertion positions, and the attempt counter must be shown never to be the reason for stopping.", "anchors": ["include/pctsp/heuristic.hh: extensionUntilPrizeFeasible, unitaryGainOfVertex"]}
{"id": "C09", "title": "Breadth-first search marks exactly the vertices within the depth limit", "statement": "breadthFirstSearch from a source with a depth limit, avoiding vertices that were marked beforehand, marks exactly the vertices reachable from the source by a walk of at most that many edges through unmarked vertices, and following parents from any newly marked vertex gives a simple path back to the source whose length is the vertex's depth.", "quantifier": "for every graph, every initial marking, every source and every depth limit", "why_tests_cant": "Exactness of reachability with level counters is a loop invariant over arbitrary graphs.", "anchors": ["include/pctsp/graph.hh: breadthFirstSearch, pathInTreeFromParents"]}
{"id": "C10", "title": "Blacklist Dijkstra returns a least-cost path avoiding the blacklist", "statement": "dijkstraShortestPathBlacklist returns the empty path when no path from source to target avoids the blacklisted vertices and otherwise a simple path from source to target, avoiding the blacklist, whose cost is minimal among all such walks.", "quantifier": "for every undirected graph with non-negative costs, every blacklist and every pair of distinct vertices, for every tie-breaking order of the priority queue", "why_tests_cant": "Optimality is quantified over all walks of the graph; tests compare with one known answer per graph.", "anchors": ["include/pctsp/walk.hh: dijkstraShortestPathBlacklist, TargetVisitor"]}
{"id": "C11", "title": "The integer program is an exact formulation", "statement": "A 0/1 assignment to edge and self-loop variables satisfies the root, degree-two and prize constraints and passes the simple-cycle check if and only if it is the incidence vector of a simple cycle through the root whose vertices have total prize at least the quota; its objective value is the cost of that cycle.", "quantifier": "for every simple graph with one zero-cost self-loop per vertex, every prize map, quota and root, and every 0/1 assignment", "why_tests_cant": "Equivalence between all 0/1 points and all cycles; tests can only try some points.", "anchors": ["include/pctsp/constraint.hh: PCTSPcreateBasicPrizeConstraint, PCTSPcreateBasicDegreeTwoConstraint, PCTSPcreateBasicRootConstraint", "include/pctsp/algorithms.hh: PCTSPmodelWithoutSECs", "src/subtour_elimination.cpp: scip_check", "src/separation.cpp: isSimpleCycle"]}
{"id": "C12", "title": "Subtour elimination cuts are valid", "statement": "Every row produced by addSubtourEliminationConstraint (in either form: root inside or outside the set) is satisfied by every feasible tour through the root.", "quantifier": "for every graph, root, vertex set S, target vertex and every simple cycle through the root", "why_tests_cant": "Validity ranges over all vertex sets and all tours; an invalid cut only shows up on instances where it removes the optimum.", "anchors": ["src/subtour_elimination.cpp: addSubtourEliminationConstraint"]}
{"id": "C13", "title": "Disjoint-tour separation cuts off every integral non-tour", "statement": "For every 0/1 point that satisfies root and degree constraints but is not a single cycle, the separation by connected components adds at least one subtour elimination row violated by the point; when the point is a single cycle it adds none.", "quantifier": "for every simple graph with self-loops, root and 0/1 point satisfying degree and root constraints", "why_tests_cant": "Branch and cut correctness needs this for every integral point SCIP may produce.", "anchors": ["include/pctsp/subtour_elimination.hh: PCTSPseparateDisjointTour", "src/subtour_elimination.cpp: PCTSPseparateSubtour, addSubtourEliminationConstraint", "include/pctsp/data_structures.hh: getConnectedComponentsVectors"]}
{"id": "C14", "title": "Cycle cover cuts are valid", "statement": "The cycle cover inequality added for a vertex set whose prize is below the quota is satisfied by every tour through the root with prize at least the quota, provided prizes are non-negative.", "quantifier": "for every graph, non-negative prizes, quota, vertex set S with total prize < quota and every simple cycle with prize >= quota", "why_tests_cant": "An invalid cut can remove optimal tours on instances that are not in the tests.", "anchors": ["include/pctsp/cycle_cover.hh: addCycleCover, isCycleCoverViolated, separateCycleCover"]}
{"id": "C15", "title": "Cost cover cuts never remove an improving tour", "statement": "A shortest-path cost cover inequality, added for a vertex whose round-trip shortest distance from the root exceeds the upper bound, is satisfied by every tour through the root whose cost does not exceed that upper bound.", "quantifier": "for every graph with non-negative costs, root, upper bound and tour", "why_tests_cant": "Validity relates all shortest paths to all cycles through two vertices.", "anchors": ["include/pctsp/cost_cover.hh: includeShortestPathCostCover, separateCostCoverPaths, addCoverInequalityFromVertices", "src/cost_cover.cpp: addCoverInequality"]}
{"id": "C16", "title": "The simple-cycle check is exact", "statement": "isSimpleCycle returns true on a non-empty set of edges if and only if the edges form exactly one simple cycle.", "quantifier": "for every graph without parallel edges and every list of distinct edges", "why_tests_cant": "Both directions range over all edge sets; accepting one wrong set means a wrong optimal solution.", "anchors": ["src/separation.cpp: isSimpleCycle, isGraphSimpleCycle"]}
{"id": "C17", "title": "Vertex renaming is a bijection onto an initial segment", "statement": "renameEdges on a fresh lookup renames the vertices injectively onto 0..n-1 in order of first appearance, preserves the edge list structure, and getOldVertex / getNewVertex are mutually inverse on it; hence results returned to the caller name the vertices the caller passed.", "quantifier": "for every list of vertex pairs", "why_tests_cant": "Round-trip identity over arbitrary vertex labels and arbitrary edge orders.", "anchors": ["include/pctsp/renaming.hh: findOrInsertVertex, renameVertices, renameEdges, getOldVertex, getNewVertex, getOldEdges, getNewEdges, getOldVertices, getNewVertices, fillRenamedVertexMap, fillCostMapFromRenamedMap"]}
{"id": "C18", "title": "Component vectors partition the vertices", "statement": "getConnectedComponentsVectors puts every vertex into exactly the list of its component id, in order; getNonSingularConnectedComponentVectors is relied on to do the same for components with more than one vertex.", "quantifier": "for every component labelling with ids below the number of components", "why_tests_cant": "An index mix-up is only visible on graphs where singular components precede non-singular ones.", "anchors": ["include/pctsp/data_structures.hh: getConnectedComponentsVectors, getNonSingularConnectedComponentVectors"]}
{"id": "C19", "title": "Self-loop preprocessing is complete and idempotent", "statement": "After the model's preprocessing, a graph that had no self-loop has exactly one self-loop of cost zero on every vertex, all other edges and costs are unchanged, and hasSelfLoopsOnAllVertices answers true exactly when every vertex has a self-loop.", "quantifier": "for every graph and cost map", "why_tests_cant": "The if-and-only-if and the preservation claims quantify over all graphs; partial self-loops are rarely tested.", "anchors": ["src/preprocessing.cpp: addSelfLoopsToGraph", "include/pctsp/preprocessing.hh: assignZeroCostToSelfLoops, hasSelfLoopsOnAllVertices", "src/algorithms.cpp: modelPrizeCollectingTSP"]}
{"id": "C20", "title": "A heuristic tour is injected as a feasible solution", "statement": "The solution created from the heuristic edges given to modelPrizeCollectingTSP has value one on exactly those edges and the self-loops of their end points; if the edges are those of a simple cycle through the root, all root and degree constraints hold, the prize constraint holds exactly when the prize meets the quota, and the objective equals the cycle's cost. (The sibling addHeuristicTourToSolver, used nowhere, sets the self-loops but no edge of the tour.)", "quantifier": "for every simple graph with self-loops, and every closed simple tour through the root meeting the quota", "why_tests_cant": "SCIP silently drops infeasible start solutions, so tests cannot observe a wrong injection.", "anchors": ["include/pctsp/algorithms.hh: addHeuristicTourToSolver, addHeuristicEdgesToSolver", "src/algorithms.cpp: addHeuristicVarsToSolver"]}
{"id": "C21", "title": "Cut and induced edge sets are exact", "statement": "getEdgesFromCut returns each edge with exactly one endpoint in the first set and the other in the second, and getEdgesInducedByVertices returns each edge with both endpoints in the set exactly once.", "quantifier": "for every graph without parallel edges and duplicate-free vertex lists (disjoint for cuts)", "why_tests_cant": "Exactness of set comprehension over all graphs and subsets.", "anchors": ["include/pctsp/subtour_elimination.hh: getEdgesFromCut", "include/pctsp/graph.hh: getEdgesInducedByVertices"]}
{"id": "C22", "title": "Residual reachability splits the vertex set", "statement": "getReachableVertices returns exactly the vertices reachable from the source over residual capacity, getUnreachableVertices exactly the others, so together they partition the vertices and no residual arc crosses from the first to the second.", "quantifier": "for every directed graph, residual capacity map and source", "why_tests_cant": "Reachability exactness on arbitrary graphs.", "anchors": ["include/pctsp/subtour_elimination.hh: getReachableVertices, getUnreachableVertices"]}
{"id": "C23", "title": "Tailing-off detection looks at exactly the last rounds", "statement": "pushIntoRollingLpGapList keeps the last max_length gaps in order (so the stored list is the suffix of the history), and isNodeTailingOff is true exactly when the list is full and the gap improvement from its first to its last entry is below the threshold.", "quantifier": "for every history of pushes, every positive list length and threshold", "why_tests_cant": "Claim about all push histories; tests push a handful of values.", "anchors": ["src/subtour_elimination.cpp: pushIntoRollingLpGapList, isNodeTailingOff"]}
{"id": "C24", "title": "Branching strategies produce the documented priority order", "statement": "With RELPSCOST, relpscost has strictly the highest priority of all rules; with STRONG and STRONG_AT_TREE_TOP, fullstrong is strictly first and relpscost strictly second; only STRONG_AT_TREE_TOP changes a max depth and only that of fullstrong, so that fullstrong is called first down to that depth and relpscost first below it; every other strategy number changes nothing.", "quantifier": "for every list of installed branching rules with distinct names and arbitrary initial priorities", "why_tests_cant": "The set of installed rules and their initial priorities depends on the SCIP version.", "anchors": ["src/branching.cpp: setBranchingStrategy, setRelpscostBranchingStrategy, setStrongBranchingStrategy, setStrongAtTreeTopBranchingStrategy"]}
{"id": "C25", "title": "Python logging levels map monotonically", "statement": "The six standard python levels map to strictly increasing boost severities, so a record is shown by boost iff python would show it; any other level falls back to info.", "quantifier": "for all integers as python level", "why_tests_cant": "Tests check some of the six levels; the user passes any integer.", "anchors": ["src/logger.cpp: getBoostLevelFromPyLevel"]}
{"id": "C26", "title": "Statistics files are aligned and round-trip", "statement": "Every CSV row has the same number of fields as its header with each field under its own column name; a SummaryStats value written to YAML and read back is unchanged.", "quantifier": "for every list of node statistics, bounds and every summary value", "why_tests_cant": "Tests only compare some fields, and swapped fields are invisible when their values coincide.", "anchors": ["src/stats.cpp: writeSummaryStatsToYaml, readSummaryStatsFromYaml, writeNodeStatsToCSV, writeBoundsToCSV", "include/pctsp/stats.hh: NODE_STATS_COL_NAMES, BOUNDS_COLUMN_NAMES", "include/pctsp/filepath.hh: writeRowCSV"]}
{"id": "C27", "title": "Per-node cut counts are never lost", "statement": "After any sequence of node events and cut-count increments the per-node statistics contain one entry per node in order and their totals equal the sum of all increments.", "quantifier": "for every sequence of events and increments", "why_tests_cant": "Depends on the order of events SCIP emits, which tests cannot enumerate.", "anchors": ["src/event_handlers.cpp: NodeEventhdlr::scip_exec, addCurrentNode, incrementNumSec*", "src/stats.cpp: numDisjointTourSECs, numMaxflowMincutSECs"]}
{"id": "C28", "title": "Bound intervals are ordered and disjoint", "statement": "The bounds event handler records one interval per event with the bounds and node of that event; the first starts when the handler was constructed and each later one at the second clock reading of the event before; with a clock that never goes back every interval starts no later than it ends and no later than the next one starts.", "quantifier": "for every sequence of clock readings and bound values", "why_tests_cant": "Timing is nondeterministic in tests.", "anchors": ["src/event_handlers.cpp: BoundsEventHandler::scip_exec"]}
{"id": "C29", "title": "Unitary loss selection is optimal and safe", "statement": "chooseExtensionPathFromCandidates returns an index of a candidate with strictly positive prize difference and minimal unitary loss, the first such index; it reports none exactly when no candidate increases the prize; indexOfSmallestLoss returns the first valid index with minimal loss.", "quantifier": "for every list of candidate paths and every loss vector", "why_tests_cant": "Argmin with first-index tie-break over arbitrary floating point vectors, including NaN and infinities.", "anchors": ["include/pctsp/heuristic.hh: chooseExtensionPathFromCandidates", "src/heuristic.cpp: unitaryLoss, indexOfSmallestLoss, averageUnitaryLoss, numFeasibleExtensions"]}
{"id": "C30", "title": "Sub-paths of a cycle", "statement": "getSubpathOfCycle(first, start, end) returns the vertices met when walking along the closed tour from start to end, wrapping over the repeated first/last vertex without duplicating it.", "quantifier": "for every closed tour and every pair of positions", "why_tests_cant": "Index arithmetic with wrap-around on every pair of positions of every tour.", "anchors": ["include/pctsp/graph.hh: getSubpathOfCycle"]}
{"id": "C31", "title": "Swapping a path in a tour is exact", "statement": "swapPathsInTour replaces exactly the internal vertices between the two endpoints of the new path (in tour order, cyclically) by the internal vertices of the new path, and the result is again closed.", "quantifier": "for every closed simple tour and every new path whose endpoints lie on the tour and whose internal vertices do not", "why_tests_cant": "Linked-list splicing with wrap-around: UB shows only for particular endpoint positions.", "anchors": ["include/pctsp/heuristic.hh: swapPathsInTour"]}
{"id": "C32", "title": "Every model-building lookup reports missing objects", "statement": "getSelfLoops raises NoSelfLoopFoundException exactly when a requested vertex has no self-loop and otherwise returns the self-loop of each vertex in order; edgesFromVertexPairs returns one edge per pair in order or raises EdgeNotFoundException; getEdgeVariables returns one variable per edge or raises VariableIsNullException; getVerticesOfEdges is the sorted duplicate-free list of end points.", "quantifier": "for every graph and every list of vertices/pairs/edges", "why_tests_cant": "The error conditions are if-and-only-if claims over all inputs.", "anchors": ["include/pctsp/graph.hh: getSelfLoops, edgesFromVertexPairs, getEdgeVariables, getVerticesOfEdges"]}
{"id": "C33", "title": "Prize feasibility of a vertex list", "statement": "isPrizeFeasible answers true exactly when the prizes of the listed vertices (counted as often as listed) add up to at least the quota.", "quantifier": "for every prize map, quota and vertex list", "why_tests_cant": "Claim over all lists, including lists with repeated vertices such as closed tours.", "anchors": ["include/pctsp/graph.hh: isPrizeFeasible"]}
{"id": "C34", "title": "Cost-cover counters and upper-bound updates", "statement": "The number of cost cover cuts reported equals the number of inequalities added, and a vertex already forbidden under a larger bound stays forbidden when the bound decreases (the set of cover inequalities is monotone in the bound).", "quantifier": "for every decreasing sequence of upper bounds", "why_tests_cant": "Depends on the sequence of incumbents found by SCIP.", "anchors": ["include/pctsp/cost_cover.hh: CostCoverEventHandler", "src/cost_cover.cpp: separateThenAddCostCoverInequalities"]}
{"id": "C35", "title": "Prizes on self-loops add up to the visited prize", "statement": "putPrizeOntoEdgeWeights gives every self-loop the prize of its vertex and every other edge zero, so the total weight over the edges of a simple cycle and the self-loops of its vertices is the prize of the cycle.", "quantifier": "for every graph, prize map and simple cycle", "why_tests_cant": "A handshake-style identity over all cycles.", "anchors": ["include/pctsp/preprocessing.hh: putPrizeOntoEdgeWeights"]}
{"id": "C36", "title": "Integral solutions round-trip through solution extraction", "statement": "getSolutionEdges returns each non-loop edge with positive value exactly once, getSolutionVertices exactly the vertices whose self-loop has positive value (at a 0/1 point satisfying the degree constraints: exactly the end points of the solution edges), getSolutionGraph adds exactly the solution edges.", "quantifier": "for every graph, solution vector and variable map", "why_tests_cant": "Exactness over every solution vector.", "anchors": ["src/solution.cpp: isVarPositive, isSolutionIntegral, getSolutionVertices, getSolutionEdges, getSolutionGraph"]}
{"id": "C37", "title": "Leaf removal keeps every cycle", "statement": "remove_leaves returns an induced subgraph in which every vertex has at least two neighbours other than itself and which still contains every simple cycle of the input graph, provided the recursion limit exceeds the number of vertices. (Below that limit the recursion can end in RecursionError.)", "quantifier": "for every undirected graph with fewer vertices than the recursion limit", "why_tests_cant": "A fixpoint claim (2-core) over arbitrary graphs.", "anchors": ["pctsp/preprocessing/preprocessing.py: remove_leaves, degree_without_self_loops"]}
{"id": "C38", "title": "Initial tours built from disjoint paths are tours", "statement": "tour_from_vertex_disjoint_paths joins two internally disjoint root-target paths into a closed simple tour through the root and the target whose cost is the sum of the path costs; anything that is not a pair of paths with the same distinct end points raises ValueError.", "quantifier": "for every graph and every pair of internally disjoint paths between the same end points", "why_tests_cant": "Quantifies over all pairs of paths; tests use two.", "anchors": ["pctsp/algorithms/heuristic.py: tour_from_vertex_disjoint_paths"]}
{"id": "C39", "title": "Suurballe heuristic picks the cheapest feasible starting tour", "statement": "suurballes_heuristic returns a tour of least cost among the vertex-disjoint tours whose prize meets the quota and whose cost is below sys.maxsize, or the empty tour when there is none; suurballes_tour_initialization then falls back to a tour of largest positive prize (which need not be simple).", "quantifier": "for every map of vertex-disjoint path pairs, cost map, prize map and quota", "why_tests_cant": "Minimality over all entries of arbitrary maps.", "anchors": ["pctsp/algorithms/heuristic.py: suurballes_heuristic, suurballes_tour_initialization"]}
{"id": "C40", "title": "BFS cycle search returns a cycle through the root", "statement": "find_cycle_from_bfs returns a closed simple tour of at least three vertices through the root whenever one exists, and the empty list otherwise.", "quantifier": "for every simple undirected graph and root", "why_tests_cant": "Existence equivalence over all graphs.", "anchors": ["pctsp/algorithms/heuristic.py: find_cycle_from_bfs, path_to_vertex_in_tree"]}
{"id": "C41", "title": "Ancestor test from pre/post order numbers is exact", "statement": "is_ancestor answers true exactly when the first vertex lies on the tree path from the root to the second. A tree deeper than the recursion limit makes the numbering raise RecursionError.", "quantifier": "for every rooted tree no deeper than the recursion limit and every pair of its vertices", "why_tests_cant": "Tests number a handful of trees; the equivalence is by induction on trees.", "anchors": ["pctsp/suurballe/suurballe.py: preorder, postorder, is_ancestor"]}
{"id": "C42", "title": "Adjusted edge costs are non-negative and telescoping", "statement": "With shortest distances from the source as potentials the adjusted edge costs are non-negative, zero on shortest-path-tree edges, and the adjusted cost of a path from u to v differs from its cost by dist(u)-dist(v); so edge_disjoint_path_cost equals the cost of the two paths when the tentative distance is their adjusted cost.", "quantifier": "for every directed graph, weights and every walk", "why_tests_cant": "Identity over unbounded walks.", "anchors": ["pctsp/suurballe/suurballe.py: adjust_edge_cost, adjust_edge_cost_for_graph, edge_disjoint_path_cost, find_parents_in_shortest_path_tree"]}
{"id": "C43", "title": "Batches cover every vial exactly once", "statement": "For fewer than 2^53 vials and a batch size from 1 to 2^53-1, get_nbatches is the exact ceiling (although computed with floats), the batches at consecutive offsets put together are the vial list, and running all of them equals running the whole experiment: every vial once, in order. missing_vials returns exactly the vials whose file is absent or not JSON, infeasible_vials exactly those whose result is below the quota (provided every file that exists is readable; otherwise it raises). Running the list of missing vials in batches leaves only unsolvable vials missing. run_batch with only_missing_results=True at consecutive offsets does not: it recomputes the shrinking list and skips vials.", "quantifier": "for every list of vials, every positive batch size and every content of the result directory", "why_tests_cant": "Rounding errors show only at particular sizes.", "anchors": ["pctsp/lab/lab.py: Lab.run_batch, get_nbatches, missing_vials, infeasible_vials"]}
{"id": "C44", "title": "Python wrapper options reach the C++ heuristics under their own names", "statement": "Every Python wrapper of a heuristic passes the edges, costs and prizes of the graph and runs the C++ function with each option under its own name; options outside the range of a C++ int raise TypeError. The exception is path_extension(graph, tour, root, path_depth_limit=d, step_size=s): it passes its two options in the wrong order, so the C++ path extension runs with step size d and depth limit s; with the default step_size=1 it never changes the tour.", "quantifier": "for all graphs without isolated vertices, tours and option values", "why_tests_cant": "A positional swap is invisible whenever tests use equal values or only check that the result is some tour.", "anchors": ["pctsp/algorithms/path_extension_collapse.py: path_extension, path_extension_until_prize_feasible, path_extension_collapse", "pctsp/pypctsp.cpp: pathExtensionBind, pathExtensionUntilPrizeFeasibleBind, pathExtensionCollapseBind"]}
{"id": "C45", "title": "Row capacity classification", "statement": "fillPositiveNegativeVars splits the variables with +1 and -1 coefficients without losing or duplicating any; the row added by addRow is the sum of the positive minus the sum of the negative variables between the given sides, and an infeasible row is reported as a cutoff.", "quantifier": "for every pair of variable vectors and sides", "why_tests_cant": "A lost cutoff result only prolongs the search and is never seen by tests.", "anchors": ["src/sciputils.cpp: fillPositiveNegativeVars, addRow"]}
{"id": "C46", "title": "Max-flow separation uses each edge's own capacity when the support is connected", "statement": "If every support edge lies in the component of the root, the arcs of each support edge in the max-flow network carry the LP value of that same edge in millionths, up to one millionth. Every row added is satisfied by every tour through the root, whatever flows the library returns. With maximum flows and values that are multiples of a millionth, a vertex v with y_v = 1 that some set cuts off from the root with value below two gets a violated row. Without the connectivity condition the capacities are those of other edges.", "quantifier": "for every graph with self loops, every LP point satisfying the degree rows, every order of the variable map and every flow library", "why_tests_cant": "Misaligned capacities give plausible cuts; only instances where the filtered edge order differs expose it.", "anchors": ["src/subtour_elimination.cpp: PCTSPseparateMaxflowMincut", "src/separation.cpp: getCapacityVectorFromSol"]}
{"id": "C47", "title": "Path extension until prize feasible stops at the quota", "statement": "pathExtensionUntilPrizeFeasible stops extending as soon as the tour meets the quota (the behaviour its name and documentation promise). FALSE of the code: the prize is computed once before the loop and never updated, so a tour below the quota keeps being extended after the quota is met; the refutation exhibits an input.", "quantifier": "for every graph, non-negative prizes, quota and closed simple tour starting at the root", "why_tests_cant": "The existing tests only look at the prize of the result, which is too large rather than too small; a dearer-than-needed tour is not noticed on any single example.", "anchors": ["include/pctsp/heuristic.hh: pathExtensionUntilPrizeFeasible", "pctsp/algorithms/path_extension_collapse.py: path_extension_until_prize_feasible"]}
{"id": "C48", "title": "Collapse misses no single-vertex collapse", "statement": "The tour returned by collapse costs at most as much as every tour made of (a) the path along the tour, from any position, that contains the root, stays below the quota and would reach the quota with the next tour vertex, and (b) one vertex outside that path adjacent to both of its ends with which the quota is met.", "quantifier": "for every undirected graph, non-negative costs and prizes, quota, root and closed simple tour through the root, every start position and every vertex", "why_tests_cant": "Optimality is quantified over all positions of the tour and all vertices of the graph; tests compare one expected output per example.", "anchors": ["include/pctsp/heuristic.hh: collapse, findCollapsePaths, getSubPathOverTour"]}
{"id": "C49", "title": "On complete metric instances the unitary-gain extension always meets an attainable quota", "statement": "On a complete graph whose costs satisfy the triangle inequality and whose prizes are positive, extensionUntilPrizeFeasible returns a closed simple tour with prize at least the quota whenever the total prize of the graph is at least the quota.", "quantifier": "for every complete graph, costs with the triangle inequality, positive prizes, quota at most the total prize, and every closed simple starting tour", "why_tests_cant": "The claim that the float comparison 'gain > 0' never fails on such instances, for any magnitudes of cost and prize, is a statement about all float quotients.", "anchors": ["include/pctsp/heuristic.hh: extensionUntilPrizeFeasible, findVertexWithBiggestGain, unitaryGainOfVertex", "src/heuristic.cpp: unitaryGain"]}
{"id": "C50", "title": "Insertions that make the tour cheaper are never passed over", "statement": "If inserting an outside vertex into the tour raises the prize and lowers the cost, extensionUntilPrizeFeasible does not stop below the quota. (False of the code: the gain of such an insertion is negative, so it is ignored; also proved: no inserted vertex ever lowers the cost.)", "quantifier": "for every graph, positive prizes, positive costs, closed simple tour and quota", "why_tests_cant": "Needs an instance violating the triangle inequality along a tour edge; random test graphs with a feasible alternative insertion hide it.", "anchors": ["include/pctsp/heuristic.hh: unitaryGainOfVertex", "src/heuristic.cpp: unitaryGain"]}
{"id": "C51", "title": "Unitary-gain extension inserts a vertex when one has positive gain", "statement": "extensionUnitaryGain inserts at least one vertex whenever some outside vertex has a positive gain. (False of the code: with a single candidate the gain equals the average and is not above it.)", "quantifier": "for every graph, positive prizes and costs, and closed simple tour", "why_tests_cant": "Tests use several outside vertices with different gains; the degenerate average is not exercised.", "anchors": ["include/pctsp/heuristic.hh: extensionUnitaryGain, calculateAverageGain"]}
{"id": "C52", "title": "The heuristic bindings answer in the caller's terms", "statement": "For each of the six heuristic bindings, calling it with an edge list, cost and prize dictionaries and a closed tour in the caller's vertex labels returns without undefined behaviour a closed simple tour of the caller's graph, in the caller's labels, with the cost, prize and quota guarantees of the wrapped heuristic measured with the caller's costs and prizes.", "quantifier": "for every edge list with arbitrary labels, dictionaries about its edges and end points (bounded values), closed tour and parameters", "why_tests_cant": "The composition of renaming, dictionary filling and heuristic is tested on graphs whose labels are already 0..n-1 in order, where a missing or doubled renaming is invisible.", "anchors": ["pctsp/pypctsp.cpp: collapseBind, pathExtensionBind, pathExtensionUntilPrizeFeasibleBind, extensionUntilPrizeFeasibleBind, pathExtensionCollapseBind, extensionUnitaryGainBind", "include/pctsp/renaming.hh"]}
{"id": "C53", "title": "Preprocessing keeps the cycles through the root", "statement": "Any combination of the three implemented steps of run_preprocessing (component restriction, block restriction, leaf removal) returns an induced subgraph with exactly the same simple cycles through the root as the input graph, so neither feasibility nor the optimum changes.", "quantifier": "for every undirected graph, root and combination of steps (below the recursion limit)", "why_tests_cant": "An equivalence of all simple cycles of arbitrary graphs; tests compare vertex counts of a few graphs.", "anchors": ["pctsp/lab/run_algorithm.py: run_preprocessing", "pctsp/preprocessing/preprocessing.py: remove_components_disconnected_from_vertex, remove_one_connected_components, remove_leaves"]}
{"id": "C54", "title": "Random starting tours", "statement": "random_tour_complete_graph returns a closed tour of distinct vertices that starts at the root and collects the quota or visits all vertices, and it stops as soon as both the quota and three vertices are reached. Every tour returned by random_tour_from_disjoint_paths_map is the tour of a pair of paths in the map other than the root's. (False of the code: that the tour is the one that was checked to be long enough, and that one usable pair suffices.)", "quantifier": "for every prize map, path map, quota and sequence of random draws", "why_tests_cant": "Quantifies over every sequence of random draws; tests fix one seed.", "anchors": ["pctsp/algorithms/heuristic.py: random_tour_complete_graph, random_tour_from_disjoint_paths_map"]}
{"id": "C55", "title": "Suurballe's algorithm finds least-cost disjoint pairs", "statement": "On every graph without self loops in which a vertex with two incoming edges is the only predecessor of its successors (such as the graphs with every vertex split into a tail and a head, the only ones for which the repository calls the algorithm), the algorithm reports for every reachable vertex the least total cost of two edge-disjoint walks from the source and the extraction returns such a pair; or it reports sys.maxsize and no walks, and then every such pair costs at least sys.maxsize more than twice the distance. A shortest path with more vertices than the recursion limit makes it raise RecursionError. (False of the code for general directed graphs: a list is changed while a for loop iterates over it, so edges are skipped; the reported cost can be too high, a pair can be missed, and the extracted walks can share an edge.)", "quantifier": "for every such graph with non-negative distances, source and shortest-path tree no deeper than the recursion limit", "why_tests_cant": "Optimality and disjointness quantify over all pairs of walks in all graphs; on general graphs the skipped edges matter only for particular shapes of at least six vertices, about one random graph in ten thousand.", "anchors": ["pctsp/suurballe/suurballe.py: suurballe_shortest_vertex_disjoint_paths, process, scan, scan_parent, extract_suurballe_edge_disjoint_paths, edge_disjoint_path_cost"]}
{"id": "C56", "title": "run_heuristic runs the named heuristic and returns a tour at the root", "statement": "For the path extension & collapse algorithms run_heuristic returns the edges of an empty tour or of a closed tour at the root that collects the quota, and a feasible starting tour is never lost or made more expensive; for the extension & collapse algorithms it returns a closed tour at the root, which collects the quota whenever the tour of the unitary-gain extension does. (The code has these defects: the result of extension_until_prize_feasible is discarded, so a feasible tour can be lost; without a cycle through the root an empty tour reaches the C++ code, which takes its front; collapse_paths is ignored for heuristic vials; the algorithm \"extension\" is listed as heuristic but raises NotImplementedError.)", "quantifier": "for all graphs without isolated vertices, quotas, options, tie-breaks and set orders", "why_tests_cant": "The discarded result and the ignored option only show on graphs where the later steps do not repair the tour.", "anchors": ["pctsp/lab/run_algorithm.py: run_heuristic, run_algorithm"]}
{"id": "C57", "title": "Branch and cut returns an optimal tour", "statement": "For a simple graph with non-negative costs and prizes and sound distance bounds, solvePrizeCollectingTSP and its binding build the model and install the handlers without error; whatever callbacks SCIP makes, they return normally; the result is the edge list of a simple tour through the root that meets the quota, or empty if SCIP found no solution; and if SCIP's search was complete the tour has least cost, and an empty result means that there is no feasible tour: no subtour, cycle-cover or cost-cover cut removes every optimal tour. (False of the code: when the starting tour misses the quota its cost is still used as upper bound, and all feasible tours can be cut off; the two basic solvers read a null best solution when SCIP is stopped early.)", "quantifier": "for all graphs, costs, prizes, quotas, roots, starting tours, combinations of the five switches, and all sequences of callbacks and LP points that SCIP may choose", "why_tests_cant": "Quantifies over every run of SCIP, including the order of cuts and events and every fractional point; a test sees the one run of its machine and cannot tell an optimal tour from a feasible one without a second solver.", "anchors": ["src/algorithms.cpp: solvePrizeCollectingTSP, modelPrizeCollectingTSP", "pctsp/pypctsp.cpp: pySolvePrizeCollectingTSP", "src/cost_cover.cpp: CostCoverEventHandler", "src/cycle_cover.cpp", "src/subtour_elimination.cpp"]}
{"id": "C58", "title": "The dictionary form of the model describes the given instance", "statement": "modelPrizeCollectingTSP on an edge list, a cost dictionary and a prize dictionary builds the graph with exactly the listed edges, in order, and the vertices up to the largest end point; gives every edge the cost of the last dictionary key that joins its end points in either direction (0 if there is none), every vertex its prize (0 if there is none), and turns the heuristic pairs into the edges that join them; the program is then the one of the property-map form on that instance. A cost key or heuristic pair that is not an edge raises EdgeNotFoundException.", "quantifier": "for all edge lists, cost and prize dictionaries, heuristic pairs, quotas and roots", "why_tests_cant": "The tests fill the maps by hand or give complete dictionaries in one direction; they do not vary missing, reversed and doubled keys together.", "anchors": ["src/algorithms.cpp: modelPrizeCollectingTSP (327-373)"]}
{"id": "C59", "title": "Disjoint-path costs bound the tours, and the paths make starting tours", "statement": "For an undirected graph without self loops and with non-negative costs, vertex_disjoint_cost_map and undirected_vertex_disjoint_paths_map (after Suurballe's algorithm on the split graph) return maps with the same keys; the entry of a vertex other than the root is the least total cost of two vertex-disjoint paths from the root (a pair of that cost is returned when costs are positive), so every tour through the root and the vertex costs at least the entry, and a vertex without an entry has only pairs of cost sys.maxsize or more; suurballes_heuristic with these maps returns nothing or a simple tour from the root that collects the quota at the cost in the map. (False of the code: the root has an entry too, twice the sum of its two cheapest edges, which can exceed the cost of a tour; the disjoint-paths cost cover inequalities then cut off every tour and the solver reports that there is none. The starting tour of the other heuristics, and their answer, can visit the root in between.)", "quantifier": "for all graphs, costs, prizes, quotas, roots and shortest-path trees no deeper than the recursion limit", "why_tests_cant": "The tests check the maps on one or two fixed graphs and never compare them with all pairs of paths or all tours; the entry of the root is not looked at.", "anchors": ["pctsp/preprocessing/preprocessing.py: undirected_vertex_disjoint_paths_map (37-66), vertex_disjoint_cost_map (69-86)", "pctsp/lab/run_algorithm.py: run_algorithm (167-179)", "pctsp/algorithms/heuristic.py: suurballes_tour_initialization (54-94), suurballes_heuristic (97-128)", "src/cost_cover.cpp: separateThenAddCostCoverInequalities"]}
{"id": "C60", "title": "Instance statistics are what their names say", "statement": "get_graph_stats reports the number of vertices and edges, the total cost and prize of the graph and of its restriction to the blocks of the root, and as biggest_disjoint_prize the largest prize of a tour along a pair of vertex-disjoint paths from the root, which is the prize of a simple tour when it is reached at a vertex other than the root and costs are positive; it fails with ZeroDivisionError if the total prize is 0 and with TypeError if no pair collects anything. (False of the code: max_disjoint_paths_cost is not the largest cost of a pair in general, because the vertex with the largest prize is passed where the biggest vertex id is meant; and disjoint_prize_ratio can exceed 1 because the entry of the root counts the root twice.)", "quantifier": "for all undirected graphs with prizes and costs (non-negative), roots and shortest-path trees no deeper than the recursion limit", "why_tests_cant": "No test calls get_graph_stats; the wrong argument only shows on instances where the vertex with the largest prize is not the one with the largest number, and nothing crashes then.", "anchors": ["pctsp/apps/dataset_app.py: get_graph_stats (115-178)"]}
{"id": "C61", "title": "The result of an experiment is a tour with its cost and prize", "statement": "run_algorithm returns edges whose total cost is the objective and whose vertices' total prize is the prize. For an exact vial they are, in order, a simple tour through the root that meets the quota, of least cost if SCIP finished, or there are none (objective and prize 0), and if SCIP finished then no feasible tour exists; for a heuristic vial they are the tour that the heuristic returned, or none. A vial that is neither raises NotImplementedError, and an exact vial without one of the options whose default is None raises TypeError. (False of the code: with cost_cover_disjoint_paths an exact vial returns an empty result for a feasible instance even though SCIP finished, if the entry of the root in the map is above the cost of a tour.)", "quantifier": "for all instances with non-negative costs and prizes within the range of int, roots, quotas, options, starting heuristics and runs of SCIP", "why_tests_cant": "The tests run a few vials on small instances and compare a few numbers; optimality and the emptiness of the feasible set quantify over all tours and all instances, and the lost tours need the root's entry to exceed the optimum.", "anchors": ["pctsp/lab/run_algorithm.py: run_algorithm (150-281)", "pctsp/algorithms/algorithms.py: solve_pctsp (25-109)", "pctsp/vial/model_params.py (72-92)", "pctsp/vial/result.py (12-21)"]}
{"id": "C62", "title": "An experiment has one vial for every combination of its settings, and every vial can be run", "statement": "product_of_vials gives exactly one vial for every combination of data, parameters and preprocessing, in the order of the lists, with its own uuid; the quota and root of a vial are those of its instance. The experiments of the lookup tables give their vials, without duplicates, and any other name raises ValueError. Every vial has the parameters of an algorithm that run_algorithm runs; the exact vials of baseline, simple_branch_cut and dryrun return an optimal tour if SCIP finishes. The commands londonaq and tsplib build parameters that can be run, and their options have an effect. (False of the code: a third of the vials of disjoint_tours_vs_heuristics raise NotImplementedError; the heuristic extension is accepted by the commands but not implemented; collapse_paths of a heuristic vial has no effect, so the path heuristics of compare_heuristics run without the collapse that their settings ask for; the options collapse_paths, path_depth_limit and step_size of the command tsplib never have any effect; kappa 0 becomes None.)", "quantifier": "for all lists of settings, data sets, experiments, instance files, uuids, command line options and runs of SCIP", "why_tests_cant": "The tests run the experiment dryrun and one command on one data set; that no combination is lost or doubled for any lists, that options never matter and that every one of thousands of vials is runnable are statements about all settings and all instances.", "anchors": ["pctsp/compare/product_of_params.py (33-206)", "pctsp/compare/params.py (7-31)", "pctsp/compare/dryrun_experiment.py (25-55)", "pctsp/compare/exact_experiment.py (33-295)", "pctsp/compare/heuristic_experiment.py (24-110)", "pctsp/compare/relaxation_experiment.py (25-51)", "pctsp/apps/main_app.py (86-126, 439-456, 536-561)", "pctsp/vial/model_params.py (50-92)"]}
{"id": "C63", "title": "The tables of results have one row for every vial with a result", "statement": "experiment_summary_df joins the settings of the vials with their results: the table of an experiment has one row for every vial with a result, in the order of the vials, with every setting and every field of its own result under its name; the table of branch and cut has one row for every vial with a result and statistics. A row is feasible, and has a cost and an overshoot, exactly if the prize reaches the quota; with positive quotas it then gives the cost of a tour through the root that meets the quota. The command that writes all tables writes those of all experiments that exist. (False of the code: with a quota that is not positive an empty result is called feasible at cost 0; an experiment without results, or without statistics, raises KeyError and also stops the tables that follow; the table of branch and cut drops results without statistics; an empty file of statistics raises TypeError although a missing or malformed one is passed over.)", "quantifier": "for all lists of vials, results, files of results and files of statistics", "why_tests_cant": "The tests write the tables of one small experiment that was run completely; that no row is lost, doubled or joined with a wrong result for any set of files, and what happens with files that are missing or malformed, are statements about all contents of a directory.", "anchors": ["pctsp/apps/csv_app.py (29-136)", "pctsp/vial/vial.py (26-51)", "pctsp/vial/result.py (12-58)", "pctsp/data_structures.py (10-28)", "pctsp/lab/lab.py (227-287)"]}
{"id": "C64", "title": "The Slurm script runs every vial of the experiment once, whatever the order of its tasks", "statement": "For a positive batch size and at least one vial the slurm command writes a script whose array has as many tasks as batches are needed. The tasks, in any order, run every vial of the file once: afterwards each vial has the result of its run (or, if the run failed, the file it had before), and nothing else has changed. After the missing command and a script for the missing results, the vials without a readable result are run, the results that existed are untouched, and only vials that cannot be solved are still missing. The hours that the script asks for cover the time limits of the vials of one task, unless they reach the cap, and exceed them by at most three hours. The vial command runs the last vial with the given identifier and changes no other file; an unknown identifier raises ValueError. (False of the code: the cap of two days is 172800 hours; for an experiment without vials, or a negative batch size, a script with an invalid array is written; batch size 0 raises ZeroDivisionError; calling missing again while the tasks are running makes later tasks skip vials; the vial command raises IndexError if the run fails.)", "quantifier": "for all experiments, stored results, batch sizes below 2^53, non-negative time limits and orders of the tasks", "why_tests_cant": "The tests run the commands on one small experiment and never run the script; that no vial is lost or run twice for any number of vials, batch size and order of the tasks, in spite of binary floating point, needs a proof.", "anchors": ["pctsp/apps/main_app.py (195-371)", "pctsp/lab/lab.py (58-102, 215-257, 290-292)"]}
{"id": "C65", "title": "The lines of the LaTeX tables say what the results say", "statement": "The table of cost cover has one line for every cost function and alpha (for londonaq: every alpha or quota) and kind of cuts; every row of the csv file, except those of SEMI_MST and laqtinyA, is in one of them. A line gives the number of rows that the solver proved optimal with a cost other than 0 and the number of feasible ones, and the means of the durations, of the cuts, and of the bounds and gaps that are known. The table of tailing off is grouped by the four settings. From the result files of a cost cover experiment the table is written without an exception and no vial with a result and statistics is left out. A heuristic gets the lower bound of the first run of branch and cut with disjoint-paths cuts on the same instance; if that bound is valid, a heuristic that is called optimal is. (False of the code: an optimal solution of cost 0 is not counted; the table of tailing off counts an instance without solutions as optimal and takes the bound 10^20 for a number; cost-cover raises UnboundLocalError for the other experiments, and ValueError for rows of heuristics.)", "quantifier": "for all csv files, data sets and experiments; for all result files of the cost cover experiments", "why_tests_cant": "The tests do not look at the numbers of a table. Which rows count as optimal, and which are passed over in a mean, depends on infinite bounds, empty fields and division by 0, which only appear in long runs.", "anchors": ["pctsp/apps/tables_app.py (81-83, 224-265, 273-376, 400-519)", "pctsp/apps/csv_app.py", "pctsp/vial/model_params.py (37-47)"]}
{"id": "C66", "title": "The subtour handler answers every call rightly, node by node", "statement": "Whatever calls SCIP makes of the callbacks of the subtour constraint handler (check, enforcement of LP and pseudo solutions, separation), in any order and at any nodes, they return normally. A solution is accepted exactly if its positive edges are one simple cycle (integral or not). An LP solution that is not is resolved by branching exactly if the LP is solved to optimality or unbounded and the last gaps at the same node, those of the LP solutions rejected there, are as many as the setting asks for (at least 2) and improved by less than the threshold; calls at other nodes and accepted solutions have no influence. Separation adds only rows that hold for every tour, and answers about the last row it added. (The numbers of nodes are cut to 32 bits; a setting of 1 never branches.)", "quantifier": "for all graphs, settings and sequences of calls of any length, nodes, gaps and LP solutions", "why_tests_cant": "The history of gaps is state kept per node across calls; a test makes a few calls at one node. Interleavings of nodes and long runs are only met inside SCIP.", "anchors": ["src/subtour_elimination.cpp (170-237, 276-306)", "include/pctsp/subtour_elimination.hh (177-240)", "src/sciputils.cpp: addRow"]}
{"id": "C67", "title": "The labels of the tables name the values beneath them", "statement": "pretty_dataframe gives every column of a table with one line of headings its label, different columns different labels, and names the algorithms, cost functions and branching strategies; all other values stay. For headings of several lines the labels are right exactly if the columns are ordered so that every code is also the number of a column of that name; after unstack, swaplevel and sort_index they are. In the written table of cost cover every number stands in the row of its group, beneath the name of its cuts and the label of what it is, in a column of the LaTeX format for it; empty cells are the groups that do not occur. The same for the table of tailing off. (False of the code: if the strategy is a column, the numbers 0, 1, 2 and 4 in all other columns become names of strategies; without the sorting, gaps are labelled as times.)", "quantifier": "for all tables with rows as long as their headings; for all lines of the tables of cost cover and tailing off", "why_tests_cant": "No test reads the labels of a table. The labels of a level are replaced by one label per column, which is wrong in general and right only by the order of the columns; for any set of groups and names that needs a proof.", "anchors": ["pctsp/apps/tables_app.py (27-90, 148-221, 258-267, 308-399)"]}
{"id": "C68", "title": "The statistics and tables of the data sets, and the command for all tables", "statement": "The csv file of a data set is written exactly if every instance has statistics, otherwise nothing changes. From the files to the table: that of londonaq has a row for each graph and beneath each label the statistic it names, with the LaTeX format for it; that of tspwplib has a row for each kappa and beneath each cost function the means of the two ratios over all graphs and generations, also for any csv file with the rows that occur in it. The command for all tables writes exactly the tables for which there is a csv file and leaves all other files as they are, whatever is missing, if the directory is there and the files can be made into tables. (False of the code in a new directory: the first table does not make the directory and is lost or stops the command; without a directory above, nothing is written and nothing said; a csv file that cannot be made into a table stops all tables after it, also those of the other data set.)", "quantifier": "for all readers of graphs and statistics, all csv files, all states of the directory of the tables", "why_tests_cant": "The commands need the data sets and the results of all experiments, which tests do not have; which files exist, and which exceptions are caught in which order, has more combinations than can be tried.", "anchors": ["pctsp/apps/dataset_app.py (42-112)", "pctsp/apps/tables_app.py (93-145, 547-583)"]}
{"id": "C69", "title": "The drawings of graphs and tours and the figures of the heuristics", "statement": "The drawing of a graph has the line of every edge, and that of a tour the line of every edge of the table that the tour takes in either direction, in the given width and colour; an end that is not in the table of vertices is a KeyError. The command for figures writes one for each cost function. For each kappa, algorithm and row of the figure it has a box of the short name and colour of the algorithm, with the gaps of exactly the instances of them. It stops without the directory above, with a table that cannot be read, and with an unknown algorithm. (False of the code: nothing separates the edges, so the end of each edge is joined to the start of the next row of the table, exactly these lines besides; they vanish if the rows are in the order of the tour. A gap between 0.009 and 0.01, or above 100, is outside of both axes. The second figure has no legend. The table of londonaq is needed, though nothing of it is drawn.)", "quantifier": "for all tables of vertices and edges, all tours, all tables of results, all states of the directory", "why_tests_cant": "The result is a picture, which no test looks at; which lines are drawn depends on the order of the rows of a table, and which boxes are empty on the data of all experiments.", "anchors": ["pctsp/plot/plot_edges.py (8-52)", "pctsp/plot/plot_vertices.py (8-31)", "pctsp/plot/plot_tour.py (10-54)", "pctsp/plot/plot_graph.py (11-16)", "pctsp/apps/plot_app.py (18-223)"]}
{"id": "C70", "title": "Who owns what: reference counts and lifetimes of the objects given to SCIP and Python", "statement": "When SCIPsolve starts, every edge variable has exactly one reference of the problem and one for each constraint that holds it with a coefficient other than zero, and every constraint exactly one of the problem; freeing the problem uses nothing after its end and leaves nothing. No function that reads the problem data during a call reads an ended object. (False of the code in part: a call leaves the log file open and, without cycle covers, a handler that nobody deletes, and if it ends early the message handler. PCTSPaddPrizeConstraint gives back references that PCTSPaddEdgeVariables kept, so a second prize constraint makes freeing the problem use a freed variable. The problem data points to a local variable of modelPrizeCollectingTSP, which is right only if the compiler builds the returned map in place, and never after the call. The binding reads the capsule of the model after giving up its reference. knapsack leaves a reference of each variable without a weight and of its message handler, and with more weights than costs reads past an array.)", "quantifier": "for all graphs, costs, prizes, quotas, roots, heuristic solutions and switches; all sequences of callbacks; all points at which a call can end early; all vectors of costs and weights", "why_tests_cant": "A use of freed memory usually goes unnoticed because the bytes are still there, and leaks do not change any result; whether the map is built in place is up to the compiler that built the tests.", "anchors": ["include/pctsp/algorithms.hh (33-49, 106-140)", "include/pctsp/constraint.hh (34-141)", "src/cost_cover.cpp (6-31)", "src/algorithms.cpp (117-325)", "src/knapsack.cpp (8-70)", "include/pctsp/data_structures.hh (8-46)", "pctsp/pypctsp.cpp (34-125)"]}
{"id": "C71", "title": "The files of a lab: what each command writes, and archives of experiments", "statement": "Every command that works on an experiment changes nothing outside the directory of that experiment, except that it may make the directory of the data set. lab and setup leave the vials in experiment.json, lab also each result in its own file and all results in results.json; if a problem cannot be read, the vials and the results so far are on the disk. batch runs exactly the chosen vials and changes only their directories. missing, batch with only-missing-results and nmissing in this order end with no missing vial, and keep the old results, if the runs give results. nmissing and infeasible print the right vials and change no file. londonaq and tsplib leave an experiment with one vial that these commands read correctly. zip archives everything in the directory of each experiment, and unzip in any lab puts all of it back as it was and changes nothing else. Without lab_dir every command raises FileNotFoundError and changes nothing. (False of the code in part: reading commands make directories; zip after the directory is gone replaces the archive by an empty one; unzip leaves what came after the zip; setup again makes all vials missing, because their uuids are new; a second run of londonaq or tsplib replaces the first in experiment.json and results.json.)", "quantifier": "for all trees of directories and files, all data sets, experiments, lists of vials, outcomes of the runs, batches, and lists of experiments to archive", "why_tests_cant": "The tests run one command in a new temporary directory; what a command does depends on all that earlier commands, crashes and other experiments left there, and on the order of commands over weeks.", "anchors": ["pctsp/lab/lab.py (36-102, 108-213, 215-267)", "pctsp/vial/result.py (22-58)", "pctsp/vial/experiment.py (10-24)", "pctsp/apps/main_app.py (129-221, 317-342, 374-402, 405-578)", "pctsp/apps/utils_app.py (13-39)"]}
{"id": "C72", "title": "The handlers given to SCIP: which there are, whom SCIP tells what, and which solutions it accepts", "statement": "A call on a new SCIP with a separation frequency that SCIP allows, from -1 to 65534, leaves exactly the handlers, constraints and rows asked for, each name once, and the copies of the constraints for the transformed problem have the same flags. Over any number of solves each event handler is told of exactly the events it wants that occur during a solve, once and in order, no subscription is left over, and the rows added are those of the cost cover handlers for the upper bounds of all best solutions. The priorities put the subtour handler before the test for integrality when an LP solution is enforced and all handlers of this code after all others when a solution is checked; an LP solution that is integral and one cycle is accepted, a fractional one leads to branching, any other is rejected; a solution with values 0 and 1 passes all checks exactly if it is a tour from the root that meets the quota and satisfies the added rows, and the handlers of this code see only solutions that satisfy all rows; enforcement and checks agree. Setting no locks is right, because the rows of the model already lock each variable both ways. A second call on the same SCIP should work with its own arguments. (False of the code in part: with any other frequency SCIP refuses the subtour handler, the return code is ignored, and a constraint pointer that was never set is used; on a second call a handler that is there keeps its settings and distances, so rows are made with the distances of the first call, a larger graph reads them out of bounds, a handler switched off still adds rows, and after a simple call most plug-ins of SCIP are missing; if the gaps stall at an integral solution that is not a cycle, the subtour handler asks SCIP to branch, there is nothing to branch on, and SCIP stops with an error; the two functions for the number of cost cover constraints read a null pointer if there is no such handler.)", "quantifier": "for all options, default plug-ins of SCIP, models, distances, earlier states of SCIP, sequences of solves and events, orders of handlers allowed by the priorities, sequences of LP solutions, and solutions", "why_tests_cant": "The tests make one new SCIP per call and look at the best solution; what a second call meets, in which order handlers are asked, and what happens when gaps stall at an integral solution depends on states and timings that tests do not produce.", "anchors": ["src/algorithms.cpp (83-100, 117-207, 255-311)", "include/pctsp/subtour_elimination.hh (198-240)", "src/subtour_elimination.cpp (111-142, 170-250)", "include/pctsp/cycle_cover.hh (145-178)", "src/cycle_cover.cpp (26-54, 98-142)", "src/cost_cover.cpp (29-154)", "src/event_handlers.cpp (76-161)"]}
{"id": "C73", "title": "What the user is told: log lines, errors in Python, and names", "statement": "Every message of a command is printed exactly once if its level is at least that of the logger, and otherwise not; what preprocessing reports adds up to what it removed. An exception of the C++ code arrives in Python with its own text, from which its kind and its vertices can be read, and the pair it names is the first that has no edge, in the names of the caller. The names of variables, rows and constraints, and the text of a walk, determine what they stand for. (False of the code in part: a message is printed once per earlier request for its logger or a prefix, so the default logger of run_algorithm and run_preprocessing prints twice and the command for all tables prints the messages of the i-th dataset i times; level 0 shows only warnings; VertexNotFoundException and NoSelfLoopFoundException lose their texts; the heuristics name the positions of vertices in the renamed graph instead of the vertices of the caller.)", "quantifier": "for all sequences of requests for loggers and messages, all logger names and levels, all lists of datasets, all graphs and preprocessing options, all exceptions, cost dictionaries, walks and lists of variables", "why_tests_cant": "Tests do not look at the console, and each makes its loggers in a fresh order; a pair named wrongly in an error is noticed only by somebody who relies on it.", "anchors": ["pctsp/utils/utils.py: get_pctsp_logger", "pctsp/lab/run_algorithm.py (63, 155, 284-321)", "pctsp/apps/tables_app.py: summarize_dataset, heuristics_table, generate_all_tables", "include/pctsp/exception.hh", "include/pctsp/renaming.hh: fillCostMapFromRenamedMap", "include/pctsp/walk.hh: getEdgesInWalk, walkToString", "include/pctsp/heuristic.hh: unitaryGainOfVertex", "include/pctsp/sciputils.hh: joinVariableNames", "src/subtour_elimination.cpp (102)", "include/pctsp/cycle_cover.hh (46)", "src/cost_cover.cpp (24)", "include/pctsp/constraint.hh (76-77)"]}
{"id": "C74", "title": "The settings of a run reach the solver", "statement": "If all numbers among the settings are given and fit their C++ types, every setting given in Python, by a vial, or by the commands tsplib and londonaq arrives at its place in SCIP or the logger: the name, the directory, the level of the log, the switches of the handlers (disjoint paths cost cover only with distances), the threshold, the number of tailing off iterations, the frequency of separation, the limit on the time, and the branching rules such that at every depth the rule meant by the strategy is called first; otherwise there is a TypeError before anything is solved. The limit on the time is rounded to the nearest float, ties to even: exact with 24 binary digits, else wrong by at most 2^-24 of the limit. Each vial of branch and cut of each experiment gives SCIP exactly the settings of the experiment, and a new SCIP then has exactly the handlers asked for. Without settings, Python and C++ should do the same. (False of the code in part: 16777217 seconds become 16777216; a negative limit is refused by SCIP, the return code is ignored, and there is no limit; the defaults of Python and C++ differ in the branching strategy, the threshold, the plug-ins of SCIP and the directory; with SCIP plug-ins that lack full strong branching, the strategy of the experiments follows a null pointer; no vial can ask for the simple rules.)", "quantifier": "for all settings including missing ones, limits on the time, branching rules of SCIP, depths of the tree, experiments and their vials, options of the commands, distances, and default plug-ins", "why_tests_cant": "Some twenty arguments are passed by position through four functions in two languages, many of the same type; a swapped or dropped one, or a rounded or refused limit, shows only in running times.", "anchors": ["pctsp/lab/run_algorithm.py (218-242)", "pctsp/algorithms/algorithms.py (25-109)", "pctsp/pypctsp.cpp (34-110)", "include/pctsp/algorithms.hh (165-205)", "src/algorithms.cpp (117-207, 239-311)", "include/pctsp/subtour_elimination.hh (223-247)", "src/branching.cpp (18-128)"]}
{"id": "C75", "title": "Every vial is run on the graph its data configuration describes", "statement": "If the files of londonaq give every vertex a demand, those of OPLib none, and every edge a weight, then whenever a vial gets as far as an algorithm, the graph is the one of its file with the weights as costs and the demands or scores as prizes, made sparse if kappa is given and not 0, and with the costs of its cost function; vials of the same instance get the same graph whatever ran before them (unless costs are random); a vial that fails in the algorithm leaves no result and stops nothing, one that cannot be loaded stops all that follow. The row of the instance in the table of its data set is about the same graph, including the sizes after preprocessing, for all experiments. (False of the code in part: the instances of simple_branch_cut and of dryrun for londonaq have no row; the graph of the command tsplib is not preprocessed; if a demand is missing in a file of londonaq, the prizes are the scores of the OPLib instance loaded before, or an UnboundLocalError stops all vials; if an OPLib file has demands, vials are run with these while the table uses the scores.)", "quantifier": "for all files, directories, lists of vials, algorithms with any outcomes, numbers of rounds, earlier vials, experiments and options of the two commands", "why_tests_cant": "A wrong graph gives a wrong but plausible result, and the variable that keeps its value from an earlier vial matters only for certain orders of vials and files.", "anchors": ["pctsp/lab/lab.py (108-213)", "pctsp/apps/dataset_app.py (55-98)", "pctsp/apps/main_app.py (405-594)"]}
{"id": "C76", "title": "Views of a graph show its induced subgraph", "statement": "If every vertex has a mark, the view that filterMarkedVertices gives has the marked vertices and the edges between them, each in order; these are the edges getEdgesInducedByVertices gives, and the loops; the neighbours of a vertex in the view are its marked neighbours. The number of edges of the view of a solution is that of the positive variables; the pairs of a graph give it back if its last vertex has an edge; edges are printed and logged once each, in order. (False of the code in part: the filter of edges asks for one marked end instead of two, so boost::edge finds edges that leave the view and vertices outside of it have neighbours; vertices without edges at the end are lost in a copy; with fewer marks than vertices, or an edge without a variable, the behaviour is undefined.)", "quantifier": "for all graphs including parallel edges and loops, all marks, vertices, solutions and maps of variables", "why_tests_cant": "The test of the filter asks for one marked end as the filter does, and looks at one way of iterating, in which Boost asks the filter of vertices too.", "anchors": ["include/pctsp/graph.hh (73-77, 147-163, 244-252, 391-424)", "src/graph.cpp (41-45)", "src/solution.cpp (71-87)", "tests/test_graph.cpp (226-244)"]}
{"id": "C77", "title": "The result of a vial is right for the graph that was loaded", "statement": "From loading to the result that the lab stores: if the graph of a vial has a tour through the root, preprocessing leaves the vertices on such tours, and the vial is run on them. The edges, the objective and the prize of the result of an exact vial are those of a simple tour of the loaded graph through the root that collects the quota, or the result is empty if SCIP has no solution; if SCIP finished, no such tour of the loaded graph is cheaper, or there is none and the result is empty. This holds for every vial of the experiments baseline, simple_branch_cut and dryrun without further assumptions about its options. The result of a heuristic vial is a tour of the loaded graph or empty. So exact vials of one instance that finished have the same objective, and no heuristic vial that collects the quota has a smaller one. (With cost_cover_disjoint_paths it needs that the entry of the root is not above the cost of a tour; see C61.)", "quantifier": "for all graphs with costs and prizes in range and a tour through the root, all experiments and vials, all runs of SCIP, all results of the functions of networkx and tspwplib that meet their documentation", "why_tests_cant": "The tests check preprocessing, the algorithms and the lab one at a time on a few graphs; that an optimum of the preprocessed graph is one of the loaded graph is a statement about all of its tours.", "anchors": ["pctsp/lab/lab.py (108-213)", "pctsp/lab/run_algorithm.py (150-320)", "pctsp/preprocessing/preprocessing.py (131-156)", "pctsp/algorithms/algorithms.py (25-109)"]}
{"id": "C78", "title": "Graphs and maps from Python objects keep names, costs and prizes together", "statement": "The graph of a list of edges has the names in the order of first appearance as vertices and the edges in order. A dict of prizes or costs writes every value to its vertex or edge, whichever way round the edge is given and the last value if it is given twice, and leaves the others as they are; with the lookup of the graph a dict with the names of Python does the same as one with vertices; lists of vertices are translated there and back. A value that fits no int and a pair without an edge raise an exception. The maps are those that the bindings of pypctsp.cpp fill. (False of the code in part: an unknown name or a vertex that the graph does not have is undefined behaviour; with a lookup that was used before, different names become one vertex.)", "quantifier": "for all lists of edges including loops and parallel edges, all dicts, lists of vertices and earlier contents of the maps", "why_tests_cant": "The file is not built and has no tests; a value at the wrong vertex changes the optimum without any error.", "anchors": ["src/pygraph.cpp (7-98)", "include/pctsp/renaming.hh (7-75)", "pctsp/pypctsp.cpp (129-159)"]}
