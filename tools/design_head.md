# Formal model of pctsp: design

Everything here is about a *model* of the code in /repo, written by reading the
source. Nothing in /repo was built or run. Each definition in a model file cites the
file and lines it models and states its simplifications.
(This file is put together by `tools/gen_design.py` from `tools/design_head.md`,
`tools/design_how.py`, `MANIFEST.json` and `properties.jsonl`.)

## Layout (`rocq/theories`)

* `Base.v` – outcome monad `res` (`Ok` / `Throw e` / `UB u` / `OutOfFuel`), 32-bit
  integer check, checked list access. `Graph.v` – the Boost graph as (vertex count,
  edge list in insertion order).
* `M_*.v` – the models, function by function, no proofs.
* `Spec.v`, `Spec_*.v` – the independent specification vocabulary (walk, walk cost,
  simple cycle, minimum cut, best insertion, optimal tour …). The statements of the
  properties use these files and the modelled API functions, not the helpers of the
  models.
* `P_*.v` – lemmas and proofs.
* `Properties_*.v` – the property theorems (`Cnn_…`), `Print Assumptions` beneath each,
  and beside each theorem an `Example` (`…_case`) with a concrete non-trivial input that
  meets the hypotheses.

Names: `Cnn_…_refuted` is the negation of something one would expect of the code,
proved with a witness (a finding); `Cnn_…_partial` is a theorem that covers only part
of the expected statement because the rest is false.

## Modelling decisions

* **Undefined behaviour** is an outcome (`UB`) distinct from normal results and from
  C++ exceptions: reading a vector out of bounds, dereferencing or advancing past
  `end()`, signed overflow, division by zero, reading an uninitialised variable, null
  dereference, `front()`/`back()` of an empty list. The positive theorems have the form
  `preconditions -> exists r, f … = Ok r /\ …`, so they include absence of undefined
  behaviour, absence of exceptions and termination.
* **Fuel**: a loop without a structural measure takes fuel and returns `OutOfFuel` when
  it runs out; the theorems show the result is `Ok`, so it never runs out.
* **Integers**: `int` is `Z` with a range check at each arithmetic result (`chk`);
  `unsigned int` counters wrap (`u32`); sizes and positions are `nat`.
* **Graph**: `boost::adjacency_list<listS, vecS, undirectedS>`; vertices `0..n-1`, edges
  identified by insertion position; out-edge lists in insertion order; `boost::edge(u,v)`
  returns the first matching out-edge of `u` and is UB if `u` is not a vertex.
* **Floats**: IEEE binary32 through `Coq.Floats.SpecFloat` (pure Gallina, no axiom),
  assuming `FLT_EVAL_METHOD = 0`. Values of SCIP variables are rationals (a numerator
  per variable over a common denominator); SCIP's tolerance 1e-9 is part of the model.
* **Priority-queue ties, hash, set or pointer order, random draws, clocks**: a function
  parameter or an arbitrary list, universally quantified in the theorems.
* **Python**: dictionaries are association lists, exceptions are outcomes, the
  recursion limit is a parameter. `networkx`, `tspwplib`, `json`, `pydantic` functions
  are taken by the specification stated beside their use.
* **SCIP** is taken by an explicit contract (`Spec_Solve.scip_run`, `scip_finished`,
  `accepted`): which points it may store as solutions, when it raises the best-solution
  event, at which points it calls separation, and what a completed search means. The
  contract is a hypothesis of C57 and nothing else rests on it. The max-flow library is
  an arbitrary function for validity (C46) and "returns a maximum flow" for completeness.

## Trusted base

* The kernel of Coq 8.16.1 (and `coqchk`).
* `Print Assumptions` answers "Closed under the global context" for **every** theorem
  `Cnn_…`: no axiom, neither ours nor the standard library's, is used. The command is
  run beneath each theorem during the build; `vcheck` runs `coqchk -o` on all files.
  (`coqchk` also lists the axioms of `Coq.ssr.ssrunder`, which the standard library
  loads for the rewrite tactics; no theorem uses them.)
* That the models say what the code does: by reading, with the simplifications stated
  in the comments; this is what mutation testing cannot check.
* The library specifications listed above (Boost graph, `boost::edge`,
  `boost::connected_components`, SCIP, networkx, the C++ standard library), as far as
  they are used.

## What is modelled

| /repo | modelled in | not modelled |
|---|---|---|
| include/pctsp/walk.hh | M_Walk, M_Dijkstra, M_Messages (`walkToString`) | – |
| include/pctsp/graph.hh, src/graph.cpp | Graph, M_Graph, M_Solution, M_Filter | – |
| include/pctsp/heuristic.hh, src/heuristic.cpp | M_Extension, M_Collapse, M_Gain, M_Float | logging; the code of Boost's Dijkstra (modelled as the textbook loop with any tie break) |
| include/pctsp/data_structures.hh, src/data_structures.cpp | M_Solution, M_Lifetime | – |
| include/pctsp/renaming.hh | M_Renaming, M_Messages (the pair named in the error) | – |
| include/pctsp/preprocessing.hh, src/preprocessing.cpp | M_ILP | – |
| include/pctsp/constraint.hh, include/pctsp/algorithms.hh, src/algorithms.cpp | M_ILP, M_Solve, M_Lifetime (ownership), M_Plugins (handlers), M_Settings (parameters) | – |
| include/pctsp/subtour_elimination.hh, src/subtour_elimination.cpp | M_Subtour, M_MaxFlow, M_Handler, M_Plugins | `scip_print` |
| include/pctsp/cycle_cover.hh, src/cycle_cover.cpp | M_CycleCover, M_Plugins | – |
| include/pctsp/cost_cover.hh, src/cost_cover.cpp | M_CostCover, M_Plugins | – |
| include/pctsp/solution.hh, src/solution.cpp, src/separation.cpp | M_Solution, M_Filter | – |
| src/sciputils.cpp, include/pctsp/sciputils.hh | M_Subtour, M_Messages (names) | – |
| include/pctsp/exception.hh | Base, M_Messages (texts, translation to Python) | – |
| src/branching.cpp | M_Branching | – |
| src/event_handlers.cpp, include/pctsp/event_handlers.hh | M_Events, M_NodeStats, M_Plugins | – |
| src/stats.cpp, include/pctsp/stats.hh, filepath.hh | M_Stats | `std::put_time`, the stream's decimal output of doubles (parameters) |
| src/logger.cpp | M_Logger | Boost.Log |
| pctsp/pypctsp.cpp | M_Renaming, M_PyWrap, M_Solve, M_Lifetime | pybind11's conversions other than the int range |
| src/knapsack.cpp | M_Lifetime | – |
| src/pygraph.cpp | M_PyGraph | its last function, whose template is in a header that does not exist; the file is not built |
| src/node_selection.cpp | – | three calls of SCIP's own include functions (algorithms.cpp:266); the order in which SCIP visits nodes is arbitrary in the models |
| pctsp/algorithms/*.py | M_Python, M_PyCycle, M_PyWrap, M_RunAlg | logging |
| pctsp/preprocessing/preprocessing.py | M_Python, M_DisjointMap | the two steps that raise NotImplementedError |
| pctsp/suurballe/suurballe.py | M_Suurballe | – |
| pctsp/lab/lab.py, pctsp/lab/run_algorithm.py | M_Lab, M_PyWrap, M_RunAlg, M_Settings, M_LabTree (files), M_Messages (loggers), M_Load (graphs of vials), M_Experiment (from graph to result) | parsing TSPLIB files |
| pctsp/vial, pctsp/utils | M_Lab (results, file names), M_Messages (`get_pctsp_logger`) | pydantic validation in general |
| pctsp/apps/dataset_app.py | M_Dataset, M_Summary, M_Load | parsing TSPLIB files, metricness |
| pctsp/compare | all, M_Compare | file paths |
| pctsp/apps, pctsp/plot | `main_app`: batches (M_Lab), Slurm script, missing and single vials (M_Slurm), choice of experiments, parameters of the commands (M_Compare); files and archives (M_LabTree with `utils_app`); `csv_app` (M_Csv); `tables_app` (M_Tables, M_Labels, M_Summary, M_Messages); `plot_app`, `plot_edges`, `plot_vertices`, `plot_graph`, `plot_tour` (M_Plot) | other command line code, the LaTeX writer |

