## Findings outside the theorems (by reading)

* The `scip_lock` callbacks of the constraint handlers declare no locks, so SCIP's dual
  presolving could fix variables; presolving is switched off in this code (C72).
* `PCTSPcreateConsSubtour` passes an uninitialised pointer (`consdata`) to `SCIPcreateCons`;
  no callback of the handler reads it.
* `CycleCoverConshdlr::scip_enfolp` / `scip_enfops` do not set the result.
* `heuristics_table` sets a LaTeX format with three columns per algorithm for a table with
  four; its file is not written (tables_app.py:544 is a comment).
* `summary_df.index.rename(...)` (tables_app.py) discards its result.
* The label of `preprocessed_total_cost` lacks a closing dollar sign, and that of `min_gap` has
  a doubled backslash: LaTeX stops at the first and prints the second wrongly.
* `summarize_dataset` does not make the directory of the tables, the other commands do; the LaTeX
  of its tables has the names `graph_name` and `EUC_2D` with an underscore outside of math mode.
* `edge_scatter` puts no gap between the edges: plotly joins the end of each to the start of the
  next row, and a tour is drawn with chords unless its edges are in order in the table.
* Of the figures of the heuristics only the first has a legend; a gap between 0.009 and 0.01 is
  seen in neither row; the results of londonaq are needed and not drawn.
* `knapsack` solves a model and throws the solution away.
* `joinVariableNames` constructs a `VariableIsNullException` without throwing it, and asks SCIP for
  the name of a null variable next.
* One constructor of `CostCoverEventHandler` leaves its two counters unset (it is not used).
* The properties C18, C26, C27, C47, C50, C51 are marked partial because the code
  does not have them in full: the false part is refuted, the rest is proved.

## Testing the theorems against wrong programs

`seeded/LOG.jsonl` has one line per wrong program: a scratch copy of the development was
edited in one definition of a model, rebuilt, and the proofs that failed recorded. The
theorems named under `theorems_failed` are the property theorems that depend on the
proof that broke. Edits that broke nothing are either equivalent programs (the verdict
says why) or led to a stronger theorem (`theorems_tightened`), after which the edit was
tried again.
