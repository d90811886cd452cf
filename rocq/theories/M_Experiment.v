(** * M_Experiment: the algorithm of a vial as the lab runs it (pctsp/lab/lab.py:188-195) *)
From Verif Require Import Base M_Dijkstra M_Solution M_ILP M_MaxFlow M_Solve M_Python M_PyWrap M_Suurballe M_DisjointMap M_RunAlg M_Compare.
Open Scope nat_scope.

(** What a run depends on besides the vial and the graph: the split graph with its shortest paths
    (run_algorithm.py:166-175; see M_DisjointMap) and the run of SCIP (algorithms.py:85; see M_Solve). *)
Record surroundings := mkSur {
  su_names : split_names; su_depth : nat; su_split : dgraph; su_source : nat; su_dist : list (nat * Z); su_paths : list (nat * list nat);
  su_entries : list (nat * nat); su_calls : list callback; su_sols : list sol }.

(** run_algorithm for the quota, the root and the options of the vial (lab.py:188-193; run_algorithm.py:150-281). *)
Definition run_vial (L : lab_lib) (tb : tiebreak) (set_order : list nat -> list nat) (mf : flow_lib) (S : surroundings)
    (v : full_vial) (G : pygraph) : res run_result :=
  run_algorithm L tb set_order mf (su_names S) (su_depth S) (su_split S) (su_source S) (su_dist S) (su_paths S)
    G (dc_quota (fv_data v)) (dc_root (fv_data v)) (fp_model (fv_params v)) (su_entries S) (su_calls S) (su_sols S).

(** The prize of the result, which is what M_Load keeps of it (lab.py:194-195). *)
Definition vial_algorithm (L : lab_lib) (tb : tiebreak) (set_order : list nat -> list nat) (mf : flow_lib)
    (S : full_vial -> surroundings) (v : full_vial) (G : pygraph) : res Z :=
  do x <- run_vial L tb set_order mf (S v) v G; Ok (r_prize x).
