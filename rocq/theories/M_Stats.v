(** * M_Stats: statistics files, src/stats.cpp, include/pctsp/stats.hh, include/pctsp/filepath.hh,
    src/event_handlers.cpp:101-111, pctsp/algorithms/data_structures.py *)
From Coq Require Export String Ascii.
From Coq Require Import DecimalString.
From Verif Require Import Base.
Open Scope string_scope.
Open Scope Z_scope.

(** Integers as the streams and yaml-cpp print them ([operator<<] at stats.cpp:20,73-79,110). *)
Definition dec (z : Z) : string := NilZero.string_of_int (Z.to_int z).
(** ... and read them (stats.cpp:28,33-40), without range check. *)
Definition undec (s : string) : option Z := option_map Z.of_int (NilZero.int_of_string s).

(** [unsigned int] arithmetic wraps around (stats.cpp:48, 56; event_handlers.cpp:55, 60). *)
Definition u32 (z : Z) : Z := z mod 4294967296.

Section Files.
(** Doubles are opaque: [D] is the type, [show] and [read] how the library prints and parses
    them.  (Section variables: every definition below takes them as arguments.) *)
Context {D : Type} (show : D -> string) (read : string -> option D).

(** stats.hh:12-24 [SummaryStats]. *)
Record summary := mkSummary {
  sm_status : Z; sm_lower : D; sm_upper : D;
  sm_cc_disjoint : Z; sm_cc_shortest : Z;
  sm_pre_disjoint : Z; sm_pre_shortest : Z;
  sm_cycle_cover : Z; sm_nodes : Z; sm_sec_disjoint : Z; sm_sec_maxflow : Z }.

(** A [YAML::Node] that is a map of scalars; scalars are text in yaml-cpp.  Writing the map to
    a file and parsing the file (stats.cpp:19-20, 27) is taken to give the same map. *)
Definition ynode := list (string * string).

(** [node[key] = value] (stats.cpp:8-18): replaces the value of a key or adds it at the end. *)
Fixpoint yset (n : ynode) (k v : string) : ynode :=
  match n with
  | [] => [(k, v)]
  | (k', v') :: n => if String.eqb k' k then (k, v) :: n else (k', v') :: yset n k v
  end.

(** [node[key]] (stats.cpp:28-40). *)
Fixpoint yget (n : ynode) (k : string) : option string :=
  match n with
  | [] => None
  | (k', v) :: n => if String.eqb k' k then Some v else yget n k
  end.

(** [node[key].as<int>()] (stats.cpp:28) and the other integer types (stats.cpp:33-40): an exception if the key is missing, the
    text no integer or the number not of the type [lo..hi]. *)
Definition yint (lo hi : Z) (n : ynode) (k : string) : res Z :=
  match yget n k with
  | None => Throw YamlBadConversion
  | Some t => match undec t with
              | None => Throw YamlBadConversion
              | Some z => if andb (lo <=? z) (z <=? hi) then Ok z else Throw YamlBadConversion
              end
  end.
(** [as<int>] (stats.cpp:28). *)
Definition yint32 := yint (-2147483648) 2147483647.
(** [as<unsigned int>] (stats.cpp:33-41). *)
Definition yuint := yint 0 4294967295.
(** [as<long long>] (stats.cpp:38). *)
Definition ylong := yint (-9223372036854775808) 9223372036854775807.
(** [as<double>] (stats.cpp:31-32). *)
Definition ydouble (n : ynode) (k : string) : res D :=
  match yget n k with
  | None => Throw YamlBadConversion
  | Some t => match read t with None => Throw YamlBadConversion | Some d => Ok d end
  end.

(** stats.cpp:5-22 [writeSummaryStatsToYaml]: the contents of the file, if it is written;
    [parent] says whether the directory exists. *)
Definition write_summary_yaml (parent : bool) (s : summary) : option ynode :=
  if parent then
    let n := yset [] "status" (dec (sm_status s)) in
    let n := yset n "lower_bound" (show (sm_lower s)) in
    let n := yset n "upper_bound" (show (sm_upper s)) in
    let n := yset n "num_cost_cover_disjoint_paths" (dec (sm_cc_disjoint s)) in
    let n := yset n "num_cost_cover_shortest_paths" (dec (sm_cc_shortest s)) in
    let n := yset n "nconss_presolve_disjoint_paths" (dec (sm_pre_disjoint s)) in
    let n := yset n "nconss_presolve_shortest_paths" (dec (sm_pre_shortest s)) in
    let n := yset n "num_cycle_cover" (dec (sm_cycle_cover s)) in
    let n := yset n "num_nodes" (dec (sm_nodes s)) in
    let n := yset n "num_sec_disjoint_tour" (dec (sm_sec_disjoint s)) in
    let n := yset n "num_sec_maxflow_mincut" (dec (sm_sec_maxflow s)) in
    Some n
  else None.

(** stats.cpp:24-43 [readSummaryStatsFromYaml]; the fields of the aggregate are filled in the
    order of the initialiser list.  Without the file line 26 means to throw, but the constructor
    of FileDoesNotExistError (exception.hh:92-94) hands its own member [message] to the
    constructor it delegates to, and no member has been constructed by then: a string is copied
    out of memory that holds none. *)
Definition read_summary_yaml (file : option ynode) : res summary :=
  match file with
  | None => UB Uninit
  | Some n =>
      do status <- yint32 n "status";
      do a <- ydouble n "lower_bound";
      do b <- ydouble n "upper_bound";
      do c <- yuint n "num_cost_cover_disjoint_paths";
      do d <- yuint n "nconss_presolve_disjoint_paths";
      do e <- yuint n "num_cost_cover_shortest_paths";
      do f <- yuint n "nconss_presolve_shortest_paths";
      do g <- yuint n "num_cycle_cover";
      do h <- ylong n "num_nodes";
      do i <- yuint n "num_sec_disjoint_tour";
      do j <- yuint n "num_sec_maxflow_mincut";
      Ok (mkSummary status a b c d e f g h i j)
  end.

(** data_structures.py:8-28 [SummaryStats.from_yaml]: fields by keyword; pydantic raises for a
    missing or ill-typed field.  Python integers have no range. *)
Definition py_int (n : ynode) (k : string) : res Z :=
  match yget n k with
  | None => Throw ValueErrorPy
  | Some t => match undec t with None => Throw ValueErrorPy | Some z => Ok z end
  end.
(** data_structures.py:12-13: [float] fields. *)
Definition py_float (n : ynode) (k : string) : res D :=
  match yget n k with
  | None => Throw ValueErrorPy
  | Some t => match read t with None => Throw ValueErrorPy | Some d => Ok d end
  end.
(** data_structures.py:23-28. *)
Definition py_from_yaml (file : option ynode) : res summary :=
  match file with
  | None => Throw NotFoundPy
  | Some n =>
      do status <- py_int n "status";
      do a <- py_float n "lower_bound";
      do b <- py_float n "upper_bound";
      do c <- py_int n "num_cost_cover_disjoint_paths";
      do d <- py_int n "num_cost_cover_shortest_paths";
      do e <- py_int n "nconss_presolve_disjoint_paths";
      do f <- py_int n "nconss_presolve_shortest_paths";
      do g <- py_int n "num_cycle_cover";
      do h <- py_int n "num_nodes";
      do i <- py_int n "num_sec_disjoint_tour";
      do j <- py_int n "num_sec_maxflow_mincut";
      Ok (mkSummary status a b c d e f g h i j)
  end.

(** ** CSV *)

(** stats.hh:52-62 [NodeStats]. *)
Record node_stats := mkNode {
  ns_lower : D; ns_id : Z; ns_sec_disjoint : Z; ns_sec_maxflow : Z;
  ns_cc_disjoint : Z; ns_cc_shortest : Z; ns_cc_steiner : Z; ns_parent : Z; ns_upper : D }.

(** stats.hh:37-47 [NODE_STATS_COL_NAMES]. *)
Definition node_stats_cols : list string :=
  ["lower_bound"; "node_id"; "num_sec_disjoint_tour"; "num_sec_maxflow_mincut";
   "num_cost_cover_disjoint_paths"; "num_cost_cover_shortest_paths";
   "num_cost_cover_steiner_tree"; "parent_id"; "upper_bound"].

(** The character written by a newline escape (stats.cpp:80,110). *)
Definition newline : ascii := ascii_of_nat 10.
(** A field followed by a comma (stats.cpp:72-79). *)
Definition comma_end (s : string) : string := s ++ ",".
(** A field followed by the end of the line (stats.cpp:80). *)
Definition line_end (s : string) : string := s ++ String newline "".

(** filepath.hh:13-21 [writeRowCSV]: the text written for the items. *)
Definition write_row (items : list string) : string :=
  line_end (List.fold_left (fun acc (ix : nat * string) =>
    acc ++ snd ix ++ (if Z.of_nat (fst ix) <? Z.of_nat (List.length items) - 1 then "," else ""))
    (combine (seq 0 (List.length items)) items) "").

(** stats.cpp:71-81 [writeNodeStatsRow]. *)
Definition write_node_row (n : node_stats) : string :=
  comma_end (show (ns_lower n)) ++ comma_end (dec (ns_id n)) ++
  comma_end (dec (ns_sec_disjoint n)) ++ comma_end (dec (ns_sec_maxflow n)) ++
  comma_end (dec (ns_cc_disjoint n)) ++ comma_end (dec (ns_cc_shortest n)) ++
  comma_end (dec (ns_cc_steiner n)) ++ comma_end (dec (ns_parent n)) ++
  line_end (show (ns_upper n)).

(** stats.cpp:61-69, 83-87 [writeNodeStatsToCSV]: the text of the file. *)
Definition write_node_csv (parent : bool) (l : list node_stats) : option string :=
  if parent
  then Some (List.fold_left (fun acc n => acc ++ write_node_row n) l (write_row node_stats_cols))
  else None.

(** stats.cpp:45-51 [numDisjointTourSECs]. *)
Definition num_disjoint_secs (l : list node_stats) : Z :=
  List.fold_left (fun t n => u32 (t + ns_sec_disjoint n)) l 0.
(** stats.cpp:53-59 [numMaxflowMincutSECs]. *)
Definition num_maxflow_secs (l : list node_stats) : Z :=
  List.fold_left (fun t n => u32 (t + ns_sec_maxflow n)) l 0.

(** stats.hh:89-95 [Bounds]; time points are milliseconds since the epoch. *)
Record bounds := mkBounds { b_start : Z; b_end : Z; b_lower : D; b_upper : D; b_node : Z }.

(** stats.hh:81-87 [BOUNDS_COLUMN_NAMES]. *)
Definition bounds_cols : list string :=
  ["start_timestamp"; "end_timestamp"; "lower_bound"; "upper_bound"; "node_id"].

(** event_handlers.cpp:101-111 [timePointToString].  [strf] is [strftime] with "%FT%T" on a
    broken-down time, as a function of the seconds since the epoch; [localtime] is the shift by
    the offset [tz] of the time zone. *)
Definition time_to_string (strf : Z -> string) (tz t : Z) : string :=
  strf (Z.quot t 1000 + tz) ++ "." ++ dec (Z.rem t 1000) ++ "Z".

(** stats.cpp:105-111 [writeBoundsRow]; [stamp] is [timePointToString]. *)
Definition write_bounds_row (stamp : Z -> string) (b : bounds) : string :=
  comma_end (stamp (b_start b)) ++ comma_end (stamp (b_end b)) ++
  comma_end (show (b_lower b)) ++ comma_end (show (b_upper b)) ++ line_end (dec (b_node b)).

(** stats.cpp:89-103 [writeBoundsToCSV]. *)
Definition write_bounds_csv (stamp : Z -> string) (parent : bool) (l : list bounds) : option string :=
  if parent
  then Some (List.fold_left (fun acc b => acc ++ write_bounds_row stamp b) l (write_row bounds_cols))
  else None.
End Files.
Arguments summary D : clear implicits.
Arguments node_stats D : clear implicits.
Arguments bounds D : clear implicits.
