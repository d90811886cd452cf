(** * M_Messages: what the user is told.
    The loggers of the Python package (pctsp/utils/utils.py:8-36 and their users), the texts of
    the exceptions (include/pctsp/exception.hh) and how pybind11 hands them to Python, and the
    names of variables, constraints and rows. *)
From Coq Require Import String.
From Verif Require Import Base Graph M_Walk M_Graph M_Gain M_Renaming M_Python M_PyWrap M_Stats.
Open Scope string_scope.
Open Scope nat_scope.

(** ** Loggers *)

(** The name of a logger, split at the dots (logging.getLogger; utils.py:11).  The empty list is
    the root logger. *)
Definition logger_name := list string.

(** A logger of the [logging] library: its level and the levels of its handlers, oldest first
    (utils.py:12, 15-16, 34).  All handlers write to the same stream, so only their levels
    matter. *)
Record logger := mkLogger { lg_level : Z; lg_handlers : list Z }.

(** The registry of the [logging] library (behind utils.py:11). *)
Definition registry := list (logger_name * logger).
(** At the start there is only the root logger, at level WARNING = 30 and without handlers
    (library; utils.py:11). *)
Definition new_registry : registry := [([], mkLogger 30 [])].

(** Equality of names (the dictionary of the registry; utils.py:11). *)
Fixpoint name_eqb (a b : logger_name) : bool :=
  match a, b with
  | [], [] => true
  | x :: a', y :: b' => String.eqb x y && name_eqb a' b'
  | _, _ => false
  end.

(** Look a logger up (utils.py:11; [None]: not created). *)
Fixpoint find_logger (reg : registry) (n : logger_name) : option logger :=
  match reg with
  | [] => None
  | (m, l) :: r => if name_eqb m n then Some l else find_logger r n
  end.

(** utils.py:8-36 [get_pctsp_logger]: [getLogger] makes the logger at its first call and returns
    the same one ever after; its level is set, and one more handler with that level is added,
    whatever handlers it has already. *)
Fixpoint get_pctsp_logger (n : logger_name) (level : Z) (reg : registry) : registry :=
  match reg with
  | [] => [(n, mkLogger level [level])]
  | (m, l) :: r =>
      if name_eqb m n then (m, mkLogger level (lg_handlers l ++ [level])) :: r
      else (m, l) :: get_pctsp_logger n level r
  end.

(** The names a message is passed along: the logger itself, then the name without its last
    component, and so on to the root ([Logger.parent]; behind every [logger.info]).  The
    argument is the name read backwards. *)
Fixpoint name_chain (r : list string) : list logger_name :=
  rev r :: match r with [] => [] | _ :: r' => name_chain r' end.

(** The loggers among them that have been created (library). *)
Definition logger_chain (reg : registry) (n : logger_name) : list logger :=
  flat_map (fun m => match find_logger reg m with Some l => [l] | None => [] end) (name_chain (rev n)).

(** [Logger.getEffectiveLevel] (library): the first level along the chain that is not 0. *)
Fixpoint effective_level (ls : list logger) : Z :=
  match ls with
  | [] => 0
  | l :: r => if (lg_level l =? 0)%Z then effective_level r else lg_level l
  end.

(** [Logger.isEnabledFor] and [Logger.callHandlers] (library): how many times a message of level
    [lvl] is printed.  Without any handler along the chain the handler of last resort prints it
    from level WARNING = 30 on. *)
Definition copies (reg : registry) (n : logger_name) (lvl : Z) : nat :=
  let ls := logger_chain reg n in
  if (effective_level ls <=? lvl)%Z then
    match flat_map lg_handlers ls with
    | [] => if (30 <=? lvl)%Z then 1 else 0
    | hs => List.length (filter (fun h => (h <=? lvl)%Z) hs)
    end
  else 0.

(** One step of a program as far as logging is concerned: a call of get_pctsp_logger
    (utils.py:8) or a message given to a logger ([logger.info] = 20, [logger.warning] = 30, ...). *)
Inductive log_event :=
| LGet (n : logger_name) (level : Z)
| LSay (n : logger_name) (lvl : Z) (text : string).

(** A program and the lines it prints on the console (utils.py:8-36 and the library; colour, time
    and level in front of the text are left out). *)
Fixpoint log_run (reg : registry) (evs : list log_event) : registry * list string :=
  match evs with
  | [] => (reg, [])
  | LGet n level :: r => log_run (get_pctsp_logger n level reg) r
  | LSay n lvl text :: r => let '(reg', out) := log_run reg r in (reg', (repeat text (copies reg n lvl) ++ out)%list)
  end.

(** Importing pctsp.lab evaluates the default arguments of three functions and a constructor, in
    the order run_algorithm.py:63, 155, 285, lab.py:48 (lab.py:35 imports run_algorithm.py first).
    The default level is INFO = 20 (utils.py:8). *)
Definition import_lab : list log_event :=
  [LGet ["run_heuristic"] 20; LGet ["run_algorithm"] 20; LGet ["run_algorithm"] 20; LGet ["Lab"] 20].

(** [number_of_nodes] and [number_of_edges] (networkx; run_algorithm.py:290-291), as text of the
    difference of two graphs (run_algorithm.py:295-296). *)
Definition nodes_gone (g h : nxgraph) : string := dec (Z.of_nat (List.length g) - Z.of_nat (List.length h)).
(** The same for edges (run_algorithm.py:296, 306, 315). *)
Definition edges_gone (g h : nxgraph) : string :=
  dec (Z.of_nat (List.length (edges_from [] g)) - Z.of_nat (List.length (edges_from [] h))).

(** run_algorithm.py:284-321 [run_preprocessing]: the messages, in order, also when the function
    raises at the end or on the way. *)
Definition preprocessing_messages (component : nxgraph -> nat -> list nat)
    (bicomps : nxgraph -> list (list nat)) (depth : nat) (pre : preprocessing)
    (g : nxgraph) (root : nat) : list string :=
  match (if pre_components pre then remove_components_disconnected_from_vertex component g root
         else Ok g) with
  | Ok g1 =>
      ((if pre_components pre
        then [("Removed " ++ nodes_gone g g1 ++ " disconnected vertices and " ++ edges_gone g g1 ++ " edges ")%string]
        else []) ++
       match (if pre_leaves pre then remove_leaves depth g1 else Ok g1) with
       | Ok g2 =>
           (if pre_leaves pre
            then [("Removed " ++ nodes_gone g1 g2 ++ " leaf vertices and " ++ edges_gone g1 g2 ++ " edges ")%string]
            else []) ++
           (if pre_one_connected pre
            then let g3 := remove_one_connected_components bicomps g2 root in
                 [("Removed " ++ nodes_gone g2 g3 ++ " vertices and " ++ edges_gone g2 g3
                     ++ " edges not bi-connected to the root vertex.")%string]
            else [])
       | _ => []
       end)%list
  | _ => []
  end.

(** What one dataset of [generate_all_tables] meets (tables_app.py:556-583): its name, the texts
    of paths, and for each of the four tables the text of the FileNotFoundError, if there is one
    ([None]: the table is made). *)
Record table_case := mkTable {
  tb_name : string;
  tb_is_tspwplib : bool;
  tb_csv : string; tb_tex : string; tb_heur_tex : string;
  tb_dataset : option string; tb_cost_cover : option string;
  tb_heuristics : option string; tb_tailing : option string
}.

(** tables_app.py:562-563, 568-569, 576-577, 582-583: the warning for a missing file. *)
Definition table_warning (o : option string) : list log_event :=
  match o with None => [] | Some e => [LSay ["write-all-tables"] 30 e] end.

(** tables_app.py:94-145 [summarize_dataset]; the file is read at line 121. *)
Definition summarize_dataset_log (t : table_case) : list log_event :=
  ([LGet ["dataset"] 20; LSay ["dataset"] 20 ("Reading dataset CSV from " ++ tb_csv t)%string] ++
   match tb_dataset t with
   | Some _ => []
   | None =>
       (if tb_is_tspwplib t then [LSay ["dataset"] 20 "Aggregating dataset stats."] else []) ++
       [LSay ["dataset"] 20 ("Writing dataset LaTeX table to " ++ tb_tex t)%string]
   end)%list.

(** tables_app.py:449-544 [heuristics_table]; the files are read at lines 459-464. *)
Definition heuristics_table_log (t : table_case) : list log_event :=
  (LGet ["heuristics-table"] 20 ::
   match tb_heuristics t with
   | Some _ => []
   | None => [LSay ["heuristics-table"] 20 ("Writing table to LaTeX file: " ++ tb_heur_tex t)%string]
   end)%list.

(** tables_app.py:556-583: one turn of the loop.  [cost_cover_table] and [tailing_off_table] give
    no messages. *)
Definition all_tables_turn (t : table_case) : list log_event :=
  ([LSay ["write-all-tables"] 20 ("Generating dataset tables for " ++ tb_name t)%string] ++
   summarize_dataset_log t ++ table_warning (tb_dataset t) ++
   [LSay ["write-all-tables"] 20 ("Generating cost_cover table on " ++ tb_name t ++ " dataset")%string] ++
   table_warning (tb_cost_cover t) ++
   [LSay ["write-all-tables"] 20 ("Generating heuristics table on " ++ tb_name t ++ " dataset")%string] ++
   heuristics_table_log t ++ table_warning (tb_heuristics t) ++
   [LSay ["write-all-tables"] 20 ("Generating tailing_off tables on " ++ tb_name t ++ " dataset")%string] ++
   table_warning (tb_tailing t))%list.

(** tables_app.py:548-583 [generate_all_tables]. *)
Definition all_tables_log (ts : list table_case) : list log_event :=
  LGet ["write-all-tables"] 20 :: flat_map all_tables_turn ts.

(** A command of main_app.py (lines 143, 179, 208, 237, 265, 356, 419-421, 516-518): it makes one
    logger, of the name and level given, and everything it says is given to that logger
    (lab.py:52, 169-209, 182, 191; main_app.py:286, 314). *)
Definition command_log (n : logger_name) (level : Z) (says : list (Z * string)) : list log_event :=
  LGet n level :: map (fun s => LSay n (fst s) (snd s)) says.

(** ** Exceptions *)

(** The exceptions that the C++ code constructs in order to throw them, with the arguments that
    go into their text (exception.hh:11-99; heuristic.hh:394). *)
Inductive cxx_exception :=
| NoGainX | EdgeX (u v : nat) | VertexX (v : nat) | SelfLoopX (v : nat) | WrongSetX (v : nat)
| NullVariableX | StepSizeX | TargetX | InvalidArgumentX (u v : nat).

(** Their classes, with those they inherit from (exception.hh:11-83; heuristic.hh:394). *)
Inductive cxx_class :=
| StdException | LogicError | InvalidArgumentC
| NoGainC | EdgeC | VertexC | SelfLoopC | WrongSetC | NullVariableC | StepSizeC | TargetC.

(** exception.hh:11, 17, 32, 38, 44, 54, 64, 75: the base class, and whether it is inherited
    publicly.  NoSelfLoopFoundException is a [class] that names its base without [public]. *)
Definition base_class (c : cxx_class) : option (bool * cxx_class) :=
  match c with
  | StdException => None
  | InvalidArgumentC => Some (true, LogicError)
  | SelfLoopC => Some (false, EdgeC)
  | _ => Some (true, StdException)
  end.

(** exception.hh:11-83. *)
Definition class_of (x : cxx_exception) : cxx_class :=
  match x with
  | NoGainX => NoGainC | EdgeX _ _ => EdgeC | VertexX _ => VertexC | SelfLoopX _ => SelfLoopC
  | WrongSetX _ => WrongSetC | NullVariableX => NullVariableC | StepSizeX => StepSizeC
  | TargetX => TargetC | InvalidArgumentX _ _ => InvalidArgumentC
  end.

(** Equality of classes (exception.hh:11-83). *)
Definition class_eqb (a b : cxx_class) : bool :=
  match a, b with
  | StdException, StdException | LogicError, LogicError | InvalidArgumentC, InvalidArgumentC
  | NoGainC, NoGainC | EdgeC, EdgeC | VertexC, VertexC | SelfLoopC, SelfLoopC
  | WrongSetC, WrongSetC | NullVariableC, NullVariableC | StepSizeC, StepSizeC | TargetC, TargetC => true
  | _, _ => false
  end.

(** A handler [catch (const B &)] takes an exception of class [c] when [B] is [c] or a base
    reached through public inheritance only (C++ language; no chain is longer than 3). *)
Fixpoint catches (fuel : nat) (b c : cxx_class) : bool :=
  class_eqb b c ||
  match fuel with
  | 0 => false
  | S k => match base_class c with Some (true, c') => catches k b c' | _ => false end
  end.

(** [std::to_string] of a vertex (exception.hh:26; the throw sites). *)
Definition vstr (v : nat) : string := dec (Z.of_nat v).

(** [what()] (exception.hh:11-83; heuristic.hh:391-394).  VertexNotFoundException keeps its message but does
    not override [what], and the one of the library says std::exception. *)
Definition what (x : cxx_exception) : string :=
  match x with
  | NoGainX => "Could not calculate the unitary gain for any vertices"
  | EdgeX u v => "No edge between vertices: " ++ vstr u ++ " and " ++ vstr v
  | VertexX _ => "std::exception"
  | SelfLoopX v => "No edge between vertices: " ++ vstr v ++ " and " ++ vstr v
  | WrongSetX v => "Vertex was found in the wrong set: " ++ vstr v
  | NullVariableX => "SCIP variable pointer is NULL."
  | StepSizeX => "The step size given to the extension algorithm was larger than the tour that was given."
  | TargetX => "The target vertex has been found."
  | InvalidArgumentX u v =>
      "Edge between " ++ vstr u ++ " and " ++ vstr v ++ " does not exist. " ++ String (Ascii.ascii_of_nat 10) ""
  end.

(** How pybind11 turns an exception that leaves a bound function (pypctsp.cpp:314-330) into a
    Python one: the class and the text.  [ValueError] for std::invalid_argument, [RuntimeError]
    for any other std::exception, and a fixed text for what is none. *)
Definition python_error (x : cxx_exception) : string * string :=
  if catches 3 InvalidArgumentC (class_of x) then ("ValueError", what x)
  else if catches 3 StdException (class_of x) then ("RuntimeError", what x)
  else ("RuntimeError", "Caught an unknown exception!").

(** The pair of vertices in the text of the exception of [fillCostMapFromRenamedMap]
    (renaming.hh:152-159), when it throws: the numbers in the renamed graph. *)
Fixpoint fill_cost_names (g : graph) (bm : bimap) (dict : list ((nat * nat) * Z)) : option (nat * nat) :=
  match dict with
  | [] => None
  | kv :: r =>
      match find_right bm (fst (fst kv)), find_right bm (snd (fst kv)) with
      | Some s, Some t =>
          if s <? gn g then
            match find_edge (ge g) 0 s t with None => Some (s, t) | Some _ => fill_cost_names g bm r end
          else None
      | _, _ => None
      end
  end.

(** The pair in the text of the exception of [getEdgesInWalk] (walk.hh:59-66). *)
Fixpoint walk_names (g : graph) (w : list nat) : option (nat * nat) :=
  match w with
  | u :: (v :: _) as r =>
      if u <? gn g then match find_edge (ge g) 0 u v with None => Some (u, v) | Some _ => walk_names g r end
      else None
  | _ => None
  end.

(** ** Names *)

(** The name of the [i]-th variable: the code gives none (algorithms.hh:39), and SCIP makes one
    up from the index of the variable. *)
Definition var_name (i : nat) : string := "_var" ++ vstr i ++ "_".

(** sciputils.hh:14-24: every name and a separator, ... *)
Fixpoint join_with_separator (vs : list nat) : string :=
  match vs with [] => "" | v :: r => var_name v ++ "_" ++ join_with_separator r end.
(** [s] without its last character (sciputils.hh:24; the empty string is left alone). *)
Fixpoint erase_last (s : string) : string :=
  match s with
  | "" => ""
  | String c "" => ""
  | String c r => String c (erase_last r)
  end.
(** ... without the last separator: sciputils.hh:11-26 [joinVariableNames]. *)
Definition join_variable_names (vs : list nat) : string := erase_last (join_with_separator vs).

(** subtour_elimination.cpp:102. *)
Definition sec_name (vs : list nat) : string := "SubtourElimination_" ++ join_variable_names vs.
(** cycle_cover.hh:46. *)
Definition cycle_cover_name (vs : list nat) : string := "CycleCover_" ++ join_variable_names vs.
(** cost_cover.cpp:24 and cost_cover.hh:15. *)
Definition cost_cover_name (vs : list nat) : string := "cost_cover_" ++ join_variable_names vs.
(** constraint.hh:76-77; the counter of lines 57 and 99 goes through the vertices. *)
Definition degree_name (i : nat) : string := "degree-two-constraint-" ++ vstr i.

(** walk.hh:160-168 [walkToString]. *)
Fixpoint walk_to_string (w : list nat) : string :=
  match w with [] => "" | v :: r => vstr v ++ ", " ++ walk_to_string r end.
