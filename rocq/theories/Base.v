(** * Base: outcomes of running the modelled C++ code.

    Not a model of any particular file of /repo: this is the small vocabulary in
    which the models are written. *)
From Coq Require Export List Arith ZArith Lia Bool.
From Coq Require Export ZifyBool ZifyNat.
Export ListNotations.

(** The exceptions the code of /repo throws
    (include/pctsp/exception.hh:11-98; [std::invalid_argument] at heuristic.hh:394;
    [boost::negative_edge] raised by boost::dijkstra_shortest_paths; [std::length_error]
    raised by [std::vector(n)] for a huge [n]; [YAML::TypedBadConversion] raised by
    [YAML::Node::as]; the last fourteen are Python exceptions). *)
Inductive exn :=
| EdgeNotFoundException
| NoSelfLoopFoundException
| VertexNotFoundException
| VertexInWrongSetException
| VariableIsNullException
| NoGainVertexFoundException
| TargetVertexFound
| InvalidArgument
| NegativeEdge
| LengthError
| FileDoesNotExistError
| YamlBadConversion
| KeyErrorPy
| IndexErrorPy
| ValueErrorPy
| NotFoundPy
| RecursionErrorPy
| JSONDecodeErrorPy
| TypeErrorPy
| NotImplementedErrorPy
| FileNotFoundErrorPy
| ValidationErrorPy
| ZeroDivisionErrorPy
| YAMLErrorPy
| FileExistsErrorPy
| OSErrorPy
| UnboundLocalErrorPy.

(** Kinds of undefined behaviour that the models can report. *)
Inductive ub :=
| IterPastEnd      (* dereference or advance of an iterator outside [begin,end) *)
| VecOOB           (* operator[] of a vector / property map out of bounds *)
| IntOverflow      (* signed 32-bit overflow *)
| DivByZero        (* integer division or modulo by zero *)
| Uninit           (* read of an uninitialised variable *)
| NullDeref        (* use of a null pointer *)
| EmptyList        (* front/back/--end() of an empty list *)
| UseAfterFree.    (* use of an object after the end of its life *)

(** Result of running a piece of code. [OutOfFuel] is the artificial result of a
    loop model whose fuel was too small; no theorem accepts it as a normal result. *)
Inductive res (A : Type) :=
| Ok (a : A)
| Throw (e : exn)
| UB (u : ub)
| OutOfFuel.
Arguments Ok {A} a.
Arguments Throw {A} e.
Arguments UB {A} u.
Arguments OutOfFuel {A}.

(** Sequencing. *)
Definition bind {A B} (m : res A) (f : A -> res B) : res B :=
  match m with
  | Ok a => f a
  | Throw e => Throw e
  | UB u => UB u
  | OutOfFuel => OutOfFuel
  end.
Notation "'do' x <- m ; f" := (bind m (fun x => f))
  (at level 200, x name, m at level 100, f at level 200).
Notation "'do' ' p <- m ; f" := (bind m (fun p => f))
  (at level 200, p pattern, m at level 100, f at level 200).

(** Range of a 32-bit [int], the type of costs and prizes (include/pctsp/graph.hh:18-19). *)
Definition int_max : Z := 2147483647%Z.
(** See [int_max]. *)
Definition int_min : Z := (-2147483648)%Z.

(** Result of a signed 32-bit arithmetic operation: overflow is UB. *)
Definition chk (z : Z) : res Z :=
  if andb (Z.leb int_min z) (Z.leb z int_max) then Ok z else UB IntOverflow.

(** [v[i]] on a vector or vector-backed property map. *)
Definition vget {A} (v : list A) (i : nat) : res A :=
  match nth_error v i with Some a => Ok a | None => UB VecOOB end.

(** [*it] where [it] is at distance [i] from [begin()]. *)
Definition it_get {A} (l : list A) (i : nat) : res A :=
  match nth_error l i with Some a => Ok a | None => UB IterPastEnd end.

(** Functional update of position [i]; only used after a bounds check. *)
Fixpoint upd {A} (v : list A) (i : nat) (a : A) : list A :=
  match v, i with
  | [], _ => []
  | _ :: t, O => a :: t
  | x :: t, S j => x :: upd t j a
  end.

(** [v[i] = a] on a vector. *)
Definition vset {A} (v : list A) (i : nat) (a : A) : res (list A) :=
  if i <? length v then Ok (upd v i a) else UB VecOOB.

(** [std::find(l.begin(), l.end(), x)] as a position; [length l] is [end()]. *)
Fixpoint find_pos (x : nat) (l : list nat) : nat :=
  match l with
  | [] => 0
  | y :: t => if Nat.eqb y x then 0 else S (find_pos x t)
  end.

(** [set.count(x) > 0]. *)
Definition memb (x : nat) (l : list nat) : bool := existsb (Nat.eqb x) l.

(** Left fold in the outcome monad: a [for] loop over a list. *)
Fixpoint foldM {A S} (f : S -> A -> res S) (l : list A) (s : S) : res S :=
  match l with
  | [] => Ok s
  | a :: t => bind (f s a) (fun s' => foldM f t s')
  end.

(** Map in the outcome monad. *)
Fixpoint mapM {A B} (f : A -> res B) (l : list A) : res (list B) :=
  match l with
  | [] => Ok []
  | a :: t => bind (f a) (fun b => bind (mapM f t) (fun bs => Ok (b :: bs)))
  end.
