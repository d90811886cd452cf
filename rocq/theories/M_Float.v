(** * M_Float: C++ [float] as IEEE binary32.

    Uses Coq.Floats.SpecFloat (pure Gallina, round to nearest even); assumes the
    compiler evaluates [float] expressions in [float] (FLT_EVAL_METHOD = 0). *)
From Coq Require Import SpecFloat.
From Verif Require Import Base.
Open Scope Z_scope.

(** The format of [float] (used at /repo/include/pctsp/heuristic.hh:26-34): 24 bits of mantissa. *)
Definition f_prec : Z := 24.
(** The greatest exponent of that format (/repo/include/pctsp/heuristic.hh:26-34). *)
Definition f_emax : Z := 128.

(** [float] (/repo/include/pctsp/heuristic.hh:26-34; src/heuristic.cpp:9-51). *)
Definition float32 := spec_float.

(** [0.0]. /repo/include/pctsp/heuristic.hh:71 and others. *)
Definition f_zero : float32 := S754_zero false.

(** [(float) z] for an [int] z.  /repo/src/heuristic.cpp:13,22; heuristic.hh:78. *)
Definition f_of_int (z : Z) : float32 := binary_normalize f_prec f_emax z 0 false.

(** [x + y], [x / y]. /repo/src/heuristic.cpp:13,22,34,36; heuristic.hh:425,429. *)
Definition f_add (x y : float32) : float32 := SFadd f_prec f_emax x y.
(** See [f_add]: /repo/src/heuristic.cpp:13,22,36; heuristic.hh:429. *)
Definition f_div (x y : float32) : float32 := SFdiv f_prec f_emax x y.

(** [x < y] (false when either is NaN). /repo/src/heuristic.cpp:44; heuristic.hh:90,403,458,521. *)
Definition f_lt (x y : float32) : bool := SFltb x y.
