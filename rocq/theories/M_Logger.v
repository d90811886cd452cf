(** * M_Logger: logging levels, src/logger.cpp and include/pctsp/logger.hh *)
From Verif Require Import Base.
Open Scope Z_scope.

(** logger.hh:13-20 [PyLoggingLevels]. *)
Definition py_CRITICAL : Z := 50.
(** logger.hh:15. *)
Definition py_ERROR : Z := 40.
(** logger.hh:16. *)
Definition py_WARNING : Z := 30.
(** logger.hh:17. *)
Definition py_INFO : Z := 20.
(** logger.hh:18. *)
Definition py_DEBUG : Z := 10.
(** logger.hh:19. *)
Definition py_NOTSET : Z := 0.

(** [boost::log::trivial::severity_level] (library enumeration used in logger.cpp:14-33). *)
Definition trace : Z := 0.
(** See [trace] (logger.cpp:14-33). *)
Definition debug : Z := 1.
(** See [trace] (logger.cpp:14-33). *)
Definition info : Z := 2.
(** See [trace] (logger.cpp:14-33). *)
Definition warning : Z := 3.
(** See [trace] (logger.cpp:14-33). *)
Definition error : Z := 4.
(** See [trace] (logger.cpp:14-33). *)
Definition fatal : Z := 5.

(** logger.cpp:10-36 [getBoostLevelFromPyLevel]. *)
Definition boost_level_from_py (level : Z) : Z :=
  if level =? py_CRITICAL then fatal
  else if level =? py_ERROR then error
  else if level =? py_WARNING then warning
  else if level =? py_INFO then info
  else if level =? py_DEBUG then debug
  else if level =? py_NOTSET then trace
  else info.

(** logger.cpp:38-40 [PCTSPinitLogging]: the filter it installs; true if a record of this
    severity is written.  The format of the records (41-46) is not modelled. *)
Definition shown (level severity : Z) : bool := level <=? severity.
