(** Model of the check of the tracing plugin when a program starts: [check_version] and [initialize_global] in
    core/reactor_common.c, the version in trace/impl/src/trace_impl.c and [LF_ASSERT] in logging/api/logging_macros.h. *)
From Verif Require Import Base.
Open Scope Z_scope.

(** version/api/lf_core_version.h:16-31 *)
Inductive tribool := TFalse | TTrue | TDoesNotMatter.
Record version := mkVersion { v_single_threaded : tribool; v_debug : tribool; v_log_level : Z; v_core : option Z (* simplification: a name is a number *) }.
(** How a program is compiled: the symbols LF_SINGLE_THREADED, NDEBUG, LOG_LEVEL and LF_TRACE. *)
Record build := mkBuild { b_single_threaded : bool; b_ndebug : bool; b_log_level : Z; b_trace : bool }.
Inductive complaint := ExpectedSingle | ExpectedMulti | ExpectedRelease | ExpectedDebug | ExpectedLevel (l : Z).
Inductive start := Goes | Stops (c : complaint).

(** logging_macros.h:83-94 [LF_ASSERT]: with NDEBUG the condition is computed and dropped *)
Definition lf_assert (ndebug condition : bool) (c : complaint) (rest : start) : start :=
  if ndebug then rest else if condition then rest else Stops c.
Definition is (t : tribool) (b : bool) : bool := match t, b with TFalse, false | TTrue, true | TDoesNotMatter, _ => true | _, _ => false end.
Definition INT_MAX : Z := 2147483647.
(** reactor_common.c:1056-1078 [check_version]; the name of the core is not looked at *)
Definition check_version (p : build) (v : version) : start :=
  lf_assert (b_ndebug p) (is (v_single_threaded v) (b_single_threaded p)) (if b_single_threaded p then ExpectedSingle else ExpectedMulti)
    (lf_assert (b_ndebug p) (is (v_debug v) (negb (b_ndebug p))) (if b_ndebug p then ExpectedRelease else ExpectedDebug)
      (lf_assert (b_ndebug p) ((v_log_level v =? b_log_level p) || (v_log_level v =? INT_MAX))%bool (ExpectedLevel (b_log_level p)) Goes)).
(** reactor_common.c:1080-1084 [initialize_global], its first lines *)
Definition initialize_global (p : build) (v : version) : start := if b_trace p then check_version p v else Goes.
(** trace_impl.c:27-37, 207: the version of the plugin of this repository, compiled with or without NDEBUG for a level *)
Definition plugin_version (ndebug : bool) (log_level : Z) : version := mkVersion TDoesNotMatter (if ndebug then TFalse else TTrue) log_level None.
(** trace/impl/build.sh:3: no build type, level 4 *)
Definition build_sh : version := plugin_version false 4.
