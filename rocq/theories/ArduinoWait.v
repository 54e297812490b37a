(** Model of timed waits of threaded programs on Arduino boards with mbed: [_lf_cond_timedwait] in
    low_level_platform/impl/src/lf_arduino_support.c, [condition_wait_for] in arduino_mbed/ConditionWrapper.cpp, and [wait_until] in
    core/threaded/reactor_threaded.c that uses them.  The offset of clock synchronization is 0. *)
From Verif Require Import Base.
Open Scope Z_scope.

Definition LF_TIMEOUT : Z := 1.
(** The type of the argument of mbed's ConditionVariable::wait_for is uint32_t. *)
Definition uint32 (z : Z) : Z := z mod 2 ^ 32.
(** ConditionWrapper.cpp:49-52 [condition_wait_for]: the number of milliseconds to wait *)
Definition wait_for_ms (wakeup_time : Z) : Z := uint32 (Z.quot wakeup_time 1000000).
(** lf_arduino_support.c:225-228: the number of milliseconds that a wait lasts *)
Definition timedwait_ms (now wakeup_time : Z) : res Z := if in_int64b (wakeup_time - now) then Ok (wait_for_ms (wakeup_time - now)) else UB.
(** lf_arduino_support.c:224-234 [_lf_cond_timedwait]; wait_for returns true if it timed out *)
Definition cond_timedwait (now wakeup_time : Z) (timed_out : bool) : res Z :=
  match timedwait_ms now wakeup_time with Ok _ => Ok (if negb timed_out then 0 else LF_TIMEOUT) | UB => UB end.
(** include/core/reactor_common.h:45 *)
Definition MIN_SLEEP_DURATION : Z := 10000.
(** reactor_threaded.c:197-228 [wait_until]; the clock is read at [now1] and, for the wait itself, at [now2] *)
Definition wait_until (fast : bool) (now1 now2 wait_until_time : Z) (timed_out : bool) : res bool :=
  if fast then Ok true
  else if negb (in_int64b (wait_until_time - now1)) then UB
  else if wait_until_time - now1 <? MIN_SLEEP_DURATION then Ok true
  else match cond_timedwait now2 wait_until_time timed_out with Ok r => Ok (r =? LF_TIMEOUT) | UB => UB end.
