(** Model of clocks, sleeps, timed waits and joins on Windows: low_level_platform/impl/src/lf_windows_support.c, and the waits of
    single-threaded programs in core/reactor.c that use them.  Simplification: numbers of type double are exact fractions. *)
From Verif Require Import Base.
Open Scope Z_scope.
Local Open Scope list_scope.

Definition BILLION : Z := 1000000000.
(** lf_windows_support.c:53-71 [_lf_initialize_clock]: the answer of QueryPerformanceFrequency; the number by which readings are
    divided, as a fraction *)
Record clock := mkClock { use_performance_counter : bool; to_ns_num : Z; to_ns_den : Z }.
Definition initialize_clock (frequency : option Z) : clock :=
  match frequency with Some f => mkClock true f BILLION | None => mkClock false 1 100 end.
(** lf_windows_support.c:81-107 [_lf_clock_gettime] for a pointer that is not NULL.  [counter] is what QueryPerformanceCounter gives,
    if it does not fail; [high] and [low] are the words of GetSystemTimeAsFileTime.  The result is what is returned and what is
    written. *)
Definition clock_gettime (k : clock) (counter : option Z) (high low : Z) : Z * option Z :=
  if use_performance_counter k then
    match counter with Some c => (0, Some (Z.quot (c * to_ns_den k) (to_ns_num k))) | None => (0, None) end
  else (0, Some (Z.quot (Z.lor (Z.shiftl high 32) low * to_ns_den k) (to_ns_num k))).

Definition TRUE : Z := 1.
Definition FALSE : Z := 0.
(** What happens in one sleep: whether the timer can be created and set, and by how much the thread wakes up later than the timer. *)
Record timer := mkTimer { created : bool; was_set : bool; late : Z }.
(** Windows: a negative due time is relative, in units of 100 ns; others are dates, which have passed long ago. *)
Definition timer_duration (due : Z) : Z := if due <? 0 then - due * 100 else 0.
(** lf_windows_support.c:117-141 [lf_sleep]: what is returned and how long it takes *)
Definition lf_sleep (e : timer) (sleep_duration : Z) : Z * Z :=
  if negb (created e) then (FALSE, 0)
  else if negb (was_set e) then (FALSE, 0)
  else (TRUE, timer_duration (-1 * Z.quot sleep_duration 100) + late e).
(** lf_windows_support.c:143-152 [_lf_interruptable_sleep_until_locked] *)
Definition sleep_until (e : timer) (now wakeup_time : Z) : Z * Z :=
  if wakeup_time - now <=? 0 then (0, 0) else lf_sleep e (wakeup_time - now).
(** core/reactor.c:246-260, with [wait_until] (77-83) when not in fast mode: the tag is advanced if the wait returns 0, otherwise the
    program looks at the queue again.  Simplification: the event at the front of the queue stays there.  The result is the physical
    time at which the tag is advanced. *)
Fixpoint next_wait (es : list timer) (now wakeup_time : Z) : option Z :=
  match es with
  | [] => None
  | e :: es => let '(r, d) := sleep_until e now wakeup_time in if r =? 0 then Some (now + d) else next_wait es (now + d) wakeup_time
  end.

Definition LF_TIMEOUT : Z := 1.
Definition INFINITE : Z := 4294967295.
(** What SleepConditionVariableCS does. *)
Inductive wake := Signalled | TimedOut | Failed.
(** lf_windows_support.c:295-312: the value to return at once, or the number of milliseconds to wait *)
Inductive plan := Return (r : Z) | Wait (ms : Z).
Definition timedwait_plan (now wakeup_time : Z) : res plan :=
  let d := wakeup_time - now in
  if negb (in_int64b d) then UB
  else if d <=? 0 then Ok (Return 0)
  else if negb (in_int64b (d + 999999)) then UB
  else
    let ms := Z.quot (d + 999999) 1000000 in
    if INFINITE <? ms then Ok (Wait INFINITE) else if ms <=? 0 then Ok (Return LF_TIMEOUT) else Ok (Wait ms).
(** lf_windows_support.c:314-326 *)
Definition timedwait_result (w : wake) : Z := match w with Signalled => 0 | TimedOut => LF_TIMEOUT | Failed => -1 end.
(** lf_windows_support.c:293-326 [_lf_cond_timedwait] *)
Definition cond_timedwait (now wakeup_time : Z) (w : wake) : res Z :=
  match timedwait_plan now wakeup_time with Ok (Return r) => Ok r | Ok (Wait _) => Ok (timedwait_result w) | UB => UB end.

Definition WAIT_FAILED : Z := 4294967295.
Definition EINVAL : Z := 22.
(** lf_windows_support.c:190-199 [lf_thread_join] for a thread with the exit status [status]: what is returned and what is stored *)
Definition thread_join (failed : bool) (status : Z) : Z * Z :=
  let retvalue := if failed then WAIT_FAILED else 0 in (if retvalue =? WAIT_FAILED then EINVAL else 0, retvalue).
