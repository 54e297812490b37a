(** Model of the interruptible sleep of the single-threaded runtime,
    [_lf_interruptable_sleep_until_locked] of low_level_platform/impl/src/lf_*_support.c
    and lf_zephyr_clock_*.c.  It is called with interrupts disabled (core/reactor.c:246
    through wait_until, 77-83) and enables them while it waits. *)
From Verif Require Import Base.

(** What happens between two points at which the code looks at the clock, at the flag or at
    the semaphore, while interrupts are enabled: time passes, and an interrupt service
    routine may call [_lf_single_threaded_notify_of_event]. *)
Record moment := mkMoment { elapsed : Z; notified : bool }.

Definition script := list moment.

(** [Returned code t rest]: the return value, the time of return, and what was left of the
    script.  [Failed]: lf_print_error_and_exit. *)
Inductive outcome :=
| Returned (code : Z) (t : Z) (rest : script)
| Asleep
| Failed.

(** All times are in nanoseconds; these clocks have a resolution of a microsecond. *)
Definition clock_us (t : Z) : Z := t / 1000.
Definition clock_ns (t : Z) : Z := 1000 * clock_us t.

(** The last moment before interrupts are disabled again. *)
Definition leave (code : bool -> Z) (t : Z) (flag : bool) (l : script) : outcome :=
  match l with
  | [] => Asleep
  | m :: r => Returned (code (flag || notified m)) (t + elapsed m) r
  end.

(** * Patmos, lf_patmos_support.c:53-71 (Arduino, lf_arduino_support.c:68-87, is the same
    text; but see CriticalSection.v for what its lf_enable_interrupts_nested does) *)

(** Lines 59-61. *)
Fixpoint busy (wakeup t : Z) (flag : bool) (l : script) : outcome :=
  match l with
  | [] => Asleep
  | m :: r =>
      let t' := t + elapsed m in
      let flag' := flag || notified m in
      if (clock_ns t' <? wakeup) && negb flag'
      then busy wakeup t' flag' r
      else leave (fun f => if f then -1 else 0) t' flag' r      (* lines 63-70 *)
  end.

Definition sleep_patmos (wakeup t : Z) (l : script) : outcome := busy wakeup t false l.

(** * A semaphore with a timeout: k_sem_take of Zephyr, sem_acquire_block_until of the
    Pico SDK.  Its count is 0 at the start; a notification raises it to 1. *)
Fixpoint take (deadline t : Z) (l : script) : option (bool * Z * script) :=
  match l with
  | [] => None
  | m :: r =>
      let t' := t + elapsed m in
      if notified m then Some (true, t', r)
      else if deadline <=? t' then Some (false, t', r)
      else take deadline t' r
  end.

(** * Zephyr with the kernel timer, lf_zephyr_clock_kernel.c:82-118, for a clock that is
    exact (PlatformClock.v says how far it is). *)
Definition sleep_kernel (wakeup t : Z) (l : script) : outcome :=
  let duration := wakeup - t in                                    (* line 85 *)
  if duration <=? 0 then Returned 0 t l                            (* lines 86-88 *)
  else match take (t + duration) t l with                          (* lines 92-98 *)
       | None => Asleep
       | Some (got, t', r) =>                                      (* lines 100-117 *)
           leave (fun _ => if got then -1 else 0) t' false r
       end.

(** * RP2040, lf_rp2040_support.c:124-147 *)
Definition sleep_rp2040 (wakeup t : Z) (l : script) : outcome :=
  if wakeup <? 0 then Returned 0 t l                               (* lines 127-129 *)
  else match take (1000 * (wakeup / 1000)) t l with                (* lines 134-143 *)
       | None => Asleep
       | Some (got, t', r) => leave (fun _ => if got then -1 else 0) t' false r
       end.

(** * nRF52, lf_nrf52_support.c:209-269 *)

(** Lines 66-67. *)
Definition LF_MAX_SLEEP_NS : Z := 4294967295 * 1000.
Definition LF_MIN_SLEEP_NS : Z := 5 * 1000.

(** When a 32-bit counter that shows [now] will next become equal to [x]. *)
Definition next_match (now x : Z) : Z := now + 1 + (x - (now + 1)) mod two32.

(** The loop of lines 227-261.  [armed] is the tick at which the compare interrupt will
    come, or None if it has come ([_lf_sleep_interrupted] is false).  [notified] sets
    [_lf_async_event].  __WFE may end without either. *)
Fixpoint nrf_loop (wakeup t duration : Z) (sleep_next : bool) (armed : option Z) (l : script)
    : outcome :=
  match l with
  | [] => Asleep
  | m :: r =>
      let '(duration', sleep_next', at_tick) :=
        match armed with
        | Some a => (duration, sleep_next, a)                      (* line 229 *)
        | None =>
            let curr := clock_us t in                              (* line 230 *)
            if LF_MAX_SLEEP_NS <? duration                         (* lines 233-235 *)
            then (duration - LF_MAX_SLEEP_NS, sleep_next, next_match curr (curr - 1))
            else (duration, false, next_match curr (wakeup / 1000)) (* lines 236-239 *)
        end in
      let t' := t + elapsed m in                                   (* lines 245-252 *)
      let fired := at_tick <=? clock_us t' in                      (* line 95 *)
      if negb (notified m) && (sleep_next' || negb fired)          (* line 261 *)
      then nrf_loop wakeup t' duration' sleep_next' (if fired then None else Some at_tick) r
      else Returned (if notified m then -1 else 0) t' r            (* lines 263-268 *)
  end.

(** Lines 210-225.  The busy wait of line 216, with interrupts disabled, ends when the
    clock shows the wake-up time. *)
Definition sleep_nrf52 (wakeup t : Z) (l : script) : outcome :=
  let duration := wakeup - clock_ns t in
  if duration <=? 0 then Returned 0 t l
  else if duration <? LF_MIN_SLEEP_NS
  then Returned 0 (1000 * ((wakeup + 999) / 1000)) l
  else nrf_loop wakeup t duration true None l.

(** * Zephyr with a hardware counter, lf_zephyr_clock_counter.c:148-203, for a clock that is
    exact to the microsecond *)

(** The board: api/platform/lf_zephyr_board_support.h:47-84, and the counter. *)
Record board := mkBoard {
  wakeup_overhead_us : Z; min_sleep_us : Z; runtime_overhead_us : Z;
  epoch_us : Z;                  (* epoch_duration_usec, line 94 *)
  ticks_per_us : Z;              (* counter_us_to_ticks; a whole number here *)
  top_value : Z }.               (* counter_set_channel_alarm refuses more ticks than this *)

(** Lines 162-166. *)
Definition alarm_ticks (b : board) (sleep_for_us : Z) : Z :=
  if sleep_for_us <? epoch_us b
  then (ticks_per_us b * (sleep_for_us - wakeup_overhead_us b)) mod two32
  else UINT_MAX.

(** Lines 191-202, with no event: busy wait, with interrupts disabled. *)
Definition finish (b : board) (t sleep_for_us : Z) (l : script) : outcome :=
  let t' := if runtime_overhead_us b <? sleep_for_us
            then t + 1000 * (sleep_for_us - runtime_overhead_us b) else t in
  Returned 0 t' l.

(** The loop of lines 161-188; [armed] as above, in ns. *)
Fixpoint counter_loop (b : board) (wakeup t : Z) (armed : option Z) (l : script) : outcome :=
  let sleep_for_us := Z.quot (wakeup - clock_ns t) 1000 in         (* lines 159 and 186 *)
  let alarm :=
    match armed with
    | Some a => Some (Some a)
    | None =>
        if wakeup_overhead_us b + min_sleep_us b <? sleep_for_us   (* line 161 *)
        then let n := alarm_ticks b sleep_for_us in
             if top_value b <? n then None                         (* lines 169-173 *)
             else Some (Some (t + 1000 * n / ticks_per_us b))
        else Some None
    end in
  match alarm with
  | None => Failed
  | Some None => finish b t sleep_for_us l
  | Some (Some a) =>
      match l with
      | [] => Asleep
      | m :: r =>                                                  (* lines 175-181 *)
          let t' := t + elapsed m in
          if notified m then Returned (-1) t' r                    (* lines 195-199 *)
          else counter_loop b wakeup t' (if a <=? t' then None else Some a) r
      end
  end.

Definition sleep_counter (b : board) (wakeup t : Z) (l : script) : outcome :=
  counter_loop b wakeup t None l.

(** * FlexPRET, lf_flexpret_support.c:107-116 and 50-105.  The waiting for the epochs of the
    32-bit timer is simplified to waiting for the wake-up time (the comments on lines 82-83
    say that it does not work yet). *)
Fixpoint flexpret_wait (wakeup t : Z) (l : script) : outcome :=
  match l with
  | [] => Asleep
  | m :: r =>
      let t' := t + elapsed m in
      if notified m || (wakeup <=? t')                             (* lines 78-104 *)
      then leave (fun _ => if notified m then 1 else 0) t' false r  (* lines 114-115 *)
      else flexpret_wait wakeup t' r
  end.

(** Line 109 enables interrupts; line 76 clears the flag afterwards. *)
Definition sleep_flexpret (wakeup t : Z) (l : script) : outcome :=
  match l with
  | [] => Asleep
  | m :: r => flexpret_wait wakeup (t + elapsed m) r
  end.
