(** Model of the platform clocks that build a 64-bit time from a hardware counter:
    [_lf_clock_gettime] of low_level_platform/impl/src/lf_nrf52_support.c,
    lf_arduino_support.c, lf_zephyr_clock_counter.c, lf_zephyr_clock_kernel.c, and the
    conversions of lf_unix_clock_support.c. *)
From Verif Require Import Base.

(** Signed 64-bit multiplication of ISO C. *)
Definition c_mul64 (a b : Z) : res Z :=
  if in_int64b (a * b) then Ok (a * b) else UB.

(** * The hardware

    A free running counter with [period] values that raises an interrupt when it wraps
    to zero.  [ticks] is the number of ticks since the start (the ground truth);
    [handled] is how often the interrupt handler has run.  While interrupts are masked an
    overflow only sets the pending bit, so several overflows are merged into one. *)
Record hw := mkHw {
  ticks : Z;
  handled : Z;
  masked : bool;
  pending : bool }.

Definition hw0 : hw := mkHw 0 0 false false.

(** The value of the counter register. *)
Definition counter (period : Z) (h : hw) : Z := ticks h mod period.

(** [d] ticks pass.  An unmasked interrupt is taken before the next instruction. *)
Definition pass (period : Z) (h : hw) (d : Z) : hw :=
  let t := ticks h + d in
  let w := t / period - ticks h / period in
  if w <=? 0 then mkHw t (handled h) (masked h) (pending h)
  else if masked h then mkHw t (handled h) true true
  else mkHw t (handled h + w) false (pending h).

Definition mask (h : hw) : hw := mkHw (ticks h) (handled h) true (pending h).

(** A pending interrupt is taken as soon as interrupts are unmasked. *)
Definition unmask (h : hw) : hw :=
  mkHw (ticks h) (if pending h then handled h + 1 else handled h) false false.

(** * nRF52, lf_nrf52_support.c *)

(** [lf_timer_event_handler], lines 92-99: [_lf_time_us_high += 1] at each overflow
    (line 97).  The variable is an uint32_t. *)
Definition nrf_high (h : hw) : Z := handled h mod two32.

(** [_lf_clock_gettime], lines 142-158.  The counter runs at 1 MHz with 32 bits (lines
    111-117).  Time passes between the reads of the volatile variable and of the timer:
    [d1] between lines 145 and 146, [d2] between 146 and 147, [d3] between 147 and 152. *)
Definition nrf_gettime (h : hw) (d1 d2 d3 : Z) : hw * res Z :=
  let hi_pre := nrf_high h in
  let h1 := pass two32 h d1 in
  let low := counter two32 h1 in
  let h2 := pass two32 h1 d2 in
  let hi_post := nrf_high h2 in
  let h3 := pass two32 h2 d3 in
  let low' := if hi_pre =? hi_post then low else counter two32 h3 in
  (h3, c_mul64 (hi_post * two32 + low') 1000).

(** What the rest of the program and the passage of time do between readings. *)
Inductive op :=
| Pass (d : Z)
| Mask                           (* a critical section is entered *)
| Unmask                         (* the outermost critical section is left *)
| Read (d1 d2 d3 : Z).           (* _lf_clock_gettime *)

(** A reading: the ticks when the call began and ended, and its result. *)
Record reading := mkReading { from : Z; upto : Z; value : Z }.

Definition nrf_step (h : hw) (o : op) : res (hw * list reading) :=
  match o with
  | Pass d => Ok (pass two32 h d, [])
  | Mask => Ok (mask h, [])
  | Unmask => Ok (unmask h, [])
  | Read d1 d2 d3 =>
      let (h', r) := nrf_gettime h d1 d2 d3 in
      do! v <- r; Ok (h', [mkReading (ticks h) (ticks h') v])
  end.

Fixpoint nrf_run (h : hw) (l : list op) : res (hw * list reading) :=
  match l with
  | [] => Ok (h, [])
  | o :: l' =>
      do! x <- nrf_step h o;
      do! y <- nrf_run (fst x) l';
      Ok (fst y, snd x ++ snd y)
  end.

(** * Arduino, lf_arduino_support.c *)

(** Lines 58-59; both start at 0. *)
Record arduino := mkArduino { time_us_high : Z; time_us_low_last : Z }.

Definition arduino0 : arduino := mkArduino 0 0.

(** [_lf_clock_gettime], lines 112-126; [micros()] is the 32-bit microsecond counter.
    Line 124 is unsigned arithmetic, its conversion to instant_t wraps. *)
Definition arduino_gettime (a : arduino) (t : Z) : arduino * Z :=
  let now_us_low := t mod two32 in
  let high := if now_us_low <? time_us_low_last a
              then (time_us_high a + 1) mod two32 else time_us_high a in
  (mkArduino high (time_us_low_last a),
   wrap64 (((high * two32 + now_us_low) * 1000) mod two64)).

(** The readings at the given ticks, one after the other. *)
Fixpoint arduino_run (a : arduino) (ts : list Z) : list Z :=
  match ts with
  | [] => []
  | t :: r => let (a', v) := arduino_gettime a t in v :: arduino_run a' r
  end.

(** [lf_clock_gettime], core/clock.c:22-45, called from a single thread: [last] is
    [last_read_physical_time].  (Clock.v has the concurrent version.) *)
Fixpoint lf_clock (last : Z) (raw : list Z) : list Z :=
  match raw with
  | [] => []
  | n :: r => let now := if n <? last then last + 1 else n in now :: lf_clock now r
  end.

(** * Zephyr with the Counter API, lf_zephyr_clock_counter.c *)

(** The frequency of the counter and its largest value. *)
Record zcfg := mkZcfg { freq : Z; top : Z }.

(** [counter_ticks_to_us] of Zephyr: [((uint64_t)ticks * USEC_PER_SEC) / freq]. *)
Definition ticks_to_us (c : zcfg) (n : Z) : Z := (n * 1000000) / freq c.

(** [_lf_initialize_clock], lines 94-95. *)
Definition epoch_duration_nsec (c : zcfg) : Z := ticks_to_us c (top c) * 1000.

(** Line 59: [last_epoch_nsec] after the handler has run [handled] times. *)
Definition last_epoch_nsec (c : zcfg) (h : hw) : Z := handled h * epoch_duration_nsec c.

(** [_lf_clock_gettime], lines 123-142.  [d] ticks pass between the read of the counter
    (line 129) and the read of [last_epoch_nsec] (line 130).  The counter has the values
    0..top.  [last] is the static [last_nsec].  A value outside int64_t is modelled as
    undefined (lines 59 and 138). *)
Definition zephyr_gettime (c : zcfg) (h : hw) (last : Z) (d : Z) : hw * res Z :=
  let now_cycles := counter (top c + 1) h in
  let h1 := pass (top c + 1) h d in
  let now := ticks_to_us c now_cycles * 1000 + last_epoch_nsec c h1 in
  let now' := if now <? last then last + 1 else now in
  (h1, if in_int64b now' then Ok now' else UB).

Record zephyr := mkZephyr { zhw : hw; last_nsec : Z }.

Definition zephyr0 : zephyr := mkZephyr hw0 0.

Definition zephyr_step (c : zcfg) (z : zephyr) (o : op) : res (zephyr * list reading) :=
  let h := zhw z in
  match o with
  | Pass d => Ok (mkZephyr (pass (top c + 1) h d) (last_nsec z), [])
  | Mask => Ok (mkZephyr (mask h) (last_nsec z), [])
  | Unmask => Ok (mkZephyr (unmask h) (last_nsec z), [])
  | Read d1 d2 d3 =>
      (* only one interval matters here *)
      let (h', r) := zephyr_gettime c h (last_nsec z) (d1 + d2 + d3) in
      do! v <- r; Ok (mkZephyr h' v, [mkReading (ticks h) (ticks h') v])
  end.

Fixpoint zephyr_run (c : zcfg) (z : zephyr) (l : list op) : res (zephyr * list reading) :=
  match l with
  | [] => Ok (z, [])
  | o :: l' =>
      do! x <- zephyr_step c z o;
      do! y <- zephyr_run c (fst x) l';
      Ok (fst y, snd x ++ snd y)
  end.

(** * Zephyr with the kernel timer, lf_zephyr_clock_kernel.c *)

(** [TICKS_TO_NSEC], lines 45-61, for CONFIG_SYS_CLOCK_TICKS_PER_SEC = [f];
    MSEC, USEC, NSEC, SECONDS are those of tag/api/tag.h:14-23. *)
Definition ticks_to_nsec (f n : Z) : res Z :=
  if f =? 100 then do! m <- c_mul64 10 n; c_mul64 m 1000000
  else if f =? 1000 then c_mul64 n 1000000
  else if f =? 10000 then do! m <- c_mul64 100 n; c_mul64 m 1000
  else if f =? 100000 then do! m <- c_mul64 10 n; c_mul64 m 1000
  else if f =? 1000000 then do! m <- c_mul64 1 n; c_mul64 m 1000
  else if f =? 10000000 then do! m <- c_mul64 100 n; c_mul64 m 1
  else c_mul64 (1000000000 / f) n.

(** * POSIX, lf_unix_clock_support.c *)

Definition BILLION : Z := 1000000000.

Record timespec := mkTimespec { tv_sec : Z; tv_nsec : Z }.

(** [convert_timespec_to_ns], line 9. *)
Definition convert_timespec_to_ns (tp : timespec) : res Z :=
  do! s <- c_mul64 (tv_sec tp) BILLION; c_add64 s (tv_nsec tp).

(** [convert_ns_to_timespec], lines 11-16; division of C truncates towards zero. *)
Definition convert_ns_to_timespec (t : Z) : timespec :=
  mkTimespec (Z.quot t BILLION) (Z.rem t BILLION).
