(** What a platform clock promises (low_level_platform/api/low_level_platform.h:290-299:
    "the current time in nanoseconds"; core/clock.c relies on it to advance). *)
From Verif Require Import Base PlatformClock.

(** Each value is at least the one before. *)
Fixpoint nondecreasing (l : list Z) : Prop :=
  match l with
  | [] => True
  | a :: r => match r with [] => True | b :: _ => a <= b end /\ nondecreasing r
  end.

(** The result is the true time at some instant of the call ([scale] ns per tick). *)
Definition true_time (scale : Z) (r : reading) : Prop :=
  exists t, from r <= t <= upto r /\ value r = scale * t.

(** Conditions on a history for a counter with the given period: time does not run
    backwards, no overflow happens while an earlier one is still waiting to be handled,
    and a reading takes less than a period and no overflow is left waiting at its end. *)
Definition op_ok (period : Z) (h : hw) (o : op) : Prop :=
  match o with
  | Pass d =>
      0 <= d /\
      (masked h = true ->
       (ticks h + d) / period <= ticks h / period + (if pending h then 0 else 1))
  | Mask | Unmask => True
  | Read d1 d2 d3 =>
      0 <= d1 /\ 0 <= d2 /\ 0 <= d3 /\ d1 + d2 + d3 < period /\
      pending h = false /\
      (masked h = true -> (ticks h + d1 + d2 + d3) / period = ticks h / period)
  end.

(** The hardware evolves in the same way whatever the program reads. *)
Definition hw_next (period : Z) (h : hw) (o : op) : hw :=
  match o with
  | Pass d => pass period h d
  | Mask => mask h
  | Unmask => unmask h
  | Read d1 d2 d3 => pass period (pass period (pass period h d1) d2) d3
  end.

Fixpoint history_ok (period : Z) (h : hw) (l : list op) : Prop :=
  match l with
  | [] => True
  | o :: r => op_ok period h o /\ history_ok period (hw_next period h o) r
  end.

(** The ticks that have passed at the end. *)
Fixpoint total (l : list op) : Z :=
  match l with
  | [] => 0
  | Pass d :: r => d + total r
  | Read d1 d2 d3 :: r => d1 + d2 + d3 + total r
  | _ :: r => total r
  end.

(** A counter that counts. *)
Definition zcfg_ok (c : zcfg) : Prop := 0 < freq c /\ 0 < top c.

(** Readings during which the counter does not wrap. *)
Definition no_wrap (P : Z) (h : hw) (o : op) : Prop :=
  match o with
  | Read d1 d2 d3 => (ticks h + d1 + d2 + d3) / P = ticks h / P
  | _ => True
  end.

Fixpoint no_wraps (P : Z) (h : hw) (l : list op) : Prop :=
  match l with
  | [] => True
  | o :: r => no_wrap P h o /\ no_wraps P (hw_next P h o) r
  end.

(** The readings a history asks for. *)
Definition reads (l : list op) : nat :=
  length (filter (fun o => match o with Read _ _ _ => true | _ => false end) l).
