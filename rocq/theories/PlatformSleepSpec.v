(** What an interruptible sleep promises (low_level_platform/api/low_level_platform.h:308-318:
    "return 0 if sleep completed, or -1 if it was interrupted"). *)
From Verif Require Import Base PlatformSleep.

(** The time a part of the script takes. *)
Definition span (l : script) : Z := fold_right Z.add 0 (map elapsed l).

Definition forward (l : script) : Prop := Forall (fun m => 0 <= elapsed m) l.

(** Someone notified. *)
Definition noticed (l : script) : Prop := exists m, In m l /\ notified m = true.

(** The sleep returns 0 only when the wake-up time has come (give or take [early]), a
    nonzero value only if an event was notified, and once an event has been notified it
    returns without waiting any longer: at most the moment before interrupts are disabled
    again follows. *)
Definition sound (early : Z) (sleep : Z -> Z -> script -> outcome) : Prop :=
  forall wakeup t l code t' rest,
    0 <= t -> forward l -> sleep wakeup t l = Returned code t' rest ->
    exists used, l = used ++ rest /\ t + span used <= t' /\
      (code = 0 /\ wakeup - early <= t' \/ code = -1 /\ noticed used) /\
      (forall a m b, used = a ++ m :: b -> notified m = true -> (length b <= 1)%nat).

(** The sleep ends: if someone notifies or the wake-up time passes, it returns (two more
    moments are allowed for noticing it and for leaving). *)
Definition ends (slack : Z) (sleep : Z -> Z -> script -> outcome) : Prop :=
  forall wakeup t l m1 m2,
    0 <= t -> forward (l ++ [m1]) -> noticed l \/ wakeup + slack <= t + span l ->
    exists code t' rest, sleep wakeup t (l ++ [m1; m2]) = Returned code t' rest.

(** The constants of a board. *)
Definition board_ok (b : board) : Prop :=
  0 <= wakeup_overhead_us b /\ 0 <= min_sleep_us b /\ 0 <= runtime_overhead_us b /\ 0 < ticks_per_us b.

(** A counter that can be programmed for a whole epoch. *)
Definition full_counter (b : board) : Prop :=
  top_value b = UINT_MAX /\ epoch_us b = UINT_MAX / ticks_per_us b.
