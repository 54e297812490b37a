(** Timed waits as mbed provides them (C104). *)
From Verif Require Import Base ArduinoWait.
Open Scope Z_scope.

(** mbed's osWaitForever. *)
Definition FOREVER_MS : Z := 4294967295.
(** A wait of [ms] milliseconds that begins at [now] can end at [later] in this way. *)
Definition ends (ms now later : Z) (timed_out : bool) : Prop :=
  now <= later /\ (timed_out = true -> ms <> FOREVER_MS /\ now + ms * 1000000 <= later) /\ (timed_out = false -> ms = FOREVER_MS \/ later <= now + ms * 1000000).
(** 2^32 milliseconds, 49.7 days. *)
Definition LIMIT : Z := 4294967296 * 1000000.
