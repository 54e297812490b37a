(** What the platform promises (C103), see low_level_platform/api/low_level_platform.h. *)
From Verif Require Import Base Windows.
Open Scope Z_scope.
Local Open Scope list_scope.

(** Timers that work. *)
Definition works (e : timer) : Prop := created e = true /\ was_set e = true /\ 0 <= late e.
(** A timed wait of [ms] milliseconds that begins at [now] can end like this at [later]; an infinite one never times out. *)
Definition ends (ms now later : Z) (w : wake) : Prop :=
  now <= later /\ match w with TimedOut => ms <> INFINITE /\ now + ms * 1000000 <= later | _ => True end.
