(** Specification vocabulary for C64. *)
From Verif Require Import Base Tag Schedule Runtime.
Open Scope Z_scope.

(** The tags at which a timer is supposed to fire: at its offset after the start, then
    periodically if the period is not zero; always at microstep 0. *)
Definition due (start offset period : Z) (t : tag) : Prop :=
  exists k, 0 <= k /\ (period = 0 -> k = 0) /\ start + offset + k * period < FOREVER /\ t = mkTag (start + offset + k * period) 0.

(** The events of a trigger that were handled at one tag. *)
Definition of_trigger (tr : nat) (v : event) : bool := match ev_trig v with Some u => Nat.eqb u tr | None => false end.
Definition firings (tr : nat) (x : line) : list event := filter (of_trigger tr) (l_events x).

(** Reactions have no way to schedule a timer. *)
Definition leaves_alone (tr : nat) (a : uact) : Prop := match a with ASched _ u _ _ => u <> tr | _ => True end.
Definition turn_leaves_alone (tr : nat) (x : turn) : Prop := match x with TStep _ l => Forall (leaves_alone tr) l | TIntr l => Forall (leaves_alone tr) l end.
