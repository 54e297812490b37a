(** What happens to the reactions that report absent outputs (C102). *)
From Verif Require Import Base PortAbsent.
Local Open Scope list_scope.

(** How often a reaction is in a queue. *)
Definition times (r : nat) (q : list nat) : nat := count_occ Nat.eq_dec q r.
(** A federate that has to tell others about absent outputs. *)
Definition must_tell (centralized has_downstream : bool) : Prop := centralized = false \/ has_downstream = true.
(** A scheduler in which the reactions that are not inactive, and only these, are in the queue once. *)
Definition orderly (s : sched) : Prop := forall r, times r (q_queue s) = if is_inactive (q_status s r) then 0%nat else 1%nat.
