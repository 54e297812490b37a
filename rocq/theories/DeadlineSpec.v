(** Deadlines, independently of the code. *)
From Verif Require Import Base Deadline.

(** Deadlines are compared up to 2^48 - 1 nanoseconds (about three days). *)
Definition capped (d : Z) : Z := Z.min d 281474976710655.

(** First by deadline, then by level. *)
Definition before (d1 l1 d2 l2 : Z) : Prop :=
  capped d1 < capped d2 \/ (capped d1 = capped d2 /\ l1 < l2).

(** A reaction with a deadline starts in time if its deadline is not zero and
    the physical clock is not past the logical time plus the deadline. *)
Definition in_time (now phys : Z) (r : reaction) : Prop :=
  r_deadline r < 0 \/ (0 < r_deadline r /\ phys <= now + r_deadline r).

(** The number of times an event occurs. *)
Definition event_eq_dec (a b : event) : {a = b} + {a <> b}.
Proof. decide equality. Defined.
Definition times (e : event) (l : list event) : nat := count_occ event_eq_dec l e.

(** After a function of the reaction has run, the reactions it triggered are
    scheduled before anything else happens. *)
Fixpoint outputs_follow (l : list event) : Prop :=
  match l with
  | [] => True
  | Outputs :: _ | CallNull :: _ => False
  | _ :: Outputs :: r => outputs_follow r
  | _ :: _ => False
  end.
