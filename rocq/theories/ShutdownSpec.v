(** Specification of the end of a federation. *)
From Verif Require Import Base Shutdown.
Local Open Scope nat_scope.

(** An operation of one of [n] federates. *)
Definition within (n : nat) (o : op) : Prop :=
  match o with Terminate i _ | Main i | HearRti i | Rti i | Serve i => i < n | Hear k i => k < n /\ i < n end.
(** How often somebody acts in a run, not counting messages that are served. *)
Fixpoint actions (n : nat) (link : nat -> nat -> bool) (s : state) (l : list op) : nat :=
  match l with
  | [] => 0
  | o :: l => match step n link s o with Some s' => (match o with Serve _ => 0 | _ => 1 end) + actions n link s' l | None => actions n link s l end
  end.
(** Nobody can act any more, except that further federates may begin to terminate. *)
Definition quiet (n : nat) (link : nat -> nat -> bool) (s : state) : Prop :=
  forall o, within n o -> match o with Terminate _ _ | Serve _ => True | _ => step n link s o = None end.
Definition over (s : state) (i : nat) : Prop := place_of s i = Exited /\ thread_of s i = RDone.
(** The coordinator handles no message of any of the [n] federates in [s]. *)
Definition deaf (n : nat) (link : nat -> nat -> bool) (s : state) : Prop := forall i, i < n -> step n link s (Serve i) = None.
