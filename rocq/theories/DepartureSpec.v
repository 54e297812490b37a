(** Specification of departures. *)
From Verif Require Import Base Tag TagSpec RtiDelays Rti Departure.
Open Scope Z_scope.

(** Connections are recorded at both ends. *)
Definition mirrored (tp : topo) : Prop := forall k d e, In (k, d) (tp_up tp e) -> In e (tp_down tp k).
(** The federate that sends a message. *)
Definition sender (o : rop) : nat := match o with RNet i _ | RLtc i _ | RRemove i _ | RMsg i _ _ | RAbsent i _ _ | RResign i => i end.
(** The tag in a message is a tag. *)
Definition tag_in_range (o : rop) : Prop :=
  match o with RNet _ t | RLtc _ t | RRemove _ t | RMsg _ _ t | RAbsent _ _ t => tag_le t FOREVER_TAG | RResign _ => True end.
(** A history in which federates say goodbye, and all writes to sockets succeed. *)
Definition orderly (l : list (dop * (nat -> bool))) : Prop :=
  Forall (fun x => match fst x with DMsg o => tag_in_range o | DClosed _ => False end /\ forall i, snd x i = true) l.
(** All federates that [j] waits for have left. *)
Definition orphan (tp : topo) (s : rti) (j : nat) : Prop :=
  tp_up tp j <> [] /\ forall k d, In (k, d) (tp_up tp j) -> r_connected (s k) = false.
