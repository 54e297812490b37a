(** Specification of the start of a federation. *)
From Verif Require Import Base Tag TagSpec StartGrants.

(** The operation belongs to one of the federates. *)
Definition within (tp : topology) (o : op) : Prop :=
  match o with Timestamp i | Wake i | Write i | Mark i | Ltc i _ | Resume i | Die i => (i < size tp)%nat end.
(** Nothing is sent, or first the start time and then only grants ([l]: last first). *)
Definition begins_with_start (l : list message) : Prop := l = [] \/ exists g, l = g ++ [Start] /\ Forall (fun m => m <> Start) g.
(** Every upstream federate of [e] that is still there has completed [t]. *)
Definition safe (tp : topology) (s : state) (e : nat) (t : tag) : Prop := forall u, In u (ups tp e) -> stat s u = NotConnected \/ tag_le t (completed s u).
(** No thread that waits or is about to do something can go on. *)
Definition quiet (tp : topology) (s : state) : Prop := forall i, (i < size tp)%nat -> step tp s (Wake i) = None /\ step tp s (Write i) = None /\ step tp s (Mark i) = None /\ step tp s (Resume i) = None.
(** The grants to a federate, last first, are decreasing. *)
Fixpoint ordered (l : list message) : Prop :=
  match l with Grant t :: l' => (forall x, In (Grant x) l' -> tag_lt x t) /\ ordered l' | _ :: l' => ordered l' | [] => True end.
(** What the coordinator's threads do by themselves, without a message from a federate. *)
Definition own (o : op) : Prop := match o with Wake _ | Write _ | Mark _ | Resume _ => True | _ => False end.
(** Every operation of the list is possible when its turn comes. *)
Fixpoint possible (tp : topology) (s : state) (l : list op) : Prop :=
  match l with [] => True | o :: l => match step tp s o with Some s => possible tp s l | None => False end end.
(** No federate dies; no tag is completed. *)
Definition notdie (o : op) : Prop := match o with Die _ => False | _ => True end.
Definition notltc (o : op) : Prop := match o with Ltc _ _ => False | _ => True end.
(** The connections stay inside the federation. *)
Definition inside (tp : topology) : Prop := forall i e, (i < size tp)%nat -> In e (downs tp i) -> (e < size tp)%nat.
(** An upstream federate knows its downstream federates. *)
Definition linked (tp : topology) : Prop := forall e u, In u (ups tp e) -> In e (downs tp u).
