(** What the status of a network input port means. *)
From Verif Require Import Base Tag TagSpec PortStatus.

(** Whether a message sent by the upstream federate at or after the start tag
    can have tag [c] or an earlier one when it arrives over a connection with
    delay [d].  (At the last microstep of a time a delay of one microstep wraps:
    see C04.) *)
Definition can_arrive (start d : Z) (c : tag) : Prop :=
  exists s, tag_ok s /\ tmicro s < UINT_MAX /\ tag_le (mkTag start 0) s /\ tag_le (delay_tag s d) c.

(** With centralized coordination a grant says that everything before its tag is
    known, and a non-provisional one that its tag is known as well.  A
    provisional grant leaves open, at its own tag, the inputs that are part of a
    cycle without delay. *)
Definition granted (s : fed) : Prop :=
  tag_lt (cur s) (last_grant s) \/ (cur s = last_grant s /\ provisional s = false).

(** The status of the port is not known at the current tag: nothing received
    says what it is, and a message for the current tag can still come. *)
Definition unknown (dec : bool) (start : Z) (s : fed) (p : port) : Prop :=
  physical p = false /\ tag_lt (known p) (cur s) /\
  if dec then can_arrive start (delay p) (cur s)
  else in_cycle p = true /\ ~ granted s.

(** The maximum level allowed to advance is right: not above the level of any
    unknown port, unlimited exactly if there is none, and otherwise the level of
    one of them (so that nothing is held back without need). *)
Definition mlaa_right (dec : bool) (start : Z) (s : fed) : Prop :=
  (forall p, In p (ports s) -> unknown dec start s p -> mlaa s <= level p) /\
  (mlaa s = INT_MAX <-> forall p, In p (ports s) -> ~ unknown dec start s p) /\
  (mlaa s <> INT_MAX -> exists p, In p (ports s) /\ unknown dec start s p /\ level p = mlaa s).

(** Ports as the code generator emits them. *)
Definition port_ok (p : port) : Prop :=
  tag_ok (known p) /\ 0 <= level p < 65536 /\ in_int64 (delay p) /\ delay p < FOREVER.

(** The tag known for port [i]. *)
Definition known_at (s : fed) (i : nat) : option tag := option_map known (nth_error (ports s) i).

Definition op_ok (start : Z) (o : op) : Prop :=
  match o with
  | OTag t | OPtag t => tag_ok t
  | OMessageNow _ t | OMessageLater _ t | OAbsent _ t => tag_ok t
  | OAssumeAbsent _ | OGone _ => True
  | OAdvance t => tag_ok t /\ tag_le (mkTag start 0) t /\ ttime t < FOREVER
  end.

(** No grant is older than the one before it (what the coordinator guarantees:
    see C41). *)
Definition fresh_grant (s : fed) (o : op) : Prop :=
  match o with OTag t => tag_le (last_grant s) t | _ => True end.

Fixpoint ok_run (dec : bool) (start : Z) (s : fed) (l : list op) : Prop :=
  match l with
  | [] => True
  | o :: r =>
      op_ok start o /\ fresh_grant s o /\
      match step dec start s o with None => True | Some s' => ok_run dec start s' r end
  end.

(** Every tag in the operations leaves room for [n] increments of its microstep;
    a grant of FOREVER is possible with centralized coordination only. *)
Definition room (n : Z) (t : tag) : Prop := tmicro t + n < UINT_MAX.
Definition op_room (dec : bool) (n : Z) (o : op) : Prop :=
  match o with
  | OTag t => room n t \/ (dec = false /\ t = FOREVER_TAG)
  | OPtag _ | OAssumeAbsent _ | OGone _ => True
  | OMessageNow _ t | OMessageLater _ t | OAbsent _ t => room n t
  | OAdvance t => room n t
  end.

(** The end of file of each peer is seen at most once. *)
Definition gones (l : list op) : list nat :=
  flat_map (fun o => match o with OGone f => [f] | _ => [] end) l.

(** The next microstep. *)
Definition next (t : tag) : tag := mkTag (ttime t) (tmicro t + 1).

(** What the federate has been told in one step about port [i]: that its status
    is known up to the tag. *)
Definition told (dec : bool) (s : fed) (o : op) (i : nat) (t : tag) : Prop :=
  match o with
  | OTag g => t = g
  | OMessageNow j m | OMessageLater j m | OAbsent j m => j = i /\ (t = m \/ t = cur s)
  | OAssumeAbsent j => j = i /\ t = cur s
  | OGone f => option_map source (nth_error (ports s) i) = Some f /\ t = FOREVER_TAG
  | OPtag _ | OAdvance _ => False
  end.

(** Before advancing to a tag the status of every input up to all earlier tags
    is settled. *)
Definition settled_before (s : fed) (t : tag) : Prop :=
  forall p x, In p (ports s) -> tag_ok x -> tag_lt x t -> tag_le x (known p).
