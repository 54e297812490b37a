(** What the offsets of decentralized coordination are for. *)
From Verif Require Import Base Tag TagSpec RtiDelays Rti Federation Decentralized.
From Verif Require PortStatus PortStatusSpec.
Local Open Scope Z_scope.

(** The start time and the offsets are not negative, and the tables are as the code
    generator emits them; nothing is known about the inputs yet. *)
Definition config_ok (start sta : Z) (staa index : nat -> Z) (ports : list PortStatus.port) : Prop :=
  0 <= sta /\ 0 <= start - sta /\ start < FOREVER /\
  (forall p, 0 <= staa p <= FOREVER) /\
  (forall p q, nth_error ports p = Some q ->
     PortStatusSpec.port_ok q /\ PortStatus.known q = NEVER_TAG /\ PortStatus.level q <= index p /\
     (PortStatus.delay q = NEVER \/ 0 <= PortStatus.delay q)).

(** A federate advances beyond a tag without having seen an input at that tag when its
    clock reads the time of the tag plus the STA offset; it may be early by the time for
    which it is not worth sleeping. *)
Definition advance_bound (sta : Z) (t : tag) : Z := ttime t + sta - MIN_SLEEP.
(** While it executes a tag it takes an input to be absent at that tag when the clock
    reads the time of the tag plus the STA offset plus the STAA offset of the input
    (and a little more if these are very small). *)
Definition absent_bound (sta : Z) (staa : nat -> Z) (p : nat) (t : tag) : Z :=
  ttime t + (staa p + sta) + (if staa p + sta <? 5 * MIN_SLEEP then 5 * MIN_SLEEP else 0) - MIN_SLEEP.

(** A message (or absence) arrives in time: if it has been read completely while the
    federate is executing its tag, this has happened by the time the input would be taken
    to be absent; otherwise its header has arrived by the time the federate would advance
    beyond its tag.  In addition a message that is handled before the execution has
    started is for a tag after the current one. *)
Definition in_time (sta : Z) (staa : nat -> Z) (a : arrival) : Prop :=
  (a_absent a = false -> a_phase a <> Running -> tag_lt (a_cur a) (a_tag a)) /\
  (a_phase a = Running -> a_cur a = a_tag a -> a_clock a <= absent_bound sta staa (a_port a) (a_tag a)) /\
  (~ (a_phase a = Running /\ a_cur a = a_tag a) -> a_hclock a <= advance_bound sta (a_tag a)).

(** Everything that has arrived on a port has arrived in time. *)
Definition all_in_time (sta : Z) (staa : nat -> Z) (p : nat) (s : dfed) : Prop :=
  forall a, In a (d_arrived s) -> a_port a = p -> in_time sta staa a.

(** The documented condition, without the time for which it is not worth sleeping, for
    messages only. *)
Definition on_time (sta : Z) (staa : nat -> Z) (a : arrival) : Prop :=
  (a_phase a = Running -> a_cur a = a_tag a -> a_clock a <= ttime (a_tag a) + sta + staa (a_port a)) /\
  (~ (a_phase a = Running /\ a_cur a = a_tag a) -> a_clock a <= ttime (a_tag a) + sta).
Definition messages_on_time (sta : Z) (staa : nat -> Z) (p : nat) (s : dfed) : Prop :=
  forall a, In a (d_arrived s) -> a_port a = p -> a_absent a = false -> on_time sta staa a.

(** The tags of the messages that have arrived on a port, of those that have been
    executed, and of those that are waiting in the event queue. *)
Definition arrived_on (p : nat) (s : dfed) : list tag :=
  map a_tag (filter (fun a => (a_port a =? p)%nat && negb (a_absent a)) (d_arrived s)).
Definition executed_on (p : nat) (s : dfed) : list tag :=
  map x_intended (filter (fun x => (x_port x =? p)%nat) (d_exec s)).
Definition pending_on (p : nat) (s : dfed) : list tag :=
  flat_map (fun e => match e_from e with Some (p', t) => if (p' =? p)%nat then [t] else [] | None => [] end) (d_queue s).

(** Every tag leaves room for [n] more microsteps. *)
Definition op_room (n : Z) (o : op) : Prop :=
  match o with
  | DLocal t | DHeader _ t => tmicro t + n < UINT_MAX
  | DAbsent _ t => tmicro t + n < UINT_MAX \/ tmicro t = UINT_MAX
  | _ => True
  end.

(** Nothing holds back the reactions at the current tag. *)
Definition unblocked (s : dfed) : Prop := PortStatus.mlaa (d_ps s) = PortStatus.INT_MAX.
(** The offsets of all inputs have expired at the current tag. *)
Definition all_expired (sta : Z) (staa : nat -> Z) (s : dfed) : Prop :=
  forall p q, nth_error (PortStatus.ports (d_ps s)) p = Some q -> PortStatus.physical q = false ->
    exists u, absent_time sta staa p (cur s) = Ok u /\ u <= d_clock s.

(** A message that arrives in time according to the documentation and is tardy. *)
Definition tardy_on_time (ports : list PortStatus.port) (p : nat) (x : exec) : Prop :=
  exists start sta staa index clock ops s, config_ok start sta staa index ports /\ clock < FOREVER - MIN_SLEEP /\
  drun start sta staa index (dinit start sta clock ports) ops = Some s /\ messages_on_time sta staa p s /\
  In x (d_exec s) /\ x_port x = p /\ tag_lt (x_intended x) (x_tag x) /\ x_violation x = true.
