(** The specification of federations with cycles without delay. *)
From Verif Require Import Base Tag TagSpec RtiDelays RtiDelaysSpec Rti Federation Provisional.
From Verif Require PortStatus PortStatusSpec.
Open Scope Z_scope.

(** In the log of what a federate is sent, no message after a PTAG has an earlier tag. *)
Definition provisional_respected (log : list rmsg) : Prop :=
  forall l1 t l2 g, log = l1 ++ MPtag t :: l2 -> In (MMsg g) l2 -> tag_le t g.

(** The federate is on a cycle of connections without delay. *)
Definition zero_cycle (tp : topo) (k : nat) : Prop :=
  exists ds, upstream_path tp (fun _ => true) k ds k /\ Forall (fun d => d < 0) ds.

(** What the code generator provides: every network input comes from a federate the coordinator knows to be upstream, with no
    smaller delay; an input from a federate on a cycle without delay is in the table of such inputs, unless it has a delay and
    the same federate is also connected without delay; the inputs in that table have no delay, or one of a microstep. *)
Definition wired (tp : topo) (pt : nat -> list PortStatus.port) (index : nat -> nat -> Z) : Prop :=
  forall j p q, nth_error (pt j) p = Some q ->
    PortStatus.physical q = false /\ PortStatusSpec.port_ok q /\ PortStatus.known q = NEVER_TAG /\ PortStatus.level q <= index j p /\
    (exists d, In (PortStatus.source q, d) (tp_up tp j) /\ d <= PortStatus.delay q) /\
    (PortStatus.in_cycle q = true -> PortStatus.delay q = NEVER \/ PortStatus.delay q = 0) /\
    (zero_cycle tp (PortStatus.source q) ->
     PortStatus.in_cycle q = true \/ (0 <= PortStatus.delay q /\ exists d, In (PortStatus.source q, d) (tp_up tp j) /\ d < 0)).

(** An absence arrives late: its tag is before the current tag of the receiver, or the status of the port at that tag is known
    already. *)
Definition late (y : zsys) (o : zop) : Prop :=
  match o with
  | YRecv i =>
    let f := y_fed y i in
    match nth_error (r_sent (y_rti y i)) (z_rcvd f), z_ports f with
    | Some (MAbsent t), p :: _ =>
      tag_lt t (zcur f) \/ exists q, nth_error (PortStatus.ports (z_ps f)) p = Some q /\ PortStatus.known q = t
    | _, _ => False
    end
  | _ => False
  end.
Fixpoint timely (tp : topo) (start : Z) (pt : nat -> list PortStatus.port) (index : nat -> nat -> Z) (y : zsys) (l : list zop) : Prop :=
  match l with
  | [] => True
  | o :: l => ~ late y o /\ match zstep tp start pt index y o with Some y => timely tp start pt index y l | None => True end
  end.

(** The table of network inputs as the code generator makes it: an input is in the table of those on a cycle without delay if
    the connection has no delay and there is a way back without delay. *)
Definition generated (tp : topo) (pt : nat -> list PortStatus.port) (index : nat -> nat -> Z) : Prop :=
  forall j p q, nth_error (pt j) p = Some q ->
    PortStatus.physical q = false /\ PortStatusSpec.port_ok q /\ PortStatus.known q = NEVER_TAG /\ PortStatus.level q <= index j p /\
    In (PortStatus.source q, PortStatus.delay q) (tp_up tp j) /\
    (PortStatus.in_cycle q = true <->
     PortStatus.delay q < 0 /\ exists ds, upstream_path tp (fun _ => true) j ds (PortStatus.source q) /\ Forall (fun d => d < 0) ds).

(** Everything sent has arrived, both ways. *)
Definition settled (tp : topo) (y : zsys) : Prop :=
  forall i, (i < tp_n tp)%nat -> z_up (y_fed y i) = [] /\ z_rcvd (y_fed y i) = length (r_sent (y_rti y i)).
(** The operations by which a federation at rest can be disturbed, and those of federates that do not exist. *)
Definition disturbance (tp : topo) (o : zop) : Prop :=
  match o with
  | YNet _ _ | YEvent _ _ | YSched _ _ | YResign _ => True
  | YStart i _ | YSend i _ _ | YAbsent i _ _ | YComplete i _ | YRecv i | YTake i => (tp_n tp <= i)%nat
  end.
