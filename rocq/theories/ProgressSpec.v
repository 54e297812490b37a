(** The specification of progress in a federation (C73). *)
From Verif Require Import Base Tag TagSpec RtiDelays RtiDelaysSpec Rti Federation Progress.

(** Upstream and downstream connections agree. *)
Definition down_ok (tp : topo) : Prop := forall k e, In e (tp_down tp k) <-> exists d, In (k, d) (tp_up tp e).

(** [t] is the tag of the next event of a federate: the least tag in its queue, FOREVER if there is none. *)
Definition is_next (f : fed) (t : tag) : Prop :=
  (f_queue f = [] /\ t = FOREVER_TAG) \/ (In t (f_queue f) /\ forall x, In x (f_queue f) -> tag_le t x).

(** Everything sent has arrived, both ways. *)
Definition delivered (tp : topo) (y : sys) : Prop :=
  forall i, (i < tp_n tp)%nat -> f_up (y_fed y i) = [] /\ (f_alive (y_fed y i) = true -> f_rcvd (y_fed y i) = length (r_sent (y_rti y i))).

(** Every federate that has not left is between two tags, and has done its part: the tag of its next event is granted,
    or it is the NET that the federate sent last. *)
Definition waiting (tp : topo) (y : psys) : Prop :=
  forall i, (i < tp_n tp)%nat -> f_alive (y_fed (p_sys y) i) = true ->
    f_cur (y_fed (p_sys y) i) = None /\
    forall t, is_next (y_fed (p_sys y) i) t -> tag_le t (f_grant (y_fed (p_sys y) i)) \/ p_net (p_fed y i) = Some t.

(** No federate that others depend on has been granted the end of time. *)
Definition none_released (tp : topo) (y : sys) : Prop :=
  forall i, (i < tp_n tp)%nat -> f_alive (y_fed y i) = true -> tp_down tp i <> [] -> tag_lt (f_grant (y_fed y i)) FOREVER_TAG.

(** A federate that has not left has an event. *)
Definition has_event (tp : topo) (y : sys) : Prop := exists i, (i < tp_n tp)%nat /\ f_alive (y_fed y i) = true /\ f_queue (y_fed y i) <> [].

(** [y] goes on: some federate starts a tag. *)
Definition goes_on (tp : topo) (start : Z) (y : psys) : Prop := exists i t y', p_step tp start y (FStart i t) = Some y'.

(** The operations by which a federation at rest can be disturbed. *)
Definition idle_op (o : fop) : Prop := match o with FEvent _ _ | FResign _ | FNet _ _ => True | _ => False end.
