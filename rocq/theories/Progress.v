(** What a federate of Federation.v must do for the federation to go on (C73): when it sends a NET and when an LTC.

    Federation.v leaves open when a federate sends a NET and whether it confirms a tag; here both are as in the code:
    core/federated/federate.c:2374-2505 (NET), 2261-2277 (LTC), core/threaded/reactor_threaded.c:846-852 and
    core/reactor_common.c:213-215 (the flag that decides on the LTC).  Not restricted: a NET may be lower than the next
    event, as it is when physical time bounds it (federate.c:2405-2410). *)
From Verif Require Import Base Tag RtiDelays Rti Federation.
From Verif Require Import Pqueue.   (* [upd] *)
Open Scope Z_scope.

Record pfed := mkPfed {
  p_msgs : list tag;                    (* tags of the messages received and not yet executed *)
  p_need : bool;                        (* environment.h:90 [need_to_send_LTC] *)
  p_net : option tag }.                 (* the last NET sent since the last tag was started *)
Record psys := mkPsys { p_sys : sys; p_fed : nat -> pfed }.

Definition init_pfed : pfed := mkPfed [] false None.
Definition init_psys (start : Z) : psys := mkPsys (init_sys start) (fun _ => init_pfed).

(** reactor_threaded.c:236-262 [get_next_event_tag]: the tag at the head of the event queue, FOREVER if it is empty.  (The
    stop time, which bounds it in the code, is left out.) *)
Definition next_event (f : fed) : tag := fold_right min_tag FOREVER_TAG (f_queue f).

(** May the operation happen?  federate.c:2395-2401: no NET is sent when the next tag is already granted.
    federate.c:2263-2272: an LTC is sent iff the flag is set. *)
Definition p_allowed (y : psys) (o : fop) : bool :=
  match o with
  | FNet i _ => let f := y_fed (p_sys y) i in negb (tag_leb (next_event f) (f_grant f))
  | FComplete i ltc => Bool.eqb ltc (p_need (p_fed y i))
  | _ => true
  end.

(** The federate's bookkeeping.  reactor_threaded.c:846-852: the flag is set when a reaction to a network input runs, that
    is when a message with the current tag has been received; reactor_common.c:214: it is reset at the start of a tag. *)
Definition p_note (y : psys) (o : fop) : nat -> pfed :=
  let p := p_fed y in
  match o with
  | FNet i t => upd p i (mkPfed (p_msgs (p i)) (p_need (p i)) (Some t))
  | FStart i t => upd p i (mkPfed (filter (fun x => negb (tag_eqb t x)) (p_msgs (p i))) (existsb (tag_eqb t) (p_msgs (p i))) None)
  | FRecv i =>
    match nth_error (r_sent (y_rti (p_sys y) i)) (f_rcvd (y_fed (p_sys y) i)) with
    | Some (MMsg t) => upd p i (mkPfed (t :: p_msgs (p i)) (p_need (p i)) (p_net (p i)))
    | _ => p
    end
  | _ => p
  end.

Section Progress.
Variable tp : topo.
Variable start : Z.

Definition p_step (y : psys) (o : fop) : option psys :=
  if p_allowed y o then
    match sys_step tp start (p_sys y) o with Some s => Some (mkPsys s (p_note y o)) | None => None end
  else None.

Fixpoint p_run (y : psys) (l : list fop) : option psys :=
  match l with
  | [] => Some y
  | o :: l => match p_step y o with Some y => p_run y l | None => None end
  end.
End Progress.
