(** The coordinator together with its federates and the channels between them when there are cycles without delay: the
    provisional grants (PTAG), the messages that say that a port is absent, and what is known about each network input
    (C77).

    The coordinator is the one of Rti.v, the status of the inputs of a federate that of PortStatus.v, built for centralized
    coordination.  As in Federation.v a federate is modelled by what centralized coordination requires of it, and
    everything else it does is nondeterministic.  Channels are first-in first-out (TCP) and lossless; every interleaving of
    federates, deliveries and coordinator steps is an operation list. *)
From Verif Require Import Base Tag RtiDelays Rti Federation.
From Verif Require Import Pqueue.   (* [upd] *)
From Verif Require PortStatus.
Open Scope Z_scope.

(** From a federate to the coordinator; the sender's tag [o] is not transmitted. *)
Inductive zmsg :=
| ZNet (t : tag)
| ZLtc (t : tag)
| ZRem (t : tag)                            (* the second half of the coordinator's handling of [ZLtc t], as in Federation.v *)
| ZMsg (j p : nat) (t : tag) (o : tag)      (* a message with tag [t] to port [p] of federate [j] *)
| ZAbsent (j p : nat) (t : tag) (o : tag)   (* nothing on port [p] of federate [j] up to [t] *)
| ZResign.

Record zfed := mkZfed {
  z_alive : bool;                       (* has neither resigned nor failed *)
  z_failed : bool;                      (* has ended with an error: a message came too late, or a PTAG after a TAG *)
  z_started : bool;                     (* env->execution_started *)
  z_busy : bool;                        (* executing the current tag *)
  z_real : bool;                        (* at the current tag there is an event other than a dummy event *)
  z_queue : list tag;                   (* tags of the events in its queue *)
  z_dummy : list tag;                   (* tags of the dummy events in its queue, which trigger nothing *)
  z_ps : PortStatus.fed;                (* the current tag, the last grant, the status of the inputs *)
  z_promise : tag;                      (* the largest NET sent *)
  z_up : list zmsg;                     (* on the way to the coordinator, oldest first *)
  z_rcvd : nat;                         (* how much of the coordinator's log for it has arrived *)
  z_ports : list nat }.                 (* the port ids in the messages and absences of that log which have not arrived *)

Record zsys := mkZsys {
  y_rti : rti;
  y_fed : nat -> zfed;
  y_ann : nat -> nat -> tag }.          (* for port [p] of [j]: the sender's tag when it last sent a message or an absence *)

Inductive zop :=
| YNet (i : nat) (t : tag)              (* send NET *)
| YEvent (i : nat) (t : tag)            (* an event not caused by the current tag: timer, physical action *)
| YStart (i : nat) (t : tag)            (* start executing [t] *)
| YSched (i : nat) (t : tag)            (* a reaction schedules an action *)
| YSend (i j p : nat)                   (* a reaction sends to port [p] of [j] *)
| YAbsent (i j p : nat)                 (* the port-absent reaction for port [p] of [j] *)
| YComplete (i : nat) (ltc : bool)      (* the current tag is complete; an LTC is sent or not (federate.c:2267-2272) *)
| YResign (i : nat)
| YRecv (i : nat)                       (* the next message from the coordinator arrives *)
| YTake (i : nat).                      (* the coordinator handles the next message from [i] *)

Section Provisional.
Variable tp : topo.
Variable start : Z.
Variable pt : nat -> list PortStatus.port.       (* the tables of network inputs, as generated *)
Variable index : nat -> nat -> Z.                (* the index of the reaction to port [p] of [j] *)

(** Every federate executes the start tag (reactor_threaded.c:630-633, 646-650). *)
Definition init_zfed (i : nat) : zfed :=
  mkZfed true false false false false [mkTag start 0] [] (PortStatus.boot false start (pt i)) (mkTag start 0) [] 0 [].
Definition init_zsys : zsys := mkZsys init_rti init_zfed (fun _ _ => NEVER_TAG).

Definition set_zfed (y : zsys) (i : nat) (f : zfed) : zsys := mkZsys (y_rti y) (upd (y_fed y) i f) (y_ann y).
Definition set_ann (y : zsys) (j p : nat) (t : tag) : zsys := mkZsys (y_rti y) (y_fed y) (upd (y_ann y) j (upd (y_ann y j) p t)).
Definition zpush (f : zfed) (m : zmsg) : zfed :=
  mkZfed (z_alive f) (z_failed f) (z_started f) (z_busy f) (z_real f) (z_queue f) (z_dummy f) (z_ps f) (z_promise f) (z_up f ++ [m]) (z_rcvd f) (z_ports f).
Definition zfail (f : zfed) : zfed :=
  mkZfed false true (z_started f) (z_busy f) (z_real f) (z_queue f) (z_dummy f) (z_ps f) (z_promise f) (z_up f) (z_rcvd f) (z_ports f).
Definition zcur (f : zfed) : tag := PortStatus.cur (z_ps f).

(** federate.c:468-473 [handle_message_now].  Its third condition, on the last_tag of the trigger, is left out: network inputs
    are scheduled at a tag (reactor_common.c, [_lf_schedule_at_tag]), which does not set last_tag (only lib/schedule.c:218 and
    312 do). *)
Definition now (j : nat) (f : zfed) (p : nat) (t : tag) : bool :=
  match nth_error (PortStatus.ports (z_ps f)) p with
  | None => false
  | Some q => (PortStatus.mlaa (z_ps f) <=? index j p) && tag_eqb t (zcur f) && tag_ltb (PortStatus.known q) t && z_started f && negb (PortStatus.physical q)
  end.

(** What arrives from the coordinator.
    - TAG: federate.c:1030-1071;
    - PTAG: federate.c:1271-1356.  The process ends if the PTAG is not later than a TAG (1291-1298);
    - a message: federate.c:537-690, 352-402.  The process ends if it is not handled now and not in the future (371-381).  A
      message that is handled now when the tag has been completed would go unnoticed; that counts as a failure too;
    - an absence: federate.c:701-732. *)
Definition zrecv (i : nat) (f : zfed) (m : rmsg) : zfed :=
  let step := PortStatus.step false start (z_ps f) in
  let with_ps ps q d r up ports := mkZfed true (z_failed f) (z_started f) (z_busy f) r q d ps (z_promise f) up (S (z_rcvd f)) ports in
  match m with
  | MTag t => match step (PortStatus.OTag t) with Some ps => with_ps ps (z_queue f) (z_dummy f) (z_real f) (z_up f) (z_ports f) | None => zfail f end
  | MPtag t =>
    match step (PortStatus.OPtag t) with
    | None => zfail f
    | Some ps =>
      if tag_eqb (zcur f) t then with_ps ps (z_queue f) (z_dummy f) (z_real f) (z_up f) (z_ports f)
      else if tag_ltb t (zcur f) then with_ps ps (z_queue f) (z_dummy f) (z_real f) (z_up f ++ [ZLtc t]) (z_ports f)
      else with_ps ps (z_queue f) (if ttime t =? FOREVER then z_dummy f else t :: z_dummy f) (z_real f) (z_up f) (z_ports f)
    end
  | MMsg t =>
    match z_ports f with
    | [] => zfail f
    | p :: rest =>
      if now i f p t then
        match step (PortStatus.OMessageNow p t) with Some ps => if z_busy f then with_ps ps (z_queue f) (z_dummy f) true (z_up f) rest else zfail f | None => zfail f end
      else
        match step (PortStatus.OMessageLater p t) with
        | Some ps => if z_started f && tag_leb t (zcur f) then zfail f else with_ps ps (t :: z_queue f) (z_dummy f) (z_real f) (z_up f) rest
        | None => zfail f
        end
    end
  | MAbsent t =>
    match z_ports f with
    | [] => zfail f
    | p :: rest => match step (PortStatus.OAbsent p t) with Some ps => with_ps ps (z_queue f) (z_dummy f) (z_real f) (z_up f) rest | None => zfail f end
    end
  end.

(** What the coordinator forwards carries the port id. *)
Definition zforward (y : zsys) (j p : nat) : zsys :=
  let f := y_fed y j in
  if r_connected (y_rti y j)
  then set_zfed y j (mkZfed (z_alive f) (z_failed f) (z_started f) (z_busy f) (z_real f) (z_queue f) (z_dummy f) (z_ps f) (z_promise f) (z_up f) (z_rcvd f) (z_ports f ++ [p]))
  else y.

(** The guards.
    - YNet, YEvent, YSched, YResign: as in Federation.v.
    - YStart: federate.c:2395-2401 and reactor_threaded.c:310-466: the next tag in the queue, if the last grant, TAG or PTAG, is not
      before it.
    - YSend: federate.c:2597-2672.  Dummy events trigger no reactions, so something is sent only if there is another event.
      The reaction that sends and the one that says that nothing is sent run at most once per tag, the latter only if the
      output is not present: one of them per port and tag.
    - YAbsent: federate.c:2509-2555.
    - YComplete: the tag is complete when all levels have been executed, which is possible when the maximum level allowed to
      advance is no limit (federate.c:2680-2686, C52). *)
Definition zstep (y : zsys) (o : zop) : option zsys :=
  match o with
  | YNet i t =>
    let f := y_fed y i in
    if z_alive f && negb (z_busy f) && (smallb tp start t || tag_eqb t FOREVER_TAG) && forallb (tag_leb t) (z_queue f)
    then Some (set_zfed y i (mkZfed true (z_failed f) (z_started f) false (z_real f) (z_queue f) (z_dummy f) (z_ps f)
                               (if tag_ltb (z_promise f) t then t else z_promise f) (z_up f ++ [ZNet t]) (z_rcvd f) (z_ports f)))
    else None
  | YEvent i t =>
    let f := y_fed y i in
    if z_alive f && smallb tp start t && tag_leb (z_promise f) t && (negb (z_started f) || tag_ltb (zcur f) t)
    then Some (set_zfed y i (mkZfed true (z_failed f) (z_started f) (z_busy f) (z_real f) (t :: z_queue f) (z_dummy f) (z_ps f) (z_promise f) (z_up f) (z_rcvd f) (z_ports f)))
    else None
  | YStart i t =>
    let f := y_fed y i in
    if z_alive f && negb (z_busy f) && existsb (tag_eqb t) (z_queue f ++ z_dummy f) && forallb (tag_leb t) (z_queue f ++ z_dummy f)
       && (match tp_up tp i with [] => true | _ => tag_leb t (PortStatus.last_grant (z_ps f)) end)
    then
      match PortStatus.step false start (z_ps f) (PortStatus.OAdvance t) with
      | Some ps =>
        let rest := filter (fun x => negb (tag_eqb t x)) in
        Some (set_zfed y i (mkZfed true (z_failed f) true true (existsb (tag_eqb t) (z_queue f)) (rest (z_queue f)) (rest (z_dummy f)) ps (z_promise f) (z_up f) (z_rcvd f) (z_ports f)))
      | None => None
      end
    else None
  | YSched i t =>
    let f := y_fed y i in
    if z_alive f && z_busy f && z_real f && smallb tp start t && tag_ltb (zcur f) t
    then Some (set_zfed y i (mkZfed true (z_failed f) (z_started f) true true (t :: z_queue f) (z_dummy f) (z_ps f) (z_promise f) (z_up f) (z_rcvd f) (z_ports f)))
    else None
  | YSend i j p =>
    let f := y_fed y i in let c := zcur f in
    match nth_error (pt j) p with
    | Some q =>
      if z_alive f && z_busy f && z_real f && (PortStatus.source q =? i)%nat && tag_ltb (y_ann y j p) c
         && (tmicro c <? UINT_MAX) && smallb tp start (delay_tag c (PortStatus.delay q))
      then Some (set_ann (set_zfed y i (zpush f (ZMsg j p (delay_tag c (PortStatus.delay q)) c))) j p c) else None
    | None => None
    end
  | YAbsent i j p =>
    let f := y_fed y i in let c := zcur f in
    match nth_error (pt j) p with
    | Some q =>
      if z_alive f && z_busy f && (PortStatus.source q =? i)%nat && tag_ltb (y_ann y j p) c
         && (tmicro c <? UINT_MAX) && smallb tp start (delay_tag c (PortStatus.delay q))
      then Some (set_ann (set_zfed y i (zpush f (ZAbsent j p (delay_strict c (PortStatus.delay q)) c))) j p c) else None
    | None => None
    end
  | YComplete i ltc =>
    let f := y_fed y i in
    if z_alive f && z_busy f && (PortStatus.mlaa (z_ps f) =? PortStatus.INT_MAX)
    then Some (set_zfed y i (mkZfed true (z_failed f) (z_started f) false false (z_queue f) (z_dummy f) (z_ps f) (z_promise f)
                               (if ltc then z_up f ++ [ZLtc (zcur f)] else z_up f) (z_rcvd f) (z_ports f)))
    else None
  | YResign i =>
    let f := y_fed y i in
    if z_alive f
    then Some (set_zfed y i (mkZfed false (z_failed f) (z_started f) (z_busy f) (z_real f) [] [] (z_ps f) (z_promise f) (z_up f ++ [ZResign]) (z_rcvd f) (z_ports f)))
    else None
  | YRecv i =>
    let f := y_fed y i in
    if z_alive f then match nth_error (r_sent (y_rti y i)) (z_rcvd f) with Some m => Some (set_zfed y i (zrecv i f m)) | None => None end else None
  | YTake i =>
    let f := y_fed y i in
    match z_up f with
    | [] => None
    | m :: rest =>
      let o := match m with ZNet t => RNet i t | ZLtc t => RLtc i t | ZRem t => RRemove i t | ZMsg j _ t _ => RMsg i j t | ZAbsent j _ t _ => RAbsent i j t | ZResign => RResign i end in
      let rest := match m with ZLtc t => ZRem t :: rest | _ => rest end in
      match rti_step tp start (fun _ => true) (y_rti y) o with
      | Some s =>
        let y1 := set_zfed y i (mkZfed (z_alive f) (z_failed f) (z_started f) (z_busy f) (z_real f) (z_queue f) (z_dummy f) (z_ps f) (z_promise f) rest (z_rcvd f) (z_ports f)) in
        let y2 := match m with
                  | ZMsg j p _ _ | ZAbsent j p _ _ => if r_connected (y_rti y i) then zforward y1 j p else y1
                  | _ => y1
                  end in
        Some (mkZsys s (y_fed y2) (y_ann y2))
      | None => None
      end
    end
  end.

Fixpoint zrun (y : zsys) (l : list zop) : option zsys :=
  match l with
  | [] => Some y
  | o :: l => match zstep y o with Some y => zrun y l | None => None end
  end.
End Provisional.
