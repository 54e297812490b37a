(** The coordinator together with its federates and the channels between them, for the safety of grants (C40).

    The coordinator is the one of Rti.v.  A federate is modelled by what centralized coordination requires of it:
    core/federated/federate.c:2374-2505 (NET), 2261-2277 (LTC), 2597-2672 (sending with the delay of the connection),
    1030-1071 and 537-690 (receiving grants and messages), and core/threaded/reactor_threaded.c:310-466 (a federate
    with upstream federates starts a tag only when it is granted).  Everything else it does is nondeterministic: which
    events it schedules, what it sends, when it answers.  Channels are first-in first-out (TCP) and lossless; every
    interleaving of federates, deliveries and coordinator steps is an operation list. *)
From Verif Require Import Base Tag RtiDelays Rti.
From Verif Require Import Pqueue.   (* [upd] *)
Open Scope Z_scope.

(** From a federate to the coordinator. *)
Inductive umsg :=
| UNet (t : tag)
| ULtc (t : tag)
| URem (t : tag)                        (* not a message: the second half of the coordinator's handling of [ULtc t] *)
| UMsg (j : nat) (t : tag) (origin : tag)   (* to [j] with tag [t]; [origin], the sender's tag, is not transmitted *)
| UResign.

Record fed := mkFed {
  f_alive : bool;                       (* has not resigned *)
  f_queue : list tag;                   (* tags of the events in its queue *)
  f_cur : option tag;                   (* the tag it is executing *)
  f_done : tag;                         (* the last tag it started *)
  f_grant : tag;                        (* last_TAG *)
  f_promise : tag;                      (* the largest NET sent *)
  f_up : list umsg;                     (* on the way to the coordinator, oldest first *)
  f_rcvd : nat }.                       (* how much of the coordinator's log for it has arrived *)

Record sys := mkSys { y_rti : rti; y_fed : nat -> fed }.

Inductive fop :=
| FNet (i : nat) (t : tag)              (* send NET *)
| FEvent (i : nat) (t : tag)            (* an event not caused by the current tag: startup, timer, physical action *)
| FStart (i : nat) (t : tag)            (* start executing [t] *)
| FSched (i : nat) (t : tag)            (* a reaction schedules an action *)
| FSend (i j : nat) (d : Z)             (* a reaction sends to [j] on a connection with delay [d] *)
| FComplete (i : nat) (ltc : bool)      (* the current tag is complete; an LTC is sent or not (federate.c:2267-2272) *)
| FResign (i : nat)
| FRecv (i : nat)                       (* the next message from the coordinator arrives *)
| RTake (i : nat).                      (* the coordinator handles the next message from [i] *)

Section Federation.
Variable tp : topo.
Variable start : Z.

Definition tag_leb (a b : tag) : bool := tag_compare a b <=? 0.
Definition tag_ltb (a b : tag) : bool := tag_compare a b <? 0.

(** The tags a federation works with: not before the start, and room for a microstep per federate. *)
Definition smallb (t : tag) : bool := (start <=? ttime t) && (ttime t <? FOREVER) && (0 <=? tmicro t) && (tmicro t <=? UINT_MAX - Z.of_nat (tp_n tp)).

Definition init_fed : fed := mkFed true [] None NEVER_TAG NEVER_TAG (mkTag start 0) [] 0.
Definition init_sys : sys := mkSys init_rti (fun _ => init_fed).

Definition set_fed (y : sys) (i : nat) (f : fed) : sys := mkSys (y_rti y) (upd (y_fed y) i f).
Definition push (f : fed) (m : umsg) : fed := mkFed (f_alive f) (f_queue f) (f_cur f) (f_done f) (f_grant f) (f_promise f) (f_up f ++ [m]) (f_rcvd f).

(** The delay of a message is at least the delay the coordinator has recorded for the two federates, which is
    the least of their connections (rti_common.h:57). *)
Definition has_connection (i j : nat) (d : Z) : bool := existsb (fun u => (fst u =? i)%nat && (snd u <=? d)) (tp_up tp j).

Definition sys_step (y : sys) (o : fop) : option sys :=
  match o with
  | FNet i t =>
    let f := y_fed y i in
    if f_alive f && (match f_cur f with None => true | _ => false end) && (smallb t || tag_eqb t FOREVER_TAG) && forallb (tag_leb t) (f_queue f)
    then Some (set_fed y i (mkFed true (f_queue f) None (f_done f) (f_grant f) (if tag_ltb (f_promise f) t then t else f_promise f) (f_up f ++ [UNet t]) (f_rcvd f)))
    else None
  | FEvent i t =>
    let f := y_fed y i in
    if f_alive f && smallb t && tag_leb (f_promise f) t && tag_ltb (f_done f) t
    then Some (set_fed y i (mkFed true (t :: f_queue f) (f_cur f) (f_done f) (f_grant f) (f_promise f) (f_up f) (f_rcvd f)))
    else None
  | FStart i t =>
    let f := y_fed y i in
    if f_alive f && (match f_cur f with None => true | _ => false end) && existsb (tag_eqb t) (f_queue f) && forallb (tag_leb t) (f_queue f)
       && (match tp_up tp i with [] => true | _ => tag_leb t (f_grant f) end)
    then Some (set_fed y i (mkFed true (filter (fun x => negb (tag_eqb t x)) (f_queue f)) (Some t) t (f_grant f) (f_promise f) (f_up f) (f_rcvd f)))
    else None
  | FSched i t =>
    let f := y_fed y i in
    match f_cur f with
    | Some c => if f_alive f && smallb t && tag_ltb c t
                then Some (set_fed y i (mkFed true (t :: f_queue f) (f_cur f) (f_done f) (f_grant f) (f_promise f) (f_up f) (f_rcvd f))) else None
    | None => None
    end
  | FSend i j d =>
    let f := y_fed y i in
    match f_cur f with
    | Some c =>
      (* no wrap-around of the microstep, no saturation *)
      if f_alive f && has_connection i j d && in_int64b d && (tmicro c <? UINT_MAX) && smallb (delay_tag c d)
      then Some (set_fed y i (push f (UMsg j (delay_tag c d) c))) else None
    | None => None
    end
  | FComplete i ltc =>
    let f := y_fed y i in
    match f_cur f with
    | Some c =>
      if f_alive f then Some (set_fed y i (mkFed true (f_queue f) None (f_done f) (f_grant f) (f_promise f) (if ltc then f_up f ++ [ULtc c] else f_up f) (f_rcvd f))) else None
    | None => None
    end
  | FResign i =>
    let f := y_fed y i in
    if f_alive f then Some (set_fed y i (mkFed false [] None (f_done f) (f_grant f) (f_promise f) (f_up f ++ [UResign]) (f_rcvd f))) else None
  | FRecv i =>
    let f := y_fed y i in
    if f_alive f then
      match nth_error (r_sent (y_rti y i)) (f_rcvd f) with
      | Some (MTag t) => Some (set_fed y i (mkFed true (f_queue f) (f_cur f) (f_done f) t (f_promise f) (f_up f) (S (f_rcvd f))))
      | Some (MMsg t) => Some (set_fed y i (mkFed true (t :: f_queue f) (f_cur f) (f_done f) (f_grant f) (f_promise f) (f_up f) (S (f_rcvd f))))
      | Some _ => Some (set_fed y i (mkFed true (f_queue f) (f_cur f) (f_done f) (f_grant f) (f_promise f) (f_up f) (S (f_rcvd f))))
      | None => None
      end
    else None
  | RTake i =>
    let f := y_fed y i in
    match f_up f with
    | [] => None
    | m :: rest =>
      let o := match m with UNet t => RNet i t | ULtc t => RLtc i t | URem t => RRemove i t | UMsg j t _ => RMsg i j t | UResign => RResign i end in
      let rest := match m with ULtc t => URem t :: rest | _ => rest end in
      match rti_step tp start (fun _ => true) (y_rti y) o with
      | Some s => Some (mkSys s (upd (y_fed y) i (mkFed (f_alive f) (f_queue f) (f_cur f) (f_done f) (f_grant f) (f_promise f) rest (f_rcvd f))))
      | None => None
      end
    end
  end.

Fixpoint sys_run (y : sys) (l : list fop) : option sys :=
  match l with
  | [] => Some y
  | o :: l => match sys_step y o with Some y => sys_run y l | None => None end
  end.
End Federation.
