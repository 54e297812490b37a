(** Model of one federate with decentralized coordination: the listener threads that
    read messages from peers (core/federated/federate.c), the thread that assumes
    inputs to be absent when their safe-to-assume-absent (STAA) offset has expired, and
    the main loop, which waits for the safe-to-advance (STA) offset before it commits to
    a tag (core/threaded/reactor_threaded.c).

    Each operation is a critical section of the mutex of the environment.  Physical time
    is the clock of the federate ([lf_time_physical]); it does not go back (C50) and is
    below FOREVER - MIN_SLEEP_DURATION.  Not modelled: -fast (no wait at all), the stop
    tag (it is FOREVER_TAG), modes, and the payload of messages (a message is identified
    by its port and its tag).  [None] is an operation that is not possible in the state,
    an exit with an error, or undefined behaviour. *)
From Verif Require Import Base Tag RtiDelays Rti Federation.
From Verif Require PortStatus.
From Verif Require Import Pqueue.   (* [upd] *)
Local Open Scope Z_scope.

(** include/core/reactor_common.h:45 *)
Definition MIN_SLEEP : Z := 10000.

(** Where the main thread is: in or before the wait for the start time
    (reactor_threaded.c:608), between lines 616 and 643 of
    [_lf_initialize_start_tag] (at most waiting for the barrier, line 631), or after
    line 660 ([execution_started]). *)
Inductive phase := Waiting | Starting | Running.

(** A message whose header has been read (federate.c:538-555) and whose payload has not:
    its port and tag, and what the clock was at line 586. *)
Record msg := mkMsg { m_port : nat; m_tag : tag; m_clock : Z }.

(** An event of the event queue: its tag, and for an event made for a message its port
    and its intended tag (lf_types.h:196-202). *)
Record event := mkEvent { e_tag : tag; e_from : option (nat * tag) }.

(** A record of the execution of a message (its network receiver reaction is put on the
    reaction queue): port, intended tag, current tag, the highest level that has been
    entered at the current tag by then, and [is_STP_violated]. *)
Record exec := mkExec { x_port : nat; x_intended : tag; x_tag : tag; x_level : Z; x_violation : bool }.

(** A record of the arrival of a message or an absence: the clock when its header was
    read (for an absence: when it was handled), and clock, current tag and phase when it
    was handled. *)
Record arrival := mkArr {
  a_port : nat; a_tag : tag; a_absent : bool;
  a_hclock : Z; a_clock : Z; a_cur : tag; a_phase : phase }.

Record dfed := mkDfed {
  d_clock : Z;
  d_phase : phase;
  d_ps : PortStatus.fed;       (* ports, current tag, MLAA *)
  d_queue : list event;        (* event_q *)
  d_last : nat -> tag;         (* trigger->last_tag of the ports *)
  d_seen : list nat;           (* ports whose trigger->status is not [unknown] *)
  d_reading : list msg;        (* the requestors of the tag barrier *)
  d_horizon : tag;             (* barrier.horizon *)
  d_waited : option tag;       (* wait_until has returned true for this tag *)
  d_level : Z;                 (* highest level entered at the current tag; -1: none *)
  d_ann : nat -> tag;          (* ghost: the tag announced last on each port *)
  d_arrived : list arrival;    (* ghost *)
  d_exec : list exec }.        (* ghost *)

Definition cur (s : dfed) : tag := PortStatus.cur (d_ps s).
Definition running (s : dfed) : bool := match d_phase s with Running => true | _ => false end.

Section Federate.
Variable start sta : Z.          (* start_time, lf_fed_STA_offset *)
Variable staa index : nat -> Z.  (* STAA of the ports (staa_lst), reactions[0]->index *)

(** The next microstep; a uint32_t wraps. *)
Definition bump (t : tag) : tag := mkTag (ttime t) ((tmicro t + 1) mod two32).

(** reactor_threaded.c:197-229 [wait_until]: it returns true if the clock is less than
    MIN_SLEEP_DURATION before the time (line 202), or has reached it. *)
Definition expired (clock until : Z) : bool := until - clock <? MIN_SLEEP.

(** federate.c:1146-1166: the time until which the thread waits before it assumes that
    the port is absent at the current tag. *)
Definition absent_time (p : nat) (c : tag) : res Z :=
  do! w <- time_add (staa p) sta;
  do! u <- time_add (ttime c) w;
  if w <? 5 * MIN_SLEEP then c_add64 u (5 * MIN_SLEEP) else Ok u.

(** reactor_threaded.c:50-90 [_lf_increment_tag_barrier_locked] *)
Definition raise (s : dfed) (t : tag) : tag :=
  if tag_ltb (cur s) t then (if tag_ltb t (d_horizon s) then t else d_horizon s) else bump (cur s).

(** reactor_threaded.c:139-172 [_lf_wait_on_tag_barrier]: whether it lets a tag pass. *)
Definition passes (s : dfed) (t : tag) : bool :=
  match d_reading s with [] => true | _ => (ttime t =? FOREVER) || tag_ltb t (d_horizon s) end.

(** federate.c:468-473 [handle_message_now] *)
Definition now (s : dfed) (p : nat) (q : PortStatus.port) (t : tag) : bool :=
  (PortStatus.mlaa (d_ps s) <=? index p) && tag_eqb t (cur s) && tag_ltb (d_last s p) t
  && tag_ltb (PortStatus.known q) t && running s && negb (PortStatus.physical q).

(** pqueue_tag_find_equal_same_tag (pqueue_tag.c:115-123): an event of the port at the tag *)
Definition taken (l : list event) (p : nat) (t : tag) : bool :=
  existsb (fun e => tag_eqb (e_tag e) t && match e_from e with Some (p', _) => (p' =? p)%nat | None => false end) l.

(** lib/schedule.c:204-210: the first free microstep.  At most as many microsteps are
    taken as there are events. *)
Fixpoint free (n : nat) (l : list event) (p : nat) (t : tag) : tag :=
  match n with
  | O => t
  | S n => if taken l p t then free n l p (bump t) else t
  end.

(** federate.c:352-400 [schedule_message_received_from_network_locked]: the tag of the
    event, and whether lf_schedule_trigger makes it.
    - in the future or before the execution: [_lf_schedule_at_tag]
      (reactor_common.c:483-556; the policy of these actions is the default, defer);
    - otherwise: [lf_schedule_trigger] without a delay (lib/schedule.c:152, 200-312; the
      actions have no offset and no minimum spacing). *)
Definition slot (s : dfed) (p : nat) (t : tag) : tag * bool :=
  if tag_ltb (cur s) t || negb (running s)
  then (if taken (d_queue s) p t then bump t else t, false)
  else (free (S (length (d_queue s))) (d_queue s) p (bump (cur s)), true).

(** The head of the event queue (reactor_threaded.c:236-262 [get_next_event_tag]). *)
Fixpoint earliest (l : list event) : option tag :=
  match l with
  | [] => None
  | e :: r => match earliest r with
              | Some t => Some (if tag_leb (e_tag e) t then e_tag e else t)
              | None => Some (e_tag e)
              end
  end.

(** reactor_common.c:229-333 [_lf_pop_events] at the current tag: the messages that are
    executed.  The receiver reaction of the port is triggered by nothing else, so its
    status is [inactive] on line 262. *)
Definition popped (l : list event) (c : tag) : list exec :=
  flat_map (fun e => if tag_eqb (e_tag e) c
                     then match e_from e with Some (p, t) => [mkExec p t c (-1) (tag_ltb t c)] | None => [] end
                     else []) l.
Definition rest (l : list event) (c : tag) : list event := filter (fun e => negb (tag_eqb (e_tag e) c)) l.
(** Lines 274-288: a tardy message makes its port known. *)
Definition pop_known (ps : PortStatus.fed) (x : exec) : PortStatus.fed :=
  if x_violation x then
    match nth_error (PortStatus.ports ps) (x_port x) with
    | Some q => if tag_ltb (PortStatus.known q) (PortStatus.cur ps)
                then PortStatus.set_ports ps (PortStatus.replace (PortStatus.ports ps) (x_port x) (PortStatus.set_known q (PortStatus.cur ps)))
                else ps
    | None => ps
    end
  else ps.

(** Whether a peer can send a message or an absence with this tag, its own tag being at
    or after the start tag: federate.c:2520 and 2630.  A message is not at the last
    microstep (C04); an absence may be, at the last microstep of the time before. *)
Definition possible (q : PortStatus.port) (absent : bool) (t : tag) : bool :=
  (0 <=? tmicro t) && (tmicro t <=? UINT_MAX) && (ttime t <? FOREVER)
  && (if absent then tag_leb (delay_strict (mkTag start 0) (PortStatus.delay q)) t
      else (tmicro t <? UINT_MAX) && tag_leb (delay_tag (mkTag start 0) (PortStatus.delay q)) t).
(** The listener of each peer reads one message after the other (federate.c:748-821). *)
Definition idle (s : dfed) (q : PortStatus.port) : bool :=
  forallb (fun m => match nth_error (PortStatus.ports (d_ps s)) (m_port m) with
                    | Some q' => negb (PortStatus.source q' =? PortStatus.source q)%nat
                    | None => true end) (d_reading s).

Inductive op :=
| DTick (d : Z)               (* the clock advances *)
| DLocal (t : tag)            (* an event of a timer or an action, for a later tag *)
| DHeader (p : nat) (t : tag) (* the header of a message is read, federate.c:538-586 *)
| DMsg (p : nat)              (* the message is handled, federate.c:602-685 *)
| DAbsent (p : nat) (t : tag) (* federate.c:700-732 *)
| DGone (f : nat)             (* the connection from a peer is closed, federate.c:301-319 *)
| DStart                      (* the wait for the start is over, reactor_threaded.c:608-616 *)
| DStarted                    (* reactor_threaded.c:631-660 *)
| DEnter (l : Z)              (* a level is entered, federate.c:2680-2686 *)
| DAssume (p : nat)           (* federate.c:1167-1193 *)
| DNext                       (* reactor_threaded.c:383-410: the wait is over *)
| DAdvance.                   (* reactor_threaded.c:429-465 *)

Definition with_ps (s : dfed) (ps : PortStatus.fed) : dfed :=
  mkDfed (d_clock s) (d_phase s) ps (d_queue s) (d_last s) (d_seen s) (d_reading s) (d_horizon s) (d_waited s)
    (d_level s) (d_ann s) (d_arrived s) (d_exec s).

Definition dstep (s : dfed) (o : op) : option dfed :=
  let ps := d_ps s in
  match o with
  | DTick d =>
      if (0 <=? d) && (d_clock s + d <? FOREVER - MIN_SLEEP) then
        Some (mkDfed (d_clock s + d) (d_phase s) ps (d_queue s) (d_last s) (d_seen s) (d_reading s) (d_horizon s)
                (d_waited s) (d_level s) (d_ann s) (d_arrived s) (d_exec s))
      else None
  | DLocal t =>
      if (0 <=? tmicro t) && (tmicro t <? UINT_MAX) && (ttime t <? FOREVER)
         && (match d_phase s with Waiting => tag_leb (mkTag start 0) t | _ => tag_ltb (cur s) t end)
      then Some (mkDfed (d_clock s) (d_phase s) ps (mkEvent t None :: d_queue s) (d_last s) (d_seen s) (d_reading s)
                   (d_horizon s) (d_waited s) (d_level s) (d_ann s) (d_arrived s) (d_exec s))
      else None
  | DHeader p t =>
      match nth_error (PortStatus.ports ps) p with
      | None => None
      | Some q =>
          if negb (PortStatus.physical q) && idle s q && tag_ltb (d_ann s p) t && possible q false t then
            Some (mkDfed (d_clock s) (d_phase s) ps (d_queue s) (d_last s) (d_seen s)
                    (mkMsg p t (d_clock s) :: d_reading s) (raise s t) (d_waited s) (d_level s)
                    (d_ann s) (d_arrived s) (d_exec s))
          else None
      end
  | DMsg p =>
      match nth_error (PortStatus.ports ps) p, find (fun m => (m_port m =? p)%nat) (d_reading s) with
      | Some q, Some m =>
          let t := m_tag m in
          let reading := filter (fun m => negb (m_port m =? p)%nat) (d_reading s) in
          let horizon := match reading with [] => FOREVER_TAG | _ => d_horizon s end in
          let arrived := mkArr p t false (m_clock m) (d_clock s) (cur s) (d_phase s) :: d_arrived s in
          if now s p q t then
            match PortStatus.step true start ps (PortStatus.OMessageNow p t) with
            | Some ps' =>
                Some (mkDfed (d_clock s) (d_phase s) ps' (d_queue s) (d_last s) (p :: d_seen s) reading horizon
                        (d_waited s) (d_level s) (upd (d_ann s) p t) arrived
                        (mkExec p t (cur s) (d_level s) (tag_ltb t (cur s)) :: d_exec s))
            | None => None
            end
          else
            match PortStatus.step true start ps (PortStatus.OMessageLater p t) with
            | Some ps' =>
                let (t', l) := slot s p t in
                Some (mkDfed (d_clock s) (d_phase s) ps' (mkEvent t' (Some (p, t)) :: d_queue s)
                        (if l then upd (d_last s) p t' else d_last s) (d_seen s) reading horizon
                        (d_waited s) (d_level s) (upd (d_ann s) p t) arrived (d_exec s))
            | None => None
            end
      | _, _ => None
      end
  | DAbsent p t =>
      match nth_error (PortStatus.ports ps) p with
      | None => None
      | Some q =>
          if negb (PortStatus.physical q) && idle s q && tag_ltb (d_ann s p) t && possible q true t then
            match PortStatus.step true start ps (PortStatus.OAbsent p t) with
            | Some ps' =>
                Some (mkDfed (d_clock s) (d_phase s) ps' (d_queue s) (d_last s) (d_seen s) (d_reading s) (d_horizon s)
                        (d_waited s) (d_level s) (upd (d_ann s) p t)
                        (mkArr p t true (d_clock s) (d_clock s) (cur s) (d_phase s) :: d_arrived s) (d_exec s))
            | None => None
            end
          else None
      end
  | DGone f =>
      if forallb (fun m => match nth_error (PortStatus.ports ps) (m_port m) with
                           | Some q => negb (PortStatus.source q =? f)%nat | None => true end) (d_reading s)
      then match PortStatus.step true start ps (PortStatus.OGone f) with
           | Some ps' =>
               Some (mkDfed (d_clock s) (d_phase s) ps' (d_queue s) (d_last s) (d_seen s) (d_reading s) (d_horizon s)
                       (d_waited s) (d_level s)
                       (fun p => match nth_error (PortStatus.ports ps) p with
                                 | Some q => if (PortStatus.source q =? f)%nat then FOREVER_TAG else d_ann s p
                                 | None => d_ann s p end)
                       (d_arrived s) (d_exec s))
           | None => None
           end
      else None
  | DStart =>
      match d_phase s with
      | Waiting =>
          if expired (d_clock s) start then
            Some (mkDfed (d_clock s) Starting
                    (PortStatus.mkFed (PortStatus.ports ps) (mkTag start 0) (PortStatus.last_grant ps)
                       (PortStatus.provisional ps) (PortStatus.mlaa ps))
                    (d_queue s) (d_last s) (d_seen s) (d_reading s) (d_horizon s) (d_waited s) (d_level s)
                    (d_ann s) (d_arrived s) (d_exec s))
          else None
      | _ => None
      end
  | DStarted =>
      match d_phase s with
      | Starting =>
          if passes s (mkTag start 0) then
            let x := popped (d_queue s) (mkTag start 0) in
            Some (mkDfed (d_clock s) Running ps (rest (d_queue s) (mkTag start 0)) (d_last s) (map x_port x)
                    (d_reading s) (d_horizon s) (d_waited s) (d_level s) (d_ann s) (d_arrived s) (x ++ d_exec s))
          else None
      | _ => None
      end
  | DEnter l =>
      if running s && (match d_waited s with None => true | Some _ => false end)
         && (d_level s <? l) && PortStatus.may_enter ps l then
        Some (mkDfed (d_clock s) (d_phase s) ps (d_queue s) (d_last s) (d_seen s) (d_reading s) (d_horizon s)
                (d_waited s) l (d_ann s) (d_arrived s) (d_exec s))
      else None
  | DAssume p =>
      match nth_error (PortStatus.ports ps) p, absent_time p (cur s) with
      | Some q, Ok u =>
          if running s && negb (existsb (Nat.eqb p) (d_seen s)) && negb (PortStatus.physical q) && expired (d_clock s) u then
            match PortStatus.step true start ps (PortStatus.OAssumeAbsent p) with
            | Some ps' =>
                Some (mkDfed (d_clock s) (d_phase s) ps' (d_queue s) (d_last s) (p :: d_seen s) (d_reading s)
                        (d_horizon s) (d_waited s) (d_level s) (d_ann s) (d_arrived s) (d_exec s))
            | None => None
            end
          else None
      | _, _ => None
      end
  | DNext =>
      (* every level of the current tag has been entered: max_level_allowed_to_advance is
         above all levels *)
      if running s && (PortStatus.mlaa ps =? PortStatus.INT_MAX) then
        match earliest (d_queue s) with
        | Some n =>
            match PortStatus.wait_until_time start sta ps n with
            | Ok u => if expired (d_clock s) u then
                        Some (mkDfed (d_clock s) (d_phase s) ps (d_queue s) (d_last s) (d_seen s) (d_reading s)
                                (d_horizon s) (Some n) (d_level s) (d_ann s) (d_arrived s) (d_exec s))
                      else None
            | UB => None
            end
        | None => None
        end
      else None
  | DAdvance =>
      match d_waited s, earliest (d_queue s) with
      | Some n, Some n' =>
          if passes s n && tag_ltb (cur s) n' then
            match PortStatus.step true start ps (PortStatus.OAdvance n') with
            | Some ps1 =>
                let x := popped (d_queue s) n' in
                let ps2 := fold_left pop_known x ps1 in
                Some (mkDfed (d_clock s) (d_phase s)
                        (PortStatus.update_max_level true start ps2 (PortStatus.last_grant ps2) (PortStatus.provisional ps2))
                        (rest (d_queue s) n') (d_last s) (map x_port x) (d_reading s) (d_horizon s) None (-1)
                        (d_ann s) (d_arrived s) (x ++ d_exec s))
            | None => None
            end
          else None
      | _, _ => None
      end
  end.

Fixpoint drun (s : dfed) (l : list op) : option dfed :=
  match l with
  | [] => Some s
  | o :: r => match dstep s o with Some s' => drun s' r | None => None end
  end.

(** The federate when its listeners begin to handle messages: reactor_threaded.c:570-589.
    The level limit is the one computed on line 570; the current tag is set back by the
    STA offset on line 589.  [ports] has no known tags (federate.c:2313-2327 and
    lf_types.h). *)
Definition dinit (clock : Z) (ports : list PortStatus.port) : dfed :=
  let b := PortStatus.boot true start ports in
  mkDfed clock Waiting
    (PortStatus.mkFed ports (mkTag (start - sta) 0) (PortStatus.last_grant b) (PortStatus.provisional b) (PortStatus.mlaa b))
    [] (fun _ => NEVER_TAG) [] [] FOREVER_TAG None (-1) (fun _ => NEVER_TAG) [] [].
End Federate.
