(** Messages on physical connections between federates (C94): they carry no tag and travel on a socket from federate to
    federate.

    Modelled: core/federated/federate.c:2329-2372 [lf_send_message], 747-822 [listen_to_federates] and 483-519
    [handle_message], 185-191 [action_for_port]; lib/schedule.c:70-86 [lf_schedule_value], up to the insertion of the event.
    The socket loops are those of Net.v; which bytes each call of the operating system moves is arbitrary.  The mutex
    of line 2355 makes the sends of all threads one sequence.  Simplified: [malloc] succeeds; the mark that the listener
    leaves on the inputs when it ends is the subject of C78; tagged messages and absent messages on the same socket are
    those of C78, here the listener stops at [Elsewhere]. *)
From Verif Require Import Base Net.
Open Scope Z_scope.

(** include/core/federated/network/net_common.h:573-638. *)
Definition MSG_TYPE_P2P_MESSAGE : Z := 17.
Definition MSG_TYPE_P2P_TAGGED_MESSAGE : Z := 18.
Definition MSG_TYPE_PORT_ABSENT : Z := 23.

(** ** The sender *)
Record sender := mkSender {
  s_open : bool;              (* the outbound socket *)
  s_wire : list Z;            (* the bytes that the operating system has accepted *)
  s_warnings : nat }.
(** net_util.c:189-203 [write_to_socket_close_on_error]: [None] while the call has not returned. *)
Definition write_close (s : sender) (evs : list wr_event) (bytes : list Z) : res (option bool * sender) :=
  do! r <- write_to_socket (s_open s) (Z.of_nat (length bytes)) evs bytes;
  let (io, out) := r in
  let s' open := mkSender open (s_wire s ++ out) (s_warnings s) in
  match io with
  | IoOk => Ok (Some true, s' (s_open s))
  | IoBlocked => Ok (None, s' (s_open s))
  | IoErr | IoEof => Ok (Some false, s' false)
  end.
(** federate.c:2331-2349: the header, with the length cut to 32 bits. *)
Definition message_header (type port fed length : Z) : list Z :=
  byte_of type :: encode_uint16 (port mod 65536) ++ encode_uint16 (fed mod 65536) ++ encode_uint32 (length mod two32).
(** federate.c:2329-2372 [lf_send_message]; [eh], [eb]: what the operating system does with the header and the body. *)
Record request := mkRequest {
  q_type : Z; q_port : Z; q_fed : Z; q_body : list Z; q_eh : list wr_event; q_eb : list wr_event }.
Definition send_message (s : sender) (q : request) : res (option Z * sender) :=
  if negb (q_type q =? MSG_TYPE_P2P_MESSAGE) then Ok (Some (-1), s)
  else
    let fail (s : sender) := Ok (Some (-1), mkSender (s_open s) (s_wire s) (S (s_warnings s))) in
    do! h <- write_close s (q_eh q) (message_header (q_type q) (q_port q) (q_fed q) (Z.of_nat (length (q_body q))));
    match h with
    | (None, s) => Ok (None, s)
    | (Some false, s) => fail s
    | (Some true, s) =>
      do! b <- write_close s (q_eb q) (q_body q);
      match b with
      | (None, s) => Ok (None, s)
      | (Some false, s) => fail s
      | (Some true, s) => Ok (Some 0, s)
      end
    end.
(** The calls of all threads, one after the other (lines 2355, 2370); a call that does not return keeps the mutex. *)
Fixpoint send_all (s : sender) (qs : list request) : res (list Z * sender) :=
  match qs with
  | [] => Ok ([], s)
  | q :: qs =>
    do! r <- send_message s q;
    match r with
    | (None, s) => Ok ([], s)
    | (Some c, s) => do! k <- send_all s qs; Ok (c :: fst k, snd k)
    end
  end.
Definition init_sender : sender := mkSender true [] 0.

(** ** The receiver *)
Record config := mkConfig {
  c_id : Z;                   (* [_lf_my_fed_id] *)
  c_ports : Z;                (* [_lf_action_table_size] *)
  c_big : bool;               (* byte order of the host *)
  c_log : bool }.             (* are messages of level LOG printed? *)
Record receiver := mkReceiver {
  r_got : list (Z * list Z);  (* scheduled: port, value *)
  r_leaked : list (list Z) }. (* contents of buffers that nothing refers to any more *)
Inductive ended := Waiting | Closed | BadType | Aborted | Exited | Elsewhere.

(** lib/schedule.c:70-86 [lf_schedule_value]: the length is an [int]; a negative one is refused (the value stays with the
    caller). *)
Definition schedule_value (r : receiver) (port length : Z) (value : list Z) : receiver :=
  if to_int32 length <? 0 then mkReceiver (r_got r) (r_leaked r ++ [value])
  else mkReceiver (r_got r ++ [(port, value)]) (r_leaked r).

(** [%s] (federate.c:514) reads up to a null byte, which the buffer need not contain: past its end it is undefined. *)
Definition print_string (log : bool) (value : list Z) : res unit :=
  if log && negb (existsb (Z.eqb 0) value) then UB else Ok tt.

(** federate.c:483-519 [handle_message]: [inl]: the thread ends; [inr]: the rest of the stream.  [eh], [eb]: what the
    operating system does with the two reads. *)
Definition handle_message (c : config) (r : receiver) (eh eb : list rd_event) (stream : list Z)
  : res (receiver * (ended + list Z)) :=
  match read_from_socket true 8 eh stream with
  | (IoBlocked, _, _) => Ok (r, inl Waiting)
  | (IoErr, _, _) | (IoEof, _, _) => Ok (r, inl Closed)
  | (IoOk, buffer, stream) =>
    do! h <- extract_header (c_big c) buffer 0;
    if negb (c_id c =? h_fed h) then Ok (r, inl Aborted)                       (* line 501 *)
    else if negb (h_port h <? c_ports c) then Ok (r, inl Exited)               (* line 189 *)
    else
      match read_from_socket true (h_length h) eb stream with
      | (IoBlocked, _, _) => Ok (r, inl Waiting)
      | (IoErr, got, _) | (IoEof, got, _) => Ok (mkReceiver (r_got r) (r_leaked r ++ [got]), inl Closed)   (* lines 510-512 *)
      | (IoOk, value, stream) =>
        do! _ <- print_string (c_log c) value;
        Ok (schedule_value r (h_port h) (h_length h) value, inr stream)
      end
  end.

(** federate.c:747-822 [listen_to_federates]; a round: what the operating system does with the three reads of one message.
    When the rounds are used up the thread is waiting. *)
Definition round := (list rd_event * list rd_event * list rd_event)%type.
Fixpoint listen (c : config) (rs : list round) (r : receiver) (stream : list Z) : res (receiver * ended) :=
  match rs with
  | [] => Ok (r, Waiting)
  | ((et, eh), eb) :: rs =>
    match read_from_socket true 1 et stream with
    | (IoBlocked, _, _) => Ok (r, Waiting)
    | (IoErr, _, _) | (IoEof, _, _) => Ok (r, Closed)
    | (IoOk, type, stream) =>
      let t := nth 0 type 0 in
      if t =? MSG_TYPE_P2P_MESSAGE then
        (do! k <- handle_message c r eh eb stream;
         match k with
         | (r, inl e) => Ok (r, e)
         | (r, inr stream) => listen c rs r stream
         end)
      else if (t =? MSG_TYPE_P2P_TAGGED_MESSAGE) || (t =? MSG_TYPE_PORT_ABSENT) then Ok (r, Elsewhere)
      else Ok (r, BadType)
    end
  end.
Definition init_receiver : receiver := mkReceiver [] [].
