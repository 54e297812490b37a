(** Model of the admission of a federate by the coordinator
    (core/federated/RTI/rti_remote.c:1174-1305 and the loop 1540-1594, without
    authentication) and by another federate (core/federated/federate.c:2148-2259). *)
From Verif Require Import Base CText.
Open Scope Z_scope.

(** include/core/federated/network/net_common.h:309, 322, 562, 590 *)
Definition MSG_TYPE_FED_IDS : Z := 1.
Definition MSG_TYPE_P2P_SENDING_FED_ID : Z := 16.
Definition MSG_TYPE_P2P_TAGGED_MESSAGE : Z := 18.
Definition MSG_TYPE_FED_NONCE : Z := 100.
Inductive reject := WRONG_SERVER | RTI_NOT_EXECUTED_WITH_AUTH | UNEXPECTED_MESSAGE
  | FEDERATION_ID_DOES_NOT_MATCH | FEDERATE_ID_OUT_OF_RANGE | FEDERATE_ID_IN_USE.

(** The first message: type, federate id, and the bytes of the federation id (at
    most 255; their number is the length byte).  [None]: the bytes do not arrive. *)
Record first_message := mkFirst { m_type : Z; m_fed : nat; m_id : option text }.

(** A received byte sequence read as a C string: up to the first NUL. *)
Fixpoint c_string (b : text) : text :=
  match b with [] => [] | c :: r => if c =? 0 then [] else c :: c_string r end.

(** State of the coordinator: which of its federates are not NOT_CONNECTED. *)
Record rti := mkRti { federation_id : text; nodes : nat; connected : nat -> bool }.
Definition rti0 (id : text) (n : nat) : rti := mkRti id n (fun _ => false).
Definition set_connected (r : rti) (i : nat) (b : bool) : rti :=
  mkRti (federation_id r) (nodes r) (fun j => if Nat.eqb j i then b else connected r j).

Inductive answer := Ack (fed : nat) | Reject (why : reject) | Closed.

(** rti_remote.c:1174-1305 [receive_and_check_fed_id_message].  The received id is
    terminated with a NUL on line 1224, so strncmp on line 1232 stops at the end
    of either string or after the received number of bytes.  [acked]: whether
    the acknowledgement could be written (lines 1293-1299). *)
Definition check_fed_id (r : rti) (m : first_message) (acked : bool) : rti * answer :=
  if negb (m_type m =? MSG_TYPE_FED_IDS) then
    (r, Reject (if (m_type m =? MSG_TYPE_P2P_SENDING_FED_ID) || (m_type m =? MSG_TYPE_P2P_TAGGED_MESSAGE) then WRONG_SERVER
                else if m_type m =? MSG_TYPE_FED_NONCE then RTI_NOT_EXECUTED_WITH_AUTH else UNEXPECTED_MESSAGE))
  else
    match m_id m with
    | None => (r, Closed)
    | Some b =>
        if negb (strn_eqb (length b) (federation_id r) (c_string b)) then (r, Reject FEDERATION_ID_DOES_NOT_MATCH)
        else if (nodes r <=? m_fed m)%nat then (r, Reject FEDERATE_ID_OUT_OF_RANGE)
        else if connected r (m_fed m) then (r, Reject FEDERATE_ID_IN_USE)
        else (set_connected r (m_fed m) true, if acked then Ack (m_fed m) else Closed)
    end.

(** rti_remote.c:1540-1594 [lf_connect_to_federates]: the loop ends when as many
    attempts succeeded as there are federates.  [rest]: whether the neighbor
    structure and the UDP port that follow are accepted (the tests on lines
    1575-1576); if not, the attempt does not count but the federate stays
    PENDING.  [Leave]: a federate that was admitted resigns or its socket fails
    (lines 995, 1041, 1088). *)
Inductive op := Attempt (m : first_message) (acked rest : bool) | Leave (i : nat).
Record loop := mkLoop { coord : rti; admitted : list nat }.
Definition step (l : loop) (o : op) : loop * option answer :=
  match o with
  | Leave i => (mkLoop (set_connected (coord l) i false) (admitted l), None)
  | Attempt m acked rest =>
      if (nodes (coord l) <=? length (admitted l))%nat
      then (* rti_remote.c:1613-1641 respond_to_erroneous_connections *) (l, Some (Reject FEDERATION_ID_DOES_NOT_MATCH))
      else
        let '(r, a) := check_fed_id (coord l) m acked in
        match a with
        | Ack i => (mkLoop r (if rest then i :: admitted l else admitted l), Some a)
        | _ => (mkLoop r (admitted l), Some a)
        end
  end.
Fixpoint run (l : loop) (os : list op) : loop :=
  match os with [] => l | o :: os => run (fst (step l o)) os end.
Definition loop0 (id : text) (n : nat) : loop := mkLoop (rti0 id n) [].

(** federate.c:2193-2227: the check made by a federate that another federate
    connects to.  The received bytes are not terminated: strncmp compares as many
    bytes as the own id has, and reads past the array (undefined) if it has to
    go on after the last received byte.  [sockets] is the size of the array
    indexed by the received id on line 2227. *)
Fixpoint strn_raw (n : nat) (a : text) (b : text) : res bool :=
  match n with
  | O => Ok true
  | S n =>
      match b with
      | [] => UB
      | y :: b => match a with
                  | [] => Ok (y =? 0)
                  | x :: a => if x =? y then strn_raw n a b else Ok false
                  end
      end
  end.
Definition check_p2p (mine : text) (sockets : nat) (m : first_message) : res answer :=
  if negb (m_type m =? MSG_TYPE_P2P_SENDING_FED_ID) then Ok (Reject WRONG_SERVER)
  else match m_id m with
  | None => Ok Closed
  | Some b =>
      do! same <- strn_raw (Nat.min (length mine) 255) mine b;
      if same then if (m_fed m <? sockets)%nat then Ok (Ack (m_fed m)) else UB
      else Ok (Reject FEDERATION_ID_DOES_NOT_MATCH)
  end.
