(** Model of how a federate joins its federation: the search for the coordinator over
    ports, and the conversation of the federate (core/federated/federate.c:1893-2056,
    core/federated/clock-sync.c:163-251, 264-292) with the coordinator
    (core/federated/RTI/rti_remote.c:1174-1305, 1312-1467, 839-884) up to the first
    message of the running federation.  Without authentication (see Auth.v). *)
From Verif Require Import Base CText Net Admission Duet.
Local Open Scope Z_scope.

(** include/core/federated/network/net_common.h:275-366, 601-671 *)
Definition MSG_TYPE_REJECT : Z := 0.
Definition MSG_TYPE_TIMESTAMP : Z := 2.
Definition MSG_TYPE_ACK : Z := 255.
Definition MSG_TYPE_UDP_PORT : Z := 254.
Definition MSG_TYPE_CLOCK_SYNC_T1 : Z := 19.
Definition MSG_TYPE_CLOCK_SYNC_T3 : Z := 20.
Definition MSG_TYPE_CLOCK_SYNC_T4 : Z := 21.
Definition MSG_TYPE_NEIGHBOR_STRUCTURE : Z := 24.
Definition UINT16_MAX : Z := 65535.
(** net_common.h:682-700 *)
Definition reject_code (w : reject) : Z :=
  match w with
  | FEDERATION_ID_DOES_NOT_MATCH => 1 | FEDERATE_ID_IN_USE => 2 | FEDERATE_ID_OUT_OF_RANGE => 3
  | UNEXPECTED_MESSAGE => 4 | WRONG_SERVER => 5 | RTI_NOT_EXECUTED_WITH_AUTH => 7
  end.

(** ** The federate. *)
(** How it was compiled: clock synchronization off, initial or on (with the UDP port
    that the system gave it), clock-sync.h:39-53. *)
Inductive clock_mode := ModeOff | ModeInit | ModeOn (udp : Z).
Record federate := mkFederate {
  f_id : nat;
  f_federation : text;
  f_big : bool;
  f_upstream : list (Z * Z);     (* numbers and delays *)
  f_downstream : list Z;
  f_mode : clock_mode;
  f_exchanges : nat;             (* _LF_CLOCK_SYNC_EXCHANGES_PER_INTERVAL *)
  f_time : Z }.                  (* the time it proposes afterwards *)
(** How the conversation ends for the federate: it joined, having seen these times T1
    and T4; it tries again ([cause]: the code of the rejection); or it exits. *)
Inductive fed_end := Joined (times : list (Z * Z)) | Again (cause : option Z) | FedExits | FedUB.

(** clock-sync.c:163-208 *)
Definition udp_port (m : clock_mode) : Z := match m with ModeOff => UINT16_MAX | ModeInit => 0 | ModeOn p => p end.
(** clock-sync.c:210-251, 264-292; called by the generated code unless the mode is off *)
Fixpoint fed_sync (f : federate) (exchanges : nat) (seen : list (Z * Z)) : proc fed_end :=
  match exchanges with
  | O => Send (MSG_TYPE_TIMESTAMP :: encode_int64 (f_time f)) (Over false (Joined (rev seen)))
  | S r =>
    Recv 9 (Over true FedExits) (fun b =>
      if negb (nth 0 b 0 =? MSG_TYPE_CLOCK_SYNC_T1) then Over true FedExits
      else
        Send (MSG_TYPE_CLOCK_SYNC_T3 :: encode_int32 (Z.of_nat (f_id f)))
          (Recv 9 (Over true FedExits) (fun c =>
             if negb (nth 0 c 0 =? MSG_TYPE_CLOCK_SYNC_T4) then Over true FedExits
             else
               match (do! t1 <- extract_int64 (f_big f) b 1; do! t4 <- extract_int64 (f_big f) c 1; Ok (t1, t4)) with
               | Ok t => fed_sync f r (t :: seen)
               | UB => Over true FedUB
               end)))
  end.
(** net_common.h:640-664; written by the generated code *)
Definition neighbor_structure (f : federate) : list Z :=
  MSG_TYPE_NEIGHBOR_STRUCTURE :: encode_int32 (Z.of_nat (length (f_upstream f))) ++ encode_int32 (Z.of_nat (length (f_downstream f))) ++
  flat_map (fun u => encode_uint16 (fst u) ++ encode_int64 (snd u)) (f_upstream f) ++ flat_map encode_uint16 (f_downstream f).
(** federate.c:2033-2056 *)
Definition fed_rest (f : federate) : proc fed_end :=
  Send (neighbor_structure f)
    (Send (MSG_TYPE_UDP_PORT :: encode_uint16 (udp_port (f_mode f)))
       (fed_sync f (match f_mode f with ModeOff => O | _ => f_exchanges f end) [])).
(** federate.c:1965-2030; a cause other than those on line 2013 also leads to another
    turn of the loop *)
Definition fed_join (f : federate) : proc fed_end :=
  let id := firstn 255 (f_federation f) in
  Send (MSG_TYPE_FED_IDS :: encode_uint16 (Z.of_nat (f_id f)) ++ [Z.of_nat (length id)])
    (Send id
      (Recv 1 (Over true (Again None)) (fun r =>
         let response := nth 0 r 0 in
         if response =? MSG_TYPE_REJECT then Recv 1 (Over true FedExits) (fun c => Over true (Again (Some (nth 0 c 0))))
         else if response =? MSG_TYPE_ACK then fed_rest f
         else Over true (Again None)))).

(** ** The coordinator. *)
Inductive clock_status := StatusOff | StatusInit | StatusOn.
(** [times]: what its clock shows at each T1 and T4, one pair per exchange
    (clock_sync_exchanges_per_interval of them); [memory]: the largest block that malloc
    returns. *)
Record coordinator := mkCoordinator {
  c_rti : rti;
  c_big : bool;
  c_status : clock_status;
  c_times : list (Z * Z);
  c_memory : Z }.
(** What it stores about a federate.  [n_address]: the UDP port in [UDP_addr], which is
    otherwise zero; [n_enabled]: clock_synchronization_enabled. *)
Record node_info := mkNode { n_fed : nat; n_upstream : list (Z * Z); n_downstream : list Z; n_enabled : bool; n_address : option Z }.
(** The attempt counted; or it was turned down, before or after the federate was marked
    as connected; or the connection failed; or the coordinator exits. *)
Inductive rti_end := Admitted (i : node_info) | TurnedDown (w : reject) | Stranded (fed : nat) | Dropped | RtiExits | RtiUB.
Definition reject_with (w : reject) (e : rti_end) : proc rti_end := Send [MSG_TYPE_REJECT; reject_code w] (Over true e).

(** rti_remote.c:1357-1370 *)
Fixpoint read_upstream (big : bool) (body : list Z) (head : nat) (k : nat) : res (list (Z * Z)) :=
  match k with
  | O => Ok []
  | S k => do! i <- extract_uint16 big body head; do! d <- extract_int64 big body (head + 2);
           do! r <- read_upstream big body (head + 10) k; Ok ((i, d) :: r)
  end.
Fixpoint read_downstream (big : bool) (body : list Z) (head : nat) (k : nat) : res (list Z) :=
  match k with
  | O => Ok []
  | S k => do! i <- extract_uint16 big body head; do! r <- read_downstream big body (head + 2) k; Ok (i :: r)
  end.
(** rti_remote.c:1417-1440: the exchanges over TCP *)
Fixpoint rti_sync (times : list (Z * Z)) (fed : nat) (after : proc rti_end) : proc rti_end :=
  match times with
  | [] => after
  | (t1, t4) :: r =>
    Send (MSG_TYPE_CLOCK_SYNC_T1 :: encode_int64 t1)
      (Recv 5 (Over true RtiExits) (fun b =>
         if nth 0 b 0 =? MSG_TYPE_CLOCK_SYNC_T3 then Send (MSG_TYPE_CLOCK_SYNC_T4 :: encode_int64 t4) (rti_sync r fed after)
         else reject_with UNEXPECTED_MESSAGE (Stranded fed)))
  end.
(** rti_remote.c:1395-1467 *)
Definition rti_udp (c : coordinator) (fed : nat) (up : list (Z * Z)) (down : list Z) : proc rti_end :=
  Recv 3 (Over true RtiExits) (fun b =>
    if negb (nth 0 b 0 =? MSG_TYPE_UDP_PORT) then reject_with UNEXPECTED_MESSAGE (Stranded fed)
    else
      match c_status c with
      | StatusOff => Over false (Admitted (mkNode fed up down false None))
      | status =>
        match extract_uint16 (c_big c) b 1 with
        | UB => Over true RtiUB
        | Ok port =>
          let after :=
            Over false (Admitted (match status with
                                  | StatusOn => mkNode fed up down true (if 0 <? port then Some port else None)
                                  | _ => mkNode fed up down false None
                                  end)) in
          if port =? UINT16_MAX then after else rti_sync (c_times c) fed after
        end
      end).
(** rti_remote.c:1312-1381 *)
Definition rti_neighbors (c : coordinator) (fed : nat) : proc rti_end :=
  Recv 9 (Over true RtiExits) (fun h =>
    if negb (nth 0 h 0 =? MSG_TYPE_NEIGHBOR_STRUCTURE) then reject_with UNEXPECTED_MESSAGE (Stranded fed)
    else
      match (do! u <- extract_int32 (c_big c) h 1; do! d <- extract_int32 (c_big c) h 5; Ok (u, d)) with
      | UB => Over true RtiUB
      | Ok (u, d) =>
        let size := (10 * u + 2 * d) mod two64 in
        if (c_memory c <? size) || (c_memory c <? 8 * u) || (c_memory c <? 2 * d) then Over true RtiExits
        else if size =? 0 then rti_udp c fed [] []
        else
          Recv (Z.to_nat size) (Over true RtiExits) (fun body =>
            match (do! us <- read_upstream (c_big c) body 0 (Z.to_nat u);
                   do! ds <- read_downstream (c_big c) body (10 * Z.to_nat u) (Z.to_nat d); Ok (us, ds)) with
            | UB => Over true RtiUB
            | Ok (us, ds) => rti_udp c fed us ds
            end)
      end).
(** rti_remote.c:1174-1305, 1574-1576 *)
Definition rti_join (c : coordinator) : proc rti_end :=
  Recv 4 (Over true Dropped) (fun b =>
    let type := nth 0 b 0 in
    if negb (type =? MSG_TYPE_FED_IDS) then
      match snd (check_fed_id (c_rti c) (mkFirst type 0 None) true) with
      | Reject w => reject_with w (TurnedDown w)
      | _ => Over true Dropped
      end
    else
      match extract_uint16 (c_big c) b 1 with
      | UB => Over true RtiUB
      | Ok fed =>
        Recv (Z.to_nat (nth 3 b 0)) (Over true Dropped) (fun id =>
          match snd (check_fed_id (c_rti c) (mkFirst type (Z.to_nat fed) (Some id)) true) with
          | Ack i => Send [MSG_TYPE_ACK] (rti_neighbors c i)
          | Reject w => reject_with w (TurnedDown w)
          | Closed => Over true Dropped
          end)
      end).

(** ** The search over ports. *)
(** net_common.h:218, 240, 248 *)
Definition DEFAULT_PORT : Z := 15045.
Definition MAX_NUM_PORT_ADDRESSES : Z := 16.
Definition PORT_BIND_RETRY_LIMIT : nat := 60.
(** federate.c:1897-1913: the first port tried, and whether others are tried. *)
Definition first_port (port : Z) : Z * bool :=
  if (port <? 0) || (32767 <? port) then (DEFAULT_PORT, true)
  else if port =? 0 then (DEFAULT_PORT, true) else (port, false).
(** federate.c:1936-1942, rti_remote.c:143-147 *)
Definition next_port (p : Z) : Z :=
  let p := (p + 1) mod 65536 in if DEFAULT_PORT + MAX_NUM_PORT_ADDRESSES <=? p then DEFAULT_PORT else p.
(** The port of each attempt of a federate. *)
Fixpoint attempt_port (p : Z) (search : bool) (i : nat) : Z :=
  match i with O => p | S i => attempt_port (if search then next_port p else p) search i end.
Definition federate_port (port : Z) (i : nat) : Z := let '(p, search) := first_port port in attempt_port p search i.
(** rti_remote.c:126-160: [free i p] tells whether the attempt [i] to bind [p] succeeds;
    [more]: how many more attempts there are. *)
Fixpoint bind_port (free : nat -> Z -> bool) (specified : bool) (p : Z) (i more : nat) : option Z :=
  if free i p then Some p
  else match more with O => None | S more => bind_port free specified (if specified then p else next_port p) (S i) more end.
Definition server_port (free : nat -> Z -> bool) (port : Z) : option Z :=
  bind_port free (negb (port =? 0)) (if port =? 0 then DEFAULT_PORT else port) 0 (PORT_BIND_RETRY_LIMIT - 1).

(** federate.c:1923-2033: the loop around the attempts.  One pass: whether the timeout
    or a termination is noticed before it, whether [connect] succeeds, and how the
    conversation ends; what follows is the conversation [fed_rest] or an exit. *)
Record attempt := mkAttempt { a_out_of_time : bool; a_connects : bool; a_acknowledged : bool }.
Inductive search_end := GoesOn (acknowledged : bool) | SearchFails | Searching.
Fixpoint search (connected : bool) (l : list attempt) : search_end :=
  match l with
  | [] => Searching
  | a :: l =>
    if a_out_of_time a then (if connected then GoesOn false else SearchFails)
    else if a_connects a then (if a_acknowledged a then GoesOn true else search true l)
    else search false l
  end.
