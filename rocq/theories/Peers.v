(** Model of the direct connections between federates: a federate creates a server
    and advertises its port to the coordinator, asks the coordinator for the address
    of each peer, connects to it and identifies itself, and the server of the peer
    accepts (core/federated/federate.c:1738-1891, 2058-2122, 2148-2259 and
    core/federated/RTI/rti_remote.c:716-778, 1258-1278).

    The federates, the coordinator and the network are one transition system, in
    which every message between a federate and the coordinator and every connection
    waits in a queue.  The type bytes of the messages to and from the coordinator are
    constructors; the other bytes are those of the code. *)
From Verif Require Import Base CText Net Admission.
Local Open Scope Z_scope.

(** What does not change: the number of federates, byte orders, the federation id,
    the host that each federate runs on, the address that the coordinator saw when
    the federate connected (rti_remote.c:1263-1270), the host that an address leads to
    from a given host, the peers that a federate connects to (one call of
    [lf_connect_to_federate] each) and the number of connections that its server
    waits for. *)
Record static := mkStatic {
  n : nat;
  big : nat -> bool; rti_big : bool;
  my_id : text;
  host : nat -> nat;
  addr : nat -> list Z;
  reach : nat -> list Z -> option nat;
  peers : nat -> list nat;
  expected : nat -> nat }.

Inductive msg := MAd (payload : list Z) | MQuery (payload : list Z).
(** Where the main thread is: before a query, waiting for the reply, before
    [connect], waiting for the answer of the peer, or gone. *)
Inductive phase :=
| Idle
| Asked
| Connecting (a : list Z) (p : Z)
| Shaking (a : list Z) (p : Z) (c : nat)
| Exited.
(** [sport]: the port that the server listens on; [up], [down]: messages to and from
    the coordinator; [backlog]: connections not yet accepted; [outs], [ins]: what was
    stored in the two arrays of sockets, the latest first. *)
Record fed := mkFed {
  ph : phase;
  todo : list nat;
  sport : option Z;
  up : list msg;
  down : list (list Z * list Z);
  backlog : list nat;
  outs : list (nat * nat);
  ins : list (nat * nat) }.
(** A connection: the federate that made it (if any), the one whose server it
    reached, the first bytes sent, and the answer: [Some true] is MSG_TYPE_ACK. *)
Record conn := mkConn { client : option nat; server : nat; sent : list Z; answered : option bool }.
Record net := mkNet { feds : nat -> fed; table : nat -> Z; conns : list conn }.

Definition with_ph x f := mkFed x (todo f) (sport f) (up f) (down f) (backlog f) (outs f) (ins f).
Definition with_todo x f := mkFed (ph f) x (sport f) (up f) (down f) (backlog f) (outs f) (ins f).
Definition with_sport x f := mkFed (ph f) (todo f) x (up f) (down f) (backlog f) (outs f) (ins f).
Definition with_up x f := mkFed (ph f) (todo f) (sport f) x (down f) (backlog f) (outs f) (ins f).
Definition with_down x f := mkFed (ph f) (todo f) (sport f) (up f) x (backlog f) (outs f) (ins f).
Definition with_backlog x f := mkFed (ph f) (todo f) (sport f) (up f) (down f) x (outs f) (ins f).
Definition with_outs x f := mkFed (ph f) (todo f) (sport f) (up f) (down f) (backlog f) x (ins f).
Definition with_ins x f := mkFed (ph f) (todo f) (sport f) (up f) (down f) (backlog f) (outs f) x.

Definition fupd {A} (f : nat -> A) (i : nat) (x : A) : nat -> A := fun j => if Nat.eqb j i then x else f j.
Definition set_fed (st : net) (i : nat) (x : fed) : net := mkNet (fupd (feds st) i x) (table st) (conns st).
Fixpoint set_nth {A} (i : nat) (x : A) (l : list A) : list A :=
  match l, i with
  | [], _ => []
  | _ :: r, O => x :: r
  | a :: r, S i => a :: set_nth i x r
  end.

(** The first message on a connection, federate.c:1855-1871. *)
Definition hello (s : static) (f : nat) : list Z :=
  [MSG_TYPE_P2P_SENDING_FED_ID] ++ encode_uint16 (Z.of_nat f) ++ [Z.of_nat (Nat.min (length (my_id s)) 255)] ++
  firstn 255 (my_id s).

(** federate.c:2172-2215: what the server makes of the first bytes. *)
Definition accept_check (s : static) (g : nat) (bytes : list Z) : res answer :=
  if (length bytes <? 4)%nat then Ok Closed
  else if negb (nth 0 bytes 0 =? MSG_TYPE_P2P_SENDING_FED_ID) then Ok (Reject WRONG_SERVER)
  else
    let len := Z.to_nat (nth 3 bytes 0) in
    let rest := skipn 4 bytes in
    do! id <- extract_uint16 (big s g) bytes 1;
    check_p2p (my_id s) (n s)
      (mkFirst (nth 0 bytes 0) (Z.to_nat id) (if (length rest <? len)%nat then None else Some (firstn len rest))).

(** Which federate listens on a port of a host. *)
Definition listens (s : static) (st : net) (h : nat) (p : Z) (g : nat) : bool :=
  Nat.eqb (host s g) h && match sport (feds st g) with Some q => q =? p | None => false end.
Definition listener (s : static) (st : net) (h : nat) (p : Z) : option nat :=
  find (listens s st h p) (seq 0 (n s)).

Inductive op :=
| Serve (f : nat) (p : Z)           (* lf_create_server: the port given or found by the system *)
| Query (f : nat)                   (* lf_connect_to_federate sends a query *)
| RtiRead (f : nat)                 (* the coordinator handles a message from f *)
| FedRead (f : nat)                 (* f reads a reply *)
| Connect (f : nat)                 (* f calls connect *)
| Accept (g : nat)                  (* the server of g accepts and answers *)
| FedAck (f : nat)                  (* f reads the answer *)
| GiveUp (f : nat)                  (* CONNECT_TIMEOUT passes *)
| Stranger (g : nat) (bytes : list Z).   (* another program connects to the server of g *)

Definition step (s : static) (o : op) (st : net) : res net :=
  match o with
  (* federate.c:2058-2122; bind fails for a port that is in use on the host *)
  | Serve f p =>
    let x := feds st f in
    match sport x, ph x with
    | None, Idle =>
      if (f <? n s)%nat && (1 <=? p) && (p <=? 65535) && match listener s st (host s f) p with None => true | Some _ => false end then
        Ok (set_fed st f (with_up (up x ++ [MAd (encode_int32 p)]) (with_sport (Some p) x)))
      else Ok st
    | _, _ => Ok st
    end
  (* federate.c:1748-1762 *)
  | Query f =>
    let x := feds st f in
    match ph x, todo x with
    | Idle, g :: _ => Ok (set_fed st f (with_up (up x ++ [MQuery (encode_uint16 (Z.of_nat g))]) (with_ph Asked x)))
    | _, _ => Ok st
    end
  | RtiRead f =>
    let x := feds st f in
    match up x with
    | [] => Ok st
    (* rti_remote.c:757-778 *)
    | MAd b :: r =>
      do! p <- extract_int32 (rti_big s) b 0;
      Ok (mkNet (fupd (feds st) f (with_up r x)) (fupd (table st) f p) (conns st))
    (* rti_remote.c:716-755 *)
    | MQuery b :: r =>
      do! g <- extract_uint16 (rti_big s) b 0;
      if (Z.to_nat g <? n s)%nat then
        Ok (set_fed st f (with_down (down x ++ [(encode_int32 (table st (Z.to_nat g)), addr s (Z.to_nat g))]) (with_up r x)))
      else UB
    end
  (* federate.c:1765-1794 *)
  | FedRead f =>
    let x := feds st f in
    match ph x, down x with
    | Asked, (b, a) :: r =>
      do! p <- extract_int32 (big s f) b 0;
      Ok (set_fed st f (with_ph (if p =? -1 then Idle
                                 else if (0 <? p) && (p <? 65536) then Connecting a p else Exited) (with_down r x)))
    | _, _ => Ok st
    end
  (* federate.c:1808-1871 *)
  | Connect f =>
    let x := feds st f in
    match ph x with
    | Connecting a p =>
      match reach s (host s f) a with
      | None => Ok st
      | Some h =>
        match listener s st h p with
        | None => Ok st
        | Some g =>
          let c := length (conns st) in
          let st := set_fed st f (with_ph (Shaking a p c) x) in
          Ok (mkNet (fupd (feds st) g (with_backlog (backlog (feds st g) ++ [c]) (feds st g))) (table st)
                (conns st ++ [mkConn (Some f) g (hello s f) None]))
        end
      end
    | _ => Ok st
    end
  (* federate.c:2148-2259 *)
  | Accept g =>
    let x := feds st g in
    if (expected s g <=? length (ins x))%nat then Ok st
    else
      match backlog x with
      | [] => Ok st
      | c :: r =>
        match nth_error (conns st) c with
        | None => Ok st
        | Some k =>
          do! a <- accept_check s g (sent k);
          let x := with_backlog r x in
          match a with
          | Ack f => Ok (mkNet (fupd (feds st) g (with_ins ((f, c) :: ins x) x)) (table st)
                           (set_nth c (mkConn (client k) (server k) (sent k) (Some true)) (conns st)))
          | _ => Ok (mkNet (fupd (feds st) g x) (table st) (set_nth c (mkConn (client k) (server k) (sent k) (Some false)) (conns st)))
          end
        end
      end
  (* federate.c:1873-1890: after a rejection, once more *)
  | FedAck f =>
    let x := feds st f in
    match ph x, todo x with
    | Shaking a p c, g :: r =>
      match nth_error (conns st) c with
      | Some (mkConn _ _ _ (Some true)) => Ok (set_fed st f (with_outs ((g, c) :: outs x) (with_todo r (with_ph Idle x))))
      | Some (mkConn _ _ _ (Some false)) => Ok (set_fed st f (with_ph (Connecting a p) x))
      | _ => Ok st
      end
    | _, _ => Ok st
    end
  (* federate.c:1833-1839: the function returns *)
  | GiveUp f =>
    let x := feds st f in
    match ph x with
    | Connecting _ _ => Ok (set_fed st f (with_todo (tl (todo x)) (with_ph Idle x)))
    | _ => Ok st
    end
  | Stranger g bytes =>
    let x := feds st g in
    match sport x with
    | None => Ok st
    | Some _ => Ok (mkNet (fupd (feds st) g (with_backlog (backlog x ++ [length (conns st)]) x)) (table st)
                      (conns st ++ [mkConn None g bytes None]))
    end
  end.
Fixpoint run (s : static) (os : list op) (st : net) : res net :=
  match os with [] => Ok st | o :: os => do! st <- step s o st; run s os st end.
(** rti_remote.c:1652, federate.c:84 *)
Definition start (s : static) : net :=
  mkNet (fun f => mkFed Idle (peers s f) None [] [] [] [] []) (fun _ => -1) [].

(** The sockets in the arrays: the last one stored. *)
Definition lookup (f : nat) (l : list (nat * nat)) : option nat := option_map snd (find (fun x => Nat.eqb (fst x) f) l).
Definition outbound (st : net) (f g : nat) : option nat := lookup g (outs (feds st f)).
Definition inbound (st : net) (g f : nat) : option nat := lookup f (ins (feds st g)).

(** ** The two loops of [lf_connect_to_federate] against any behaviour of the others. *)
(** include/core/federated/network/net_common.h:211, 226 *)
Definition CONNECT_TIMEOUT : Z := 60000000000.
Definition ADDRESS_QUERY_RETRY_INTERVAL : Z := 250000000.
(** One pass through the first loop: whether [_lf_termination_executed] is set, the
    reply (its type is as expected: [true]), its port, and the physical time at the
    check for a timeout. *)
Record query_pass := mkQuery { q_terminated : bool; q_type : bool; q_port : Z; q_now : Z }.
Inductive address_result := Port (p : Z) | AssertFails | ExitTimeout | ExitType | StillAsking.
(** federate.c:1748-1794; [asserts]: not NDEBUG.  Without them the port is converted
    to 16 bits. *)
Definition check_port (asserts : bool) (p : Z) : address_result :=
  if asserts && negb ((p <? 65536) && (0 <? p)) then AssertFails else Port (p mod 65536).
Fixpoint ask (asserts : bool) (t0 : Z) (l : list query_pass) : address_result :=
  match l with
  | [] => StillAsking
  | q :: r =>
    if q_terminated q then check_port asserts (-1)
    else if negb (q_type q) then ExitType
    else if q_port q =? -1 then (if t0 + CONNECT_TIMEOUT <? q_now q then ExitTimeout else ask asserts t0 r)
    else check_port asserts (q_port q)
  end.
(** One pass through the second loop: the result of [connect], the answer of the peer
    ([Some true] is MSG_TYPE_ACK, [None] a failing socket), the time at the check and
    whether the coordinator failed. *)
Record connect_pass := mkPass { c_terminated : bool; c_connects : bool; c_answer : option bool; c_now : Z; c_rti_failed : bool }.
(** What is stored in the array of sockets: the socket (numbered by the pass) and
    whether it is connected; and how many sockets were created. *)
Inductive connect_result :=
| Stored (socket : option nat) (connected : bool) (created : nat)
| Returns (created : nat)
| ExitSocket
| StillConnecting (created : nat).
(** federate.c:1806-1890 *)
Fixpoint connect_loop (t0 : Z) (created : nat) (l : list connect_pass) : connect_result :=
  match l with
  | [] => StillConnecting created
  | c :: r =>
    if c_terminated c then Stored (match created with O => None | S k => Some k end) false created
    else if c_connects c then
      match c_answer c with
      | None => ExitSocket
      | Some true => Stored (Some created) true (S created)
      | Some false => connect_loop t0 (S created) r
      end
    else if t0 + CONNECT_TIMEOUT <? c_now c then Returns (S created)
    else if c_rti_failed c then Stored (Some created) false (S created)
    else connect_loop t0 (S created) r
  end.
