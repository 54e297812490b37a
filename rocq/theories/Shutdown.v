(** Model of the end of a federation: lf_terminate_execution of the federates
    (core/federated/federate.c:415-430, 739-858, 1497-1518, 1533-1571, 1674-1732) and the
    threads of the coordinator that handle resignations and failures
    (core/federated/RTI/rti_remote.c:983-1017, 1031-1070, 1072-1146).

    Simplifications: a thread that reads from a connection handles what arrives without
    waiting for anything but the coordinator's mutex; the messages still in flight are left
    out; writing the resignation succeeds; a federate terminates in one thread that no
    other thread waits for. *)
From Verif Require Import Base ClockRounds.

(** The terminating thread of a federate:
    [Resigned]: the coordinator has been told; [Outs l]: the connections from other
    federates are closed, those to [l] are to be closed; [Drain k l]: waits for the end of
    file from [k]; then it joins the threads that listen to federates and to the coordinator. *)
Inductive place := Running | Resigned | Outs (l : list nat) | Drain (k : nat) (l : list nat) | JoinPeers | JoinRti | Exited.
(** The thread of the coordinator for a federate: [RWant]: it has read the last message;
    [RHold]: it holds the mutex, has shut its half of the connection, and reads to the end *)
Inductive rthread := RListen | RWant | RHold | RDone.
Record state := mkState {
  place_of : nat -> place;
  normal : nat -> bool;              (* _lf_normal_termination *)
  out_open : nat -> nat -> bool;     (* [i]'s half of its connection to [k] is open *)
  in_open : nat -> nat -> bool;      (* [k]'s end of the connection from [i] is open: [in_open k i] *)
  hears : nat -> nat -> bool;        (* the thread of [k] that listens to [i] runs: [hears k i] *)
  hears_rti : nat -> bool;           (* the thread that listens to the coordinator runs *)
  thread_of : nat -> rthread;
  mutex : option nat }.              (* rti_mutex *)
Inductive op :=
| Terminate (i : nat) (normally : bool)
| Main (i : nat)
| Hear (k i : nat)      (* the thread of [k] that listens to [i] *)
| HearRti (i : nat)
| Rti (i : nat)         (* the thread of the coordinator for [i] *)
| Serve (i : nat).      (* the same, handling another message, with the mutex *)

Definition fupd2 {A} (m : nat -> nat -> A) (i k : nat) (v : A) : nat -> nat -> A := fupd m i (fupd (m i) k v).
Definition is_free (m : option nat) : bool := match m with None => true | Some _ => false end.

(** None: it cannot act.  [link i k]: federate [i] has a connection to [k]. *)
Definition main_step (n : nat) (link : nat -> nat -> bool) (s : state) (i : nat) : option state :=
  let go p := Some (mkState (fupd (place_of s) i p) (normal s) (out_open s) (in_open s) (hears s) (hears_rti s) (thread_of s) (mutex s)) in
  match place_of s i with
  | Running => None
  | Resigned =>          (* federate.c:1691-1695 *)
    Some (mkState (fupd (place_of s) i (Outs (seq 0 n))) (normal s) (out_open s) (fupd (in_open s) i (fun _ => false)) (hears s) (hears_rti s) (thread_of s) (mutex s))
  | Outs [] => go JoinPeers
  | Outs (k :: l) =>     (* federate.c:1701-1708, 832-858 *)
    if link i k && out_open s i k then
      Some (mkState (fupd (place_of s) i (if normal s i then Drain k l else Outs l)) (normal s) (fupd2 (out_open s) i k false) (in_open s) (hears s) (hears_rti s) (thread_of s) (mutex s))
    else go (Outs l)
  | Drain k l => if in_open s k i then None else go (Outs l)      (* federate.c:847-850 *)
  | JoinPeers => if forallb (fun j => negb (hears s i j)) (seq 0 n) then go JoinRti else None     (* federate.c:1712-1719 *)
  | JoinRti => if hears_rti s i then None else go Exited          (* federate.c:1723 *)
  | Exited => None
  end.
Definition step (n : nat) (link : nat -> nat -> bool) (s : state) (o : op) : option state :=
  match o with
  | Terminate i b =>     (* federate.c:1679-1687 *)
    match place_of s i with
    | Running => Some (mkState (fupd (place_of s) i Resigned) (fupd (normal s) i b) (out_open s) (in_open s) (hears s) (hears_rti s) (thread_of s) (mutex s))
    | _ => None
    end
  | Main i => main_step n link s i
  | Hear k i =>          (* federate.c:760-765, net_util.c:119-133: end of file, or the socket was closed *)
    if hears s k i && (negb (out_open s i k) || negb (in_open s k i)) then
      Some (mkState (place_of s) (normal s) (out_open s) (fupd2 (in_open s) k i false) (fupd2 (hears s) k i false) (hears_rti s) (thread_of s) (mutex s))
    else None
  | HearRti i =>         (* federate.c:1550-1571 *)
    if hears_rti s i && match thread_of s i with RHold | RDone => true | _ => false end then
      Some (mkState (place_of s) (normal s) (out_open s) (in_open s) (hears s) (fupd (hears_rti s) i false) (thread_of s) (mutex s))
    else None
  | Rti i =>
    let go t m := Some (mkState (place_of s) (normal s) (out_open s) (in_open s) (hears s) (hears_rti s) (fupd (thread_of s) i t) m) in
    match thread_of s i with
    | RListen => match place_of s i with Running => None | _ => go RWant (mutex s) end     (* rti_remote.c:1081-1128 *)
    | RWant =>         (* rti_remote.c:1033-1052; for a failure the whole of 983-1017 *)
      if is_free (mutex s) then (if normal s i then go RHold (Some i) else go RDone None) else None
    | RHold => match place_of s i with Exited => go RDone None | _ => None end   (* rti_remote.c:1054-1070: the federate never closes the socket itself *)
    | RDone => None
    end
  | Serve i => match thread_of s i with RListen => if is_free (mutex s) then Some s else None | _ => None end
  end.
(** A run: who cannot act does not. *)
Fixpoint run (n : nat) (link : nat -> nat -> bool) (s : state) (l : list op) : state :=
  match l with
  | [] => s
  | o :: l => match step n link s o with Some s => run n link s l | None => run n link s l end
  end.
Definition start (link : nat -> nat -> bool) : state :=
  mkState (fun _ => Running) (fun _ => true) link (fun k i => link i k) (fun k i => link i k) (fun _ => true) (fun _ => RListen) None.
(** An unknown message type from [i] ends the thread of [k] that listens to [i]; the message
    that it prints says that the socket is closed, but it is left open (federate.c:806-811). *)
Definition bad_message (k i : nat) (s : state) : state :=
  mkState (place_of s) (normal s) (out_open s) (in_open s) (fupd2 (hears s) k i false) (hears_rti s) (thread_of s) (mutex s).
