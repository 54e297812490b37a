(** Model of clock synchronization at runtime: the thread of the coordinator
    (core/federated/RTI/rti_remote.c:839-972), the threads of the federates
    (core/federated/clock-sync.c:258-369, 437-527) and the datagrams between them.  What
    a federate computes from an exchange is in ClockSync.v.

    Reads retry for ever when they time out (core/federated/network/net_util.c:91-122,
    clock-sync.c:461-476), so that a thread with nothing to read cannot act.

    Simplifications: sleeping is left out; writing to the UDP socket succeeds; errno does
    not hold EAGAIN when a federate receives a datagram that is too short. *)
From Verif Require Import Base Net Join.
Local Open Scope Z_scope.

(** net_common.h:625 *)
Definition MSG_TYPE_CLOCK_SYNC_CODED_PROBE : Z := 22.

(** clock-sync.c:441-527, 345-358: what the thread of a federate waits for, with the
    times that it has seen so far and the bytes of a probe that it has read *)
Inductive fed_mode := WaitT1 | WaitT4 (t1 : Z) | WaitProbe (t1 t4 : Z) (part : list Z) | ThreadEnded.
(** [f_done]: the exchanges that were completed: T1, T4 and the time of the probe *)
Record fed := mkFed { f_mode : fed_mode; f_inbox : list (list Z); f_done : list (Z * Z * Z) }.
(** rti_remote.c:912-968: the thread is about to turn to the federates that remain in
    this round, or waits for a reply of a federate with so many attempts left and
    these bytes read ([t1], the time that it sent, is only used for [c_done]) *)
Inductive phase := Turn (todo : list nat) (any : bool) | Reading (f attempts : nat) (t1 : Z) (part : list Z) (todo : list nat) (any : bool) | Finished.
Record static := mkStatic {
  n : nat;
  enabled : nat -> bool;            (* clock_synchronization_enabled *)
  coord_big : bool;
  fed_big : nat -> bool }.
(** [c_done]: the exchanges that the coordinator completed, and with whom *)
Record state := mkState {
  phase_of : phase;
  rounds : nat;
  to_coord : list (list Z);
  c_done : list (nat * (Z * Z * Z));
  connected : nat -> bool;
  feds : nat -> fed }.
(** [now1] is the time of the first message sent in a step, [now2] that of the second *)
Inductive op :=
| Coord (now1 now2 : Z)
| Fed (f : nat)
| LoseUp (i : nat) | LoseDown (f i : nat)          (* the network loses a datagram *)
| StrayUp (d : list Z) | StrayDown (f : nat) (d : list Z)  (* another program sends one *)
| Leave (f : nat).                                (* the federate resigns or dies *)

Definition fupd {A} (m : nat -> A) (k : nat) (v : A) : nat -> A := fun x => if Nat.eqb x k then v else m x.
Definition timed (type t : Z) : list Z := type :: encode_int64 t.
Fixpoint drop_nth {A} (i : nat) (l : list A) : list A :=
  match l, i with [], _ => [] | _ :: l, O => l | x :: l, S i => x :: drop_nth i l end.
(** A datagram for a federate whose thread does not run is lost. *)
Definition deliver (d : list (list Z)) (x : fed) : fed :=
  match f_mode x with ThreadEnded => x | _ => mkFed (f_mode x) (f_inbox x ++ d) (f_done x) end.

(** rti_remote.c:947-963: the buffer does not count *)
Definition discard (f left_ : nat) (t1 : Z) (todo : list nat) (any : bool) : phase :=
  match left_ with O => Turn todo any | S _ => Reading f left_ t1 [] todo any end.
(** None: it cannot act; UB: see [res] *)
Definition coord_step (s : static) (st : state) (now1 now2 : Z) : option (res state) :=
  match phase_of st with
  | Finished => None
  | Turn [] any =>      (* rti_remote.c:907-911 *)
    Some (Ok (if any then mkState (Turn (seq 0 (n s)) false) (S (rounds st)) (to_coord st) (c_done st) (connected st) (feds st)
              else mkState Finished (rounds st) (to_coord st) (c_done st) (connected st) (feds st)))
  | Turn (f :: r) any =>  (* rti_remote.c:912-932 *)
    Some (Ok (if negb (connected st f) || negb (enabled s f) then mkState (Turn r any) (rounds st) (to_coord st) (c_done st) (connected st) (feds st)
              else mkState (Reading f 5 now1 [] r any) (rounds st) (to_coord st) (c_done st) (connected st)
                     (fupd (feds st) f (deliver [timed MSG_TYPE_CLOCK_SYNC_T1 now1] (feds st f)))))
  | Reading f k t1 part r any =>   (* rti_remote.c:933-967 *)
    match to_coord st with
    | [] => None
    | [] :: q => Some (Ok (mkState (Turn r any) (rounds st) q (c_done st) (connected st) (feds st)))
    | d :: q =>
      let b := part ++ firstn (5 - length part) d in
      if (length b <? 5)%nat then Some (Ok (mkState (Reading f k t1 b r any) (rounds st) q (c_done st) (connected st) (feds st)))
      else if nth 0 b 0 =? MSG_TYPE_CLOCK_SYNC_T3 then
        match extract_int32 (coord_big s) b 1 with
        | UB => Some UB
        | Ok g =>
          if g =? Z.of_nat f then
            (* connected is read again by send_physical_clock, line 840 *)
            Some (Ok (mkState (Turn r (any || (1 <? k)%nat)) (rounds st) q (c_done st ++ [(f, (t1, now1, now2))]) (connected st)
                        (if connected st f then fupd (feds st) f (deliver [timed MSG_TYPE_CLOCK_SYNC_T4 now1; timed MSG_TYPE_CLOCK_SYNC_CODED_PROBE now2] (feds st f))
                         else feds st)))
          else Some (Ok (mkState (discard f (k - 1) t1 r any) (rounds st) q (c_done st) (connected st) (feds st)))
        end
      else Some (Ok (mkState (discard f (k - 1) t1 r any) (rounds st) q (c_done st) (connected st) (feds st)))
    end
  end.

(** clock-sync.c:258-369, 455-525 *)
Definition fed_step (s : static) (st : state) (f : nat) : option (res state) :=
  let x := feds st f in
  let stay m q up dn := Some (Ok (mkState (phase_of st) (rounds st) (to_coord st ++ up) (c_done st) (connected st) (fupd (feds st) f (mkFed m q (f_done x ++ dn))))) in
  match f_inbox x with
  | [] => None
  | d :: q =>
    match f_mode x with
    | ThreadEnded => None
    | WaitT1 =>
      let b := firstn 9 d in
      if (length b <? 9)%nat then stay ThreadEnded [] [] []
      else if nth 0 b 0 =? MSG_TYPE_CLOCK_SYNC_T1 then
        match extract_int64 (fed_big s f) b 1 with
        | UB => Some UB
        | Ok t1 => stay (WaitT4 t1) q [MSG_TYPE_CLOCK_SYNC_T3 :: encode_int32 (Z.of_nat f)] []
        end
      else stay WaitT1 q [] []
    | WaitT4 t1 =>
      let b := firstn 9 d in
      if (length b <? 9)%nat then stay ThreadEnded [] [] []
      else if nth 0 b 0 =? MSG_TYPE_CLOCK_SYNC_T4 then
        match extract_int64 (fed_big s f) b 1 with UB => Some UB | Ok t4 => stay (WaitProbe t1 t4 []) q [] [] end
      else stay WaitT1 q [] []
    | WaitProbe t1 t4 part =>
      let b := part ++ firstn (9 - length part) d in
      if (length d =? 0)%nat then stay WaitT1 q [] []
      else if (length b <? 9)%nat then stay (WaitProbe t1 t4 b) q [] []
      else if nth 0 b 0 =? MSG_TYPE_CLOCK_SYNC_CODED_PROBE then
        match extract_int64 (fed_big s f) b 1 with UB => Some UB | Ok t5 => stay WaitT1 q [] [(t1, t4, t5)] end
      else stay WaitT1 q [] []
    end
  end.
Definition step (s : static) (st : state) (o : op) : option (res state) :=
  match o with
  | Coord a b => coord_step s st a b
  | Fed f => if (f <? n s)%nat then fed_step s st f else None
  | LoseUp i => Some (Ok (mkState (phase_of st) (rounds st) (drop_nth i (to_coord st)) (c_done st) (connected st) (feds st)))
  | LoseDown f i =>
    Some (Ok (mkState (phase_of st) (rounds st) (to_coord st) (c_done st) (connected st)
                (fupd (feds st) f (mkFed (f_mode (feds st f)) (drop_nth i (f_inbox (feds st f))) (f_done (feds st f))))))
  | StrayUp d => Some (Ok (mkState (phase_of st) (rounds st) (to_coord st ++ [d]) (c_done st) (connected st) (feds st)))
  | StrayDown f d => Some (Ok (mkState (phase_of st) (rounds st) (to_coord st) (c_done st) (connected st) (fupd (feds st) f (deliver [d] (feds st f)))))
  | Leave f =>
    Some (Ok (mkState (phase_of st) (rounds st) (to_coord st) (c_done st) (fupd (connected st) f false)
                (fupd (feds st) f (mkFed ThreadEnded [] (f_done (feds st f))))))
  end.
(** A run: a program that cannot act is without effect. *)
Fixpoint run (s : static) (st : state) (l : list op) : res state :=
  match l with
  | [] => Ok st
  | o :: l => match step s st o with None => run s st l | Some UB => UB | Some (Ok st) => run s st l end
  end.
(** The coordinator starts the thread after all federates have joined;
    [listens f]: whether federate [f] has clock synchronization on. *)
Definition start (listens : nat -> bool) : state :=
  mkState (Turn [] true) 0 [] [] (fun _ => true) (fun f => mkFed (if listens f then WaitT1 else ThreadEnded) [] []).
