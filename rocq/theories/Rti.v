(** Model of the coordinator's tag advance: core/federated/RTI/rti_common.c:44-283 and the handlers of
    core/federated/RTI/rti_remote.c:181-517, 983-1070.

    Simplifications.  The state PENDING (a federate that has not yet received the start time) is left out: the waits of
    rti_remote.c:189-192 and 224-227 are taken as passed.  The queue of in-transit tags (lib/pqueue_tag.c) is
    represented by its contents, as the theorems C10 allow.  Everything each federate is sent is kept in a log. *)
From Verif Require Import Base Tag RtiDelays.
From Verif Require Import Pqueue.   (* [upd] *)
Open Scope Z_scope.

(** What the coordinator writes to a federate's socket. *)
Inductive rmsg :=
| MTag (t : tag)                    (* MSG_TYPE_TAG_ADVANCE_GRANT *)
| MPtag (t : tag)                   (* MSG_TYPE_PROVISIONAL_TAG_ADVANCE_GRANT *)
| MMsg (t : tag)                    (* a forwarded tagged message *)
| MAbsent (t : tag).                (* a forwarded port-absent message *)

(** rti_common.h:40-75 [scheduling_node_t] and rti_remote.h [federate_info_t]: the fields used for tag advance. *)
Record rnode := mkNode {
  r_connected : bool;                              (* state != NOT_CONNECTED *)
  r_completed : tag;
  r_granted : tag;                                 (* last_granted *)
  r_ptag : tag;                                    (* last_provisionally_granted *)
  r_next : tag;                                    (* next_event *)
  r_transit : list tag;                            (* in_transit_message_tags *)
  r_delays : option (list (nat * tag) * bool);     (* min_delays and the flag IS_IN_ZERO_DELAY_CYCLE, once computed *)
  r_sent : list rmsg }.                            (* the log, oldest first *)
Definition rti := nat -> rnode.

Definition set_connected b n := mkNode b (r_completed n) (r_granted n) (r_ptag n) (r_next n) (r_transit n) (r_delays n) (r_sent n).
Definition set_completed t n := mkNode (r_connected n) t (r_granted n) (r_ptag n) (r_next n) (r_transit n) (r_delays n) (r_sent n).
Definition set_granted t n := mkNode (r_connected n) (r_completed n) t (r_ptag n) (r_next n) (r_transit n) (r_delays n) (r_sent n).
Definition set_ptag t n := mkNode (r_connected n) (r_completed n) (r_granted n) t (r_next n) (r_transit n) (r_delays n) (r_sent n).
Definition set_next t n := mkNode (r_connected n) (r_completed n) (r_granted n) (r_ptag n) t (r_transit n) (r_delays n) (r_sent n).
Definition set_transit l n := mkNode (r_connected n) (r_completed n) (r_granted n) (r_ptag n) (r_next n) l (r_delays n) (r_sent n).
Definition set_delays c n := mkNode (r_connected n) (r_completed n) (r_granted n) (r_ptag n) (r_next n) (r_transit n) c (r_sent n).
Definition add_sent m n := mkNode (r_connected n) (r_completed n) (r_granted n) (r_ptag n) (r_next n) (r_transit n) (r_delays n) (r_sent n ++ [m]).
Definition on (s : rti) (i : nat) (f : rnode -> rnode) : rti := upd s i (f (s i)).

(** rti_common.c:44-58 [initialize_scheduling_node], after the federate has connected. *)
Definition init_node : rnode := mkNode true NEVER_TAG NEVER_TAG NEVER_TAG NEVER_TAG [] None [].
Definition init_rti : rti := fun _ => init_node.

(** lib/pqueue_tag.c:129-135, 119-125, 153-159 on the contents of the queue. *)
Definition min_tag (a b : tag) : tag := if tag_compare a b <? 0 then a else b.
Definition transit_peek (l : list tag) : tag := fold_right min_tag FOREVER_TAG l.
Definition tag_eqb (a b : tag) : bool := tag_compare a b =? 0.
Definition transit_insert (t : tag) (l : list tag) : list tag := if existsb (tag_eqb t) l then l else t :: l.
Definition transit_remove (t : tag) (l : list tag) : list tag := filter (fun x => (0 <? tag_compare x t) || tag_eqb x FOREVER_TAG) l.

Section Rti.
Variable tp : topo.
Variable start : Z.                 (* start_time *)
Variable ok : nat -> bool.          (* writing a grant to this federate's socket succeeds *)

(** rti_common.c:342-378 [update_min_delays_upstream] with its cache.  The error exit is never taken (C39_table). *)
Definition node_delays (s : rti) (e : nat) : rti * (list (nat * tag) * bool) :=
  match r_delays (s e) with
  | Some c => (s, c)
  | None =>
    let c := match compute_delays tp (fun i => r_connected (s i)) e with Delays table zdc _ => (table, zdc) | _ => ([], false) end in
    (on s e (set_delays (Some c)), c)
  end.

(** rti_common.c:99-102, 132-135: a node that has not been heard from. *)
Definition assume_start (s : rti) (k : nat) : rti :=
  if tag_compare (r_next (s k)) NEVER_TAG =? 0 then on s k (set_next (mkTag start 0)) else s.

(** rti_common.c:84-120 [earliest_future_incoming_message_tag] *)
Fixpoint eimt_loop (l : list (nat * tag)) (s : rti) (t_d : tag) : rti * tag :=
  match l with
  | [] => (s, t_d)
  | (k, delay) :: l =>
    let s := assume_start s k in
    let x := tag_add (r_next (s k)) delay in
    eimt_loop l s (if tag_compare x t_d <? 0 then x else t_d)
  end.
Definition eimt (s : rti) (e : nat) : rti * tag :=
  let (s, c) := node_delays s e in eimt_loop (fst c) s FOREVER_TAG.

(** rti_common.c:122-153 [eimt_strict] *)
Fixpoint strict_loop (l : list (nat * Z)) (s : rti) (t_d : tag) : rti * tag :=
  match l with
  | [] => (s, t_d)
  | (k, d) :: l =>
    let (s, c) := node_delays s k in
    if snd c then strict_loop l s t_d
    else
      let s := assume_start s k in
      let (s, earliest) := eimt s k in
      let earliest := if tag_compare (r_next (s k)) earliest <? 0 then r_next (s k) else earliest in
      let x := delay_tag earliest d in
      strict_loop l s (if tag_compare x t_d <? 0 then x else t_d)
  end.
Definition eimt_strict (s : rti) (e : nat) : rti * tag := strict_loop (tp_up tp e) s FOREVER_TAG.

(** rti_common.c:159-176: the earliest upstream LTC, adjusted by the delay of the connection. *)
Fixpoint min_completed (s : rti) (l : list (nat * Z)) (m : tag) : tag :=
  match l with
  | [] => m
  | (k, d) :: l =>
    if r_connected (s k)
    then let c := delay_strict (r_completed (s k)) d in min_completed s l (if tag_compare c m <? 0 then c else m)
    else min_completed s l m
  end.

(** rti_common.c:155-238 [tag_advance_grant_if_safe]; [None] stands for the result NEVER_TAG. *)
Definition grant_if_safe (s : rti) (e : nat) : rti * option (tag * bool) :=
  let m := min_completed s (tp_up tp e) FOREVER_TAG in
  if (0 <? tag_compare m (r_granted (s e))) && (0 <=? tag_compare m (r_next (s e))) then (s, Some (m, false))
  else
    let (s, t_d) := eimt s e in
    let (s, t_s) := eimt_strict s e in
    let n := s e in
    if (0 <? tag_compare t_d (r_next n)) && (0 <? tag_compare (r_next n) NEVER_TAG)
       && (0 <=? tag_compare t_d (r_ptag n)) && (0 <? tag_compare t_d (r_granted n))
    then (s, Some (r_next n, false))
    else if tag_compare t_d (r_next n) =? 0 then
      let (s, c) := node_delays s e in
      if snd c && (0 <? tag_compare t_s (r_next n)) && (0 <? tag_compare t_d (r_ptag n)) && (0 <? tag_compare t_d (r_granted n))
      then (s, Some (r_next n, true)) else (s, None)
    else (s, None).

(** rti_remote.c:181-212 [notify_tag_advance_grant] *)
Definition notify_tag (s : rti) (e : nat) (t : tag) : rti :=
  let n := s e in
  if negb (r_connected n) || (tag_compare t (r_granted n) <=? 0) || (tag_compare t (r_ptag n) <? 0) then s
  else if ok e then on s e (fun n => set_granted t (add_sent (MTag t) n))
  else on s e (set_connected false).

(** rti_remote.c:214-273 [notify_provisional_tag_advance_grant].  [fuel] bounds the depth of the recursion to upstream
    nodes; each level raises the provisional grant of a further node to [t], so the number of nodes suffices. *)
Fixpoint notify_ptag (fuel : nat) (s : rti) (e : nat) (t : tag) : rti :=
  match fuel with
  | O => s
  | S fuel =>
    let n := s e in
    if negb (r_connected n) || (tag_compare t (r_granted n) <=? 0) || (tag_compare t (r_ptag n) <=? 0) then s
    else if ok e then
      fold_left (fun s (u : nat * Z) =>
        let k := fst u in
        if r_connected (s k) then
          let (s, earliest) := eimt s k in
          let (s, strict) := eimt_strict s k in
          if 0 <? tag_compare earliest t then notify_tag s k t
          else if (tag_compare earliest t =? 0) && (0 <? tag_compare strict t) then notify_ptag fuel s k t
          else s
        else s) (tp_up tp e) (on s e (fun n => set_ptag t (add_sent (MPtag t) n)))
    else on s e (set_connected false)
  end.

(** rti_common.c:274-283 [notify_advance_grant_if_safe] *)
Definition notify_if_safe (s : rti) (e : nat) : rti :=
  let (s, g) := grant_if_safe s e in
  match g with
  | Some (t, provisional) =>
    if tag_compare t NEVER_TAG =? 0 then s
    else if provisional then notify_ptag (S (tp_n tp)) s e t else notify_tag s e t
  | None => s
  end.

(** rti_common.c:240-249 [notify_downstream_advance_grant_if_safe]; every level marks a further node as visited, so
    the number of nodes suffices for [fuel]. *)
Fixpoint notify_down (fuel : nat) (sv : rti * (nat -> bool)) (e : nat) : rti * (nat -> bool) :=
  match fuel with
  | O => sv
  | S fuel =>
    fold_left (fun (sv : rti * (nat -> bool)) j =>
      if snd sv j then sv else notify_down fuel (notify_if_safe (fst sv) j, snd sv) j)
      (tp_down tp e) (fst sv, upd (snd sv) e true)
  end.
Definition notify_downstream (s : rti) (e : nat) : rti := fst (notify_down (S (tp_n tp)) (s, fun _ => false) e).

(** rti_common.c:251-272 [update_scheduling_node_next_event_tag_locked] *)
Definition update_next (s : rti) (e : nat) (t : tag) : rti :=
  let s := on s e (set_next t) in
  let s := match tp_up tp e with [] => on s e (set_granted t) | _ => notify_if_safe s e end in
  notify_downstream s e.

(** rti_remote.c:275-282 [update_federate_next_event_tag_locked] *)
Definition update_fed_next (s : rti) (e : nat) (t : tag) : rti :=
  let m := transit_peek (r_transit (s e)) in
  update_next s e (if tag_compare m t <? 0 then m else t).

(** rti_common.c:60-82 [_logical_tag_complete] *)
Definition tag_complete (s : rti) (e : nat) (t : tag) : rti :=
  fold_left (fun s j => notify_downstream (notify_if_safe s j) j) (tp_down tp e) (on s e (set_completed t)).

(** What the threads of the coordinator do; the mutex makes each of these atomic.  The confirmation of a tag takes two
    critical sections (rti_remote.c:489-495). *)
Inductive rop :=
| RNet (i : nat) (t : tag)           (* rti_remote.c:498-517 *)
| RLtc (i : nat) (t : tag)           (* rti_remote.c:480-489 *)
| RRemove (i : nat) (t : tag)        (* rti_remote.c:491-495 *)
| RMsg (i j : nat) (t : tag)         (* rti_remote.c:342-478: from [i] to [j] *)
| RAbsent (i j : nat) (t : tag)      (* rti_remote.c:284-340 *)
| RResign (i : nat).                 (* rti_remote.c:983-1017, 1031-1070 *)

(** rti_remote.c:411-477, after the payload has been read: the destination, the log entry, the in-transit
    record, the next event.  A failed write ends the program (write_to_socket_fail_on_error with a
    message): [None]. *)
Definition forward (s : rti) (j : nat) (t : tag) : option rti :=
  if negb (r_connected (s j)) then Some s
  else if negb (ok j) then None
  else
    let s := on s j (add_sent (MMsg t)) in
    let s := if tag_compare (r_completed (s j)) t <? 0 then on s j (fun n => set_transit (transit_insert t (r_transit n)) n) else s in
    Some (if tag_compare t (r_next (s j)) <? 0 then update_fed_next s j t else s).

(** The thread of federate [i] (rti_remote.c:1072-1146) handles messages while [i] is connected. *)
Definition rti_step (s : rti) (o : rop) : option rti :=
  match o with
  | RNet i t => Some (if r_connected (s i) then update_fed_next s i t else s)
  | RLtc i t => Some (if r_connected (s i) then tag_complete s i t else s)
  | RRemove i t => Some (on s i (fun n => set_transit (transit_remove t (r_transit n)) n))
  | RMsg i j t => if r_connected (s i) then forward s j t else Some s
  | RAbsent i j t => if r_connected (s i) && r_connected (s j) then (if ok j then Some (on s j (add_sent (MAbsent t))) else None) else Some s
  | RResign i => Some (if r_connected (s i) then notify_downstream (on s i (fun n => set_next FOREVER_TAG (set_connected false n))) i else s)
  end.
End Rti.

(** A history: each operation with the sockets that accept writes during it. *)
Fixpoint rti_run (tp : topo) (start : Z) (s : rti) (l : list (rop * (nat -> bool))) : option rti :=
  match l with
  | [] => Some s
  | (o, ok) :: l => match rti_step tp start ok s o with Some s => rti_run tp start s l | None => None end
  end.
