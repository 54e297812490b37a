(** Model of stopping a federation: the coordinator (RTI), rti_remote.c:525-712, and the
    federates, reactor_threaded.c:474-530 and federate.c:1362-1492, 2562-2594.

    The RTI and each federate are connected by a channel in each direction; of the messages
    only those about stopping and the end of the connection are modelled.  A federate has one
    environment.  Left out: tracing, the thread that ends the RTI with an error if there are
    no answers in time (lines 590-604), the barrier's other users (property C34), the
    adjustment of next_event (lines 551-554), writes that fail. *)
From Verif Require Import Base Tag.

(** microstep + 1, a uint32_t *)
Definition bump (t : tag) : tag := mkTag (ttime t) ((tmicro t + 1) mod two32).

(** ** The coordinator *)
Record rti := mkRti {
  conn : nat -> bool;          (* state is not NOT_CONNECTED *)
  asked : nat -> bool;         (* requested_stop *)
  count : nat;                 (* num_scheduling_nodes_handling_stop *)
  in_progress : bool;          (* stop_in_progress *)
  granted : bool;              (* stop_granted_already_sent_to_federates *)
  max_stop : tag }.            (* max_stop_tag *)

Inductive down := AskStop (t : tag) | Grant (t : tag).
Definition out := (nat * down)%type.

Definition upd {A} (f : nat -> A) (i : nat) (a : A) : nat -> A := fun j => if Nat.eqb j i then a else f j.

Section Rti.
Variable n : nat.              (* number_of_scheduling_nodes *)

(** rti_remote.c:535-564 *)
Definition broadcast (r : rti) : rti * list out :=
  if granted r then (r, [])
  else (mkRti (conn r) (asked r) (count r) (in_progress r) true (max_stop r),
        map (fun j => (j, Grant (max_stop r))) (filter (conn r) (seq 0 n))).

(** Lines 573-585 *)
Definition mark (r : rti) (f : nat) : rti * list out * bool :=
  let r := if asked r f then r else mkRti (conn r) (upd (asked r) f true) (S (count r)) (in_progress r) (granted r) (max_stop r) in
  if Nat.eqb (count r) n then (broadcast r, true) else (r, [], false).

Definition raise (r : rti) (t : tag) : rti :=
  if 0 <? tag_compare t (max_stop r) then mkRti (conn r) (asked r) (count r) (in_progress r) (granted r) t else r.

(** Lines 668-682: the loop over the federates *)
Fixpoint forward (r : rti) (i : nat) (t : tag) (l : list nat) : rti * list out :=
  match l with
  | [] => (r, [])
  | j :: l =>
      let (r, o) := if negb (Nat.eqb j i) && negb (asked r j) then
                      if conn r j then (r, [(j, AskStop t)]) else fst (mark r j)
                    else (r, []) in
      let (r, o') := forward r i t l in (r, o ++ o')
  end.

(** Lines 606-686 *)
Definition on_request (r : rti) (i : nat) (t : tag) : rti * list out :=
  if asked r i then (if in_progress r then fst (mark r i) else (r, []))
  else
    let r := raise r t in
    let '(r, o, sent) := mark r i in
    if sent then (r, o)
    else if in_progress r then (r, o)
    else
      let r := mkRti (conn r) (asked r) (count r) true (granted r) (max_stop r) in
      let (r, o') := forward r i (max_stop r) (seq 0 n) in (r, o ++ o').

(** Lines 688-712 *)
Definition on_reply (r : rti) (i : nat) (t : tag) : rti * list out := fst (mark (raise r t) i).

(** handle_federate_resign, handle_federate_failed, or a closed socket, lines 983-1096 *)
Definition on_bye (r : rti) (i : nat) : rti :=
  mkRti (upd (conn r) i false) (asked r) (count r) (in_progress r) (granted r) (max_stop r).
End Rti.

(** ** The federates *)
(** How far a federate has got with stopping.  lf_stop_requested is true except in [Idle];
    it lets one thread pass: the one that calls lf_request_stop, or the one that has
    received a request from the RTI. *)
Inductive phase :=
| Idle
| Called                  (* lf_request_stop has set lf_stop_requested *)
| Collected (t : tag)     (* ... and raised the barrier; [t] is to be sent *)
| Told (t : tag)          (* a request of the RTI has been received *)
| Answering (t : tag)     (* ... and the barrier has been raised; [t] is to be sent *)
| Waiting (t : tag)       (* [t] has been sent *)
| Stopping (t : tag).     (* a stop has been granted *)

Inductive up := Req (t : tag) | Rep (t : tag) | Bye.

Record fed := mkFed {
  cur : tag;              (* current_tag *)
  stop : tag;             (* stop_tag *)
  horizon : option tag;   (* barrier.horizon, if there are requestors *)
  ph : phase;
  alive : bool;
  ups : list up;          (* sent to the RTI, not yet handled *)
  downs : list down }.    (* sent by the RTI, not yet handled *)

(** reactor_threaded.c:50-90 *)
Definition barrier (f : fed) (t : tag) : tag :=
  let t := if 0 <? tag_compare t (stop f) then stop f else t in
  if 0 <? tag_compare t (cur f) then
    match horizon f with Some h => if tag_compare t h <? 0 then t else h | None => t end
  else bump (cur f).

Record state := mkState { coord : rti; feds : nat -> fed }.

Inductive event :=
| Proposed (i : nat) (t : tag)           (* the RTI has received a request or a reply *)
| AskSent (i : nat) (t : tag)
| GrantSent (i : nat) (t : tag)
| Left (i : nat)                         (* the RTI has learned that the federate has left *)
| Granted (i : nat) (t c : tag).         (* the federate is told the stop tag [t] at its current tag [c] *)

Inductive op :=
| Tick (i : nat) (t : tag)               (* the federate advances to the tag [t] *)
| Call (i : nat)                         (* lf_request_stop, up to line 485 *)
| Collect (i : nat)                      (* lines 487-500 *)
| SendReq (i : nat)                      (* line 506, federate.c:2562-2594 *)
| Listen (i : nat)                       (* the next message of the RTI, federate.c:1364-1404, 1409-1458 *)
| Answer (i : nat)                       (* lines 1460-1476 *)
| SendRep (i : nat)                      (* lines 1477-1492 *)
| Leave (i : nat)
| Handle (i : nat).                      (* the RTI handles the next message of the federate *)

Section Model.
Variable n : nat.

Definition put (s : state) (i : nat) (f : fed) : state := mkState (coord s) (upd (feds s) i f).
(** The RTI's messages are appended to the channels. *)
Definition deliver (o : list out) (j : nat) (f : fed) : fed :=
  mkFed (cur f) (stop f) (horizon f) (ph f) (alive f) (ups f) (downs f ++ map snd (filter (fun x => Nat.eqb (fst x) j) o)).
Definition sent (o : list out) : list event :=
  map (fun x => match snd x with AskStop t => AskSent (fst x) t | Grant t => GrantSent (fst x) t end) o.

(** federate.c:1385-1399: the check against the current tag, lf_set_stop_tag, and the end
    of the barrier *)
Definition accept (f : fed) (t : tag) : fed :=
  let t := if tag_compare t (cur f) <=? 0 then bump (cur f) else t in
  mkFed (cur f) (if tag_compare t (stop f) <? 0 then t else stop f) None (Stopping t) (alive f) (ups f) (downs f).
(** federate.c:1465-1473 *)
Definition offer (f : fed) (t : tag) : tag := if tag_compare t (cur f) <=? 0 then bump (cur f) else t.

Definition handle (s : state) (i : nat) : option (state * list event) :=
  let f := feds s i in
  match ups f with
  | [] => None
  | m :: l =>
      let '(r, o, e) := match m with
                        | Req t => (on_request n (coord s) i t, [Proposed i t])
                        | Rep t => (on_reply n (coord s) i t, [Proposed i t])
                        | Bye => (on_bye (coord s) i, [], [Left i])
                        end in
      let fs := upd (feds s) i (mkFed (cur f) (stop f) (horizon f) (ph f) (alive f) l (downs f)) in
      Some (mkState r (fun j => deliver o j (fs j)), e ++ sent o)
  end.

Definition set_ph (f : fed) (p : phase) : fed := mkFed (cur f) (stop f) (horizon f) p (alive f) (ups f) (downs f).

(** [None]: not possible *)
Definition step (s : state) (o : op) : option (state * list event) :=
  match o with
  | Tick i t =>
      let f := feds s i in
      if alive f && (tag_compare (cur f) t <? 0) && (tag_compare t (stop f) <=? 0) && (match horizon f with Some h => tag_compare t h <? 0 | None => true end) then
        Some (put s i (mkFed t (stop f) (horizon f) (ph f) (alive f) (ups f) (downs f)), [])
      else None
  | Call i => let f := feds s i in
      if alive f then match ph f with Idle => Some (put s i (set_ph f Called), []) | _ => None end else None
  | Collect i => let f := feds s i in
      if alive f then match ph f with
                      | Called => Some (put s i (mkFed (cur f) (stop f) (Some (barrier f (cur f))) (Collected (bump (cur f))) (alive f) (ups f) (downs f)), [])
                      | _ => None end else None
  | SendReq i => let f := feds s i in
      if alive f then match ph f with
                      | Collected t => Some (put s i (mkFed (cur f) (stop f) (horizon f) (Waiting t) (alive f) (ups f ++ [Req t]) (downs f)), [])
                      | _ => None end else None
  | Listen i => let f := feds s i in
      if alive f then match downs f with
                      | [] => None
                      | AskStop t :: l =>
                          Some (put s i (mkFed (cur f) (stop f) (horizon f) (match ph f with Idle => Told t | p => p end) (alive f) (ups f) l), [])
                      | Grant t :: l =>
                          Some (put s i (accept (mkFed (cur f) (stop f) (horizon f) (ph f) (alive f) (ups f) l) t), [Granted i t (cur f)])
                      end else None
  | Answer i => let f := feds s i in
      if alive f then match ph f with
                      | Told t => let t := offer f t in
                                  Some (put s i (mkFed (cur f) (stop f) (Some (barrier f t)) (Answering t) (alive f) (ups f) (downs f)), [])
                      | _ => None end else None
  | SendRep i => let f := feds s i in
      if alive f then match ph f with
                      | Answering t => Some (put s i (mkFed (cur f) (stop f) (horizon f) (Waiting t) (alive f) (ups f ++ [Rep t]) (downs f)), [])
                      | _ => None end else None
  | Leave i => let f := feds s i in
      if alive f then Some (put s i (mkFed (cur f) (stop f) (horizon f) (ph f) false (ups f ++ [Bye]) (downs f)), []) else None
  | Handle i => handle s i
  end.

Definition init_rti : rti := mkRti (fun _ => true) (fun _ => false) 0 false false NEVER_TAG.
(** All federates are connected and at the start tag. *)
Definition init (start : tag) (stops : nat -> tag) : state :=
  mkState init_rti (fun i => mkFed start (stops i) None Idle true [] []).
End Model.

(** ** A federate with several environments *)
(** federate.c:1465-1473: line 1470 takes the current tag of the first environment. *)
Definition offer_all (currents : list tag) (t : tag) : tag :=
  fold_left (fun t c => if tag_compare t c <=? 0 then bump (hd c currents) else t) currents t.
