(** Model of how a federate with physical actions promises tags to the coordinator
    (core/federated/federate.c:1615-1660, 2374-2505, lib/schedule.c:140-215,
    core/threaded/reactor_threaded.c:310-466).

    The federate has downstream federates and physical actions that lead to outputs.
    Simplifications: one environment; a shutdown is an event like any other; microsteps do not
    wrap around and the sums of times and delays of actions do not overflow.  An event has a slack: a lower bound of the logical delays that still lie
    between it and an output.  The code generator computes the minimum of delay plus slack over
    all physical actions (min_delay_from_physical_action_to_federate_output). *)
From Verif Require Import Base Tag.

Record event := mkEvent { e_tag : tag; e_slack : Z; e_local : bool }.   (* e_local: it does not go back to a message *)
Inductive phase :=
| Asking                       (* in the loop of lf_send_next_event_tag *)
| Ready (t : tag)              (* a NET with [t] was sent; waiting for a grant or for physical time *)
| Working (l : list event)     (* the reactions to [l] are executing *)
| Backwards                    (* ended with an error: the next tag is not after the current one *)
| Undefined.                   (* signed overflow *)
Inductive sent := SNet (t : tag) | SOut (t : tag) (local : bool).
Record fed := mkFed { f_now : Z; f_current : tag; f_queue : list event; f_phase : phase; f_log : list sent }.   (* the log: last first *)
(** c_min: see above; c_interval: ADVANCE_MESSAGE_INTERVAL (federate.h:22-24); c_fast: option -fast *)
Record config := mkConfig { c_min : Z; c_interval : Z; c_fast : bool }.

Inductive op :=
| Tick (d : Z)                  (* physical time passes *)
| Action (d o : Z) (m : nat)    (* a physical action, delay [d], slack [o], piled up [m] times *)
| Message (t : tag)             (* a message from an upstream federate *)
| Pass                          (* one pass of the loop *)
| Renew                         (* a wake-up while waiting for a grant *)
| Advance                       (* granted, and physical time has come *)
| Out (k : nat)                 (* the reactions to the [k]th event write an output *)
| Plan (k : nat) (d o : Z) (m : nat)   (* they schedule an event *)
| Done.

(** reactor_threaded.c get_next_event_tag (without the stop tag) *)
Definition next_tag (q : list event) : tag := fold_right (fun e t => if tag_compare (e_tag e) t <? 0 then e_tag e else t) FOREVER_TAG q.
Definition has_tag (t : tag) (e : event) : bool := tag_compare (e_tag e) t =? 0.

(** federate.c:1627-1660; the inner None: the tag is left as it is *)
Definition bounded_NET (c : config) (now : Z) (t : tag) : res (option tag) :=
  do! b <- c_add64 now (c_min c);
  if b <? ttime t then Ok (Some (mkTag (b - 1) 0)) else Ok None.
(** lib/schedule.c:195-215: events of one action pile up at successive microsteps *)
Definition piled (q : list event) (t : tag) (m : nat) : option tag :=
  match m with
  | O => Some t
  | S m' => if existsb (has_tag (mkTag (ttime t) (tmicro t + Z.of_nat m'))) q then Some (mkTag (ttime t) (tmicro t + Z.of_nat m)) else None
  end.
Definition set_phase (p : phase) (s : fed) : fed := mkFed (f_now s) (f_current s) (f_queue s) p (f_log s).
Definition put (e : event) (s : fed) : fed := mkFed (f_now s) (f_current s) (e :: f_queue s) (f_phase s) (f_log s).
Definition say (x : sent) (s : fed) : fed := mkFed (f_now s) (f_current s) (f_queue s) (f_phase s) (x :: f_log s).

(** federate.c:2395-2505: one pass of the loop, up to its wait *)
Definition pass (c : config) (s : fed) : fed :=
  let t := next_tag (f_queue s) in
  match bounded_NET c (f_now s) t with
  | UB => set_phase Undefined s
  | Ok None => set_phase (Ready t) (say (SNet t) s)                                   (* federate.c:2418-2440 *)
  | Ok (Some b) =>                                                                     (* federate.c:2465-2474 *)
    match c_add64 (ttime b) (c_interval c) with
    | UB => set_phase Undefined s
    | Ok x => put (mkEvent (mkTag x (tmicro b)) 0 true) s
    end
  end.
(** None: it does not happen in this state. *)
Definition step (c : config) (s : fed) (o : op) : option fed :=
  match o, f_phase s with
  | _, Backwards | _, Undefined => None
  | Tick d, _ => if 0 <=? d then Some (mkFed (f_now s + d) (f_current s) (f_queue s) (f_phase s) (f_log s)) else None   (* clock.c:22-44 *)
  | Action d o m, _ =>          (* lib/schedule.c:146-175 *)
    if (0 <=? d) && (0 <=? o) && (c_min c <=? d + o) then
      match piled (f_queue s) (mkTag (f_now s + d) 0) m with Some t => Some (put (mkEvent t o true) s) | None => None end
    else None
  | Message t, _ => Some (put (mkEvent t 0 false) s)
  | Pass, Asking => Some (pass c s)
  | Renew, Ready t =>           (* federate.c:2444-2461 *)
    let t' := next_tag (f_queue s) in
    if tag_compare t' t =? 0 then Some s else Some (say (SNet t') s)
  | Advance, Ready _ =>         (* reactor_threaded.c:381-466, reactor_common.c:664-671 *)
    let t := next_tag (f_queue s) in
    if c_fast c || (ttime t <=? f_now s) then
      if tag_compare (f_current s) t <? 0 then
        Some (mkFed (f_now s) t (filter (fun e => negb (has_tag t e)) (f_queue s)) (Working (filter (has_tag t) (f_queue s))) (f_log s))
      else Some (set_phase Backwards s)
    else None
  | Out k, Working l => match nth_error l k with Some e => if e_slack e <=? 0 then Some (say (SOut (f_current s) (e_local e)) s) else None | None => None end
  | Plan k d o m, Working l =>  (* lib/schedule.c:146-152 *)
    match nth_error l k with
    | Some e =>
      if (0 <=? d) && (0 <=? o) && (e_slack e <=? d + o) then
        match piled (f_queue s) (if d =? 0 then mkTag (ttime (f_current s)) (tmicro (f_current s) + 1) else mkTag (ttime (f_current s) + d) 0) m with
        | Some t => Some (put (mkEvent t o (e_local e)) s)
        | None => None
        end
      else None
    | None => None
    end
  | Done, Working _ => Some (set_phase Asking s)
  | _, _ => None
  end.
Fixpoint run (c : config) (s : fed) (l : list op) : fed :=
  match l with [] => s | o :: l => match step c s o with Some s => run c s l | None => run c s l end end.
Definition init (now : Z) (current : tag) (q : list event) : fed := mkFed now current q Asking [].
