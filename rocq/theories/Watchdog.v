(** Model of core/threaded/watchdog.c: one watchdog, its thread and the reactions of its
    reactor, which hold the mutex of the reactor while they run.

    The thread is represented from one wait to the next; what it does in between happens
    while it holds the mutex. *)
From Verif Require Import Base Tag.

Inductive pc :=
| Ready                                (* has been created, not yet locked the mutex *)
| CondWait (signalled : bool)          (* line 105, LF_COND_WAIT *)
| TimedWait (d : Z) (signalled : bool) (* line 61, lf_clock_cond_timedwait until [d] *)
| Handler                              (* line 127, the handler runs *)
| Dead.

Record state := mkState {
  expiration : Z;   (* NEVER if the watchdog is stopped *)
  active : bool;
  terminate : bool;
  thr : pc;
  now : Z }.        (* the physical clock *)

Inductive event := Started (e : Z) | Stopped | Fired (e t : Z) | HandlerDone | Terminated.

Inductive op :=
| Tick (t : Z)                  (* physical time passes *)
| Start (cur min extra : Z)     (* lf_watchdog_start in a reaction, at logical time [cur] *)
| Stop                          (* lf_watchdog_stop in a reaction *)
| Terminate                     (* _lf_watchdog_terminate *)
| Thread                        (* the thread starts, or wakes up because of a signal or the timeout *)
| Spurious                      (* the thread wakes up for no reason *)
| HandlerStart (cur min extra : Z)  (* lf_watchdog_start in the handler *)
| HandlerStop
| HandlerEnds.

Inductive outcome := Done (s : state) (es : list event) | Blocked | Ub.

(** LF_COND_SIGNAL *)
Definition signal (p : pc) : pc :=
  match p with CondWait _ => CondWait true | TimedWait d _ => TimedWait d true | _ => p end.

(** Lines 56-69 and 113-128, from the test of the loop on *)
Definition wait (s : state) : state * list event :=
  if negb (expiration s =? NEVER) && (now s <? expiration s) && negb (terminate s) then
    (mkState (expiration s) true (terminate s) (TimedWait (expiration s) false) (now s), [])
  else if terminate s then (mkState (expiration s) false (terminate s) Dead (now s), [])
  else if expiration s =? NEVER then (mkState (expiration s) false (terminate s) (CondWait false) (now s), [])
  else (mkState (expiration s) true (terminate s) Handler (now s), [Fired (expiration s) (now s)]).
(** Lines 98-128, from the test of the loop on *)
Definition loop (s : state) : state * list event :=
  if terminate s then (mkState (expiration s) false (terminate s) Dead (now s), [])
  else if expiration s =? NEVER then (mkState (expiration s) false (terminate s) (CondWait false) (now s), [])
  else wait s.

(** Lines 142-152 *)
Definition start (s : state) (cur min extra : Z) : outcome :=
  if in_int64b (cur + min) && in_int64b (cur + min + extra) then
    let e := cur + min + extra in
    Done (mkState e (active s) false (if active s then thr s else signal (thr s)) (now s)) [Started e]
  else Ub.
(** Lines 154-165 *)
Definition stop (s : state) : outcome :=
  Done (mkState NEVER (active s) (terminate s) (if active s then signal (thr s) else thr s) (now s)) [Stopped].

Definition done (r : state * list event) : outcome := Done (fst r) (snd r).
(** Whether a reaction can have the mutex *)
Definition free (s : state) : bool := match thr s with Handler => false | _ => true end.

Definition step (s : state) (o : op) : outcome :=
  match o with
  | Tick t => Done (mkState (expiration s) (active s) (terminate s) (thr s) (Z.max (now s) t)) []
  | Start c m x => if free s then start s c m x else Blocked
  | Stop => if free s then stop s else Blocked
  | Terminate => if free s then Done (mkState NEVER (active s) true (signal (thr s)) (now s)) [Terminated] else Blocked
  | Thread =>
      match thr s with
      | Ready | CondWait true => done (loop s)
      | TimedWait d b => if b || (d <=? now s) then done (wait s) else Blocked
      | _ => Blocked
      end
  | Spurious =>
      match thr s with
      | CondWait _ => done (loop s)
      | TimedWait _ _ => done (wait s)
      | _ => Blocked
      end
  | HandlerStart c m x => if free s then Blocked else start s c m x
  | HandlerStop => if free s then Blocked else stop s
  | HandlerEnds =>
      if free s then Blocked
      else let r := loop (mkState NEVER (active s) (terminate s) (thr s) (now s)) in
           Done (fst r) (HandlerDone :: snd r)
  end.

(** Lines 28-40; the field [expiration] is initialised to NEVER by generated code. *)
Definition init (t : Z) : state := mkState NEVER false false Ready t.
