(** Model of the deadline scheduler, core/threaded/scheduler_GEDF_NP.c, without the
    additions for federated and modal programs.

    Everything is done under the mutex of the environment, except for the execution
    of reactions and the waiting of [lf_cond_wait], which releases the mutex; so
    does the waiting for time while the tag is advanced.  The queue is an arbitrary
    order of the queued reactions from which a least one is picked: that is what
    the priority queue is proved to do (properties C07 to C09).  A worker that waits
    for the condition variable may wake up at any time, which covers the signals
    on lines 186 and 259 as well as wake-ups without a signal. *)
From Verif Require Import Base SchedSpec.
Open Scope nat_scope.

(** Where a worker is in lf_sched_get_ready_reaction, lines 157-227. *)
Inductive pc :=
| Entering                   (* line 160: waits for the mutex *)
| Looping                    (* holds the mutex; top of the loop, line 164 *)
| Waiting                    (* line 61: blocked in lf_cond_wait *)
| Woken                      (* line 61: woken up, waits for the mutex *)
| Advancing                  (* line 75: in _lf_sched_advance_tag_locked *)
| Running (r : reaction)     (* line 189 returned r; the worker executes it *)
| Ended.                     (* line 226 returned NULL *)

Record sched := mkSched {
  queue : list reaction;               (* reaction_q *)
  current : nat;                       (* current_level *)
  idle : nat;                          (* number_of_idle_workers *)
  holder : option nat;                 (* the worker that holds the mutex *)
  queued : reaction -> bool;           (* reaction->status: queued, or else inactive *)
  should_stop : bool;
  pcs : nat -> pc }.

Section Model.
Variable n : nat.                      (* number_of_workers *)
Variable top : nat.                    (* max_reaction_level *)
Variable prio : reaction -> Z.         (* reaction->index: the deadline, then the level *)
Variable lvl : reaction -> nat.        (* LF_LEVEL(reaction->index) *)

Definition set_pc (s : sched) (w : nat) (p : pc) (h : option nat) : sched :=
  mkSched (queue s) (current s) (idle s) h (queued s) (should_stop s) (set_nat (pcs s) w p).

(** Lines 236-264 *)
Definition trigger (s : sched) (r : reaction) : sched :=
  if queued s r then s
  else mkSched (r :: queue s) (current s) (idle s) (holder s) (set_nat (queued s) r true) (should_stop s) (pcs s).

(** Lines 120-144 and reactor_threaded.c:1072-1103 *)
Definition empty : sched := mkSched [] 0 0 None (fun _ => false) false (fun _ => Entering).
Definition init (rs : list reaction) : sched := fold_left trigger rs empty.

Inductive op :=
| Lock (w : nat)                                   (* w gets the mutex *)
| Wake (w : nat)                                   (* w is woken up *)
| Loop (w : nat) (r : reaction)                    (* an iteration; r is what pqueue_peek returns *)
| Triggers (w : nat) (r : reaction)                (* the reaction that w executes triggers r *)
| Ends (w : nat)                                   (* the reaction that w executes ends *)
| Tag (w : nat) (stop : bool) (rs : list reaction). (* the tag is advanced *)

Inductive outcome :=
| Next (s : sched) (es : list event)
| ErrorExit
| Blocked.

(** Lines 58-64, first half *)
Definition wait (s : sched) (w : nat) : sched :=
  mkSched (queue s) (current s) (S (idle s)) None (queued s) (should_stop s) (set_nat (pcs s) w Waiting).

Definition least (r : reaction) (q : list reaction) : bool := existsb (Nat.eqb r) q && forallb (fun x => (prio r <=? prio x)%Z) q.

Definition step (s : sched) (o : op) : outcome :=
  match o with
  | Lock w =>
      if negb (w <? n) then Blocked else
      match pcs s w, holder s with
      | Entering, None => Next (set_pc s w Looping (Some w)) []
      | Woken, None =>
          (* line 63 *)
          Next (mkSched (queue s) (current s) (idle s - 1) (Some w) (queued s) (should_stop s) (set_nat (pcs s) w Looping)) []
      | _, _ => Blocked
      end
  | Wake w => match pcs s w with Waiting => Next (set_pc s w Woken (holder s)) [] | _ => Blocked end
  | Loop w r =>
      match pcs s w with
      | Looping =>
          if should_stop s then Next (set_pc s w Ended None) []
          else
            match queue s with
            | [] =>
                if idle s =? n - 1 then Next (set_pc s w Advancing None) [] else Next (wait s w) []
            | _ =>
                if negb (least r (queue s)) then Blocked
                else if lvl r =? current s then
                  match remove_one r (queue s) with
                  | Some q => Next (mkSched q (current s) (idle s) None (queued s) (should_stop s) (set_nat (pcs s) w (Running r))) [Take w r]
                  | None => Blocked
                  end
                else if idle s =? n - 1 then
                  (* lines 97-108 *)
                  Next (mkSched (queue s) (if top <? S (current s) then 0 else S (current s)) (idle s) (holder s)
                          (queued s) (should_stop s) (pcs s)) []
                else Next (wait s w) []
            end
      | _ => Blocked
      end
  | Triggers w r =>
      match pcs s w, holder s with
      | Running _, None => Next (trigger s r) [Trigger w r]
      | _, _ => Blocked
      end
  | Ends w =>
      match pcs s w with
      | Running r =>
          if queued s r then
            Next (mkSched (queue s) (current s) (idle s) (holder s) (set_nat (queued s) r false) (should_stop s)
                    (set_nat (pcs s) w Entering)) [Done w]
          else ErrorExit
      | _ => Blocked
      end
  | Tag w stop rs =>
      match pcs s w, holder s with
      | Advancing, None =>
          if stop then
            (* lines 76-81, 211-213 and 225 *)
            Next (mkSched (queue s) (current s) (idle s) None (queued s) true
                    (set_nat (fun v => match pcs s v with Waiting => Woken | p => p end) w Ended)) []
          else
            (* the reactions are triggered while solo_holds_mutex is set *)
            let s := fold_left trigger rs s in
            Next (mkSched (queue s) 0 (idle s) (Some w) (queued s) (should_stop s) (set_nat (pcs s) w Looping)) [NextTag rs]
      | _, _ => Blocked
      end
  end.

(** [may q r]: the program lets the reaction q trigger the reaction r. *)
Definition allowed (may : reaction -> reaction -> Prop) (s : sched) (o : op) : Prop :=
  match o with
  | Triggers w r => match pcs s w with Running q => may q r | _ => True end
  | Tag _ _ rs => forall r, In r rs -> lvl r <= top
  | _ => True
  end.
Inductive exec (may : reaction -> reaction -> Prop) (s0 : sched) : sched -> list event -> Prop :=
| exec_start : exec may s0 s0 []
| exec_step s es o s' es' : exec may s0 s es -> allowed may s o -> step s o = Next s' es' -> exec may s0 s' (es ++ es').
End Model.
