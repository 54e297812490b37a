(** Model of the non-preemptive scheduler, core/threaded/scheduler_NP.c, without
    the additions for federated programs (#ifdef FEDERATED).

    Worker threads are interleaved step by step; a step is one access to shared
    data.  Two simplifications are made.  The counter of a level and the slot that
    it reserves are accessed in one step (lines 80-85 and 328-335): the slot
    belongs to the thread that moved the counter and the array of the level is not
    read by others before all workers are idle.  The semaphore is the counter that
    it is proved to be elsewhere (property C17). *)
From Verif Require Import Base SchedSpec.
Open Scope nat_scope.

(** Where a worker is in lf_sched_get_ready_reaction, lines 314-352. *)
Inductive pc :=
| Get                        (* top of the loop, line 316 *)
| Running (r : reaction)     (* line 342 returned r; the worker executes it *)
| Idling                     (* line 206: about to become idle *)
| Acquiring                  (* line 214: at the semaphore *)
| Advancing                  (* line 211: in the loop of lines 170-190 *)
| Ended.                     (* line 351 returned NULL *)

Record sched := mkSched {
  index : nat -> Z;                    (* scheduler->indexes *)
  slot : nat -> nat -> option reaction;(* triggered_reactions; None is NULL *)
  next : nat;                          (* next_reaction_level *)
  executing : nat;                     (* the level whose array executing_reactions is *)
  idle : nat;                          (* number_of_idle_workers *)
  permits : nat;                       (* count of the semaphore *)
  queued : reaction -> bool;           (* reaction->status: queued, or else inactive *)
  should_stop : bool;
  pcs : nat -> pc }.

Section Model.
Variable n : nat.                      (* number_of_workers *)
Variable top : nat.                    (* max_reaction_level *)
Variable lvl : reaction -> nat.        (* LF_LEVEL(reaction->index) *)
Variable size : nat -> nat.            (* num_reactions_per_level *)

Definition set_pc (s : sched) (w : nat) (p : pc) : sched :=
  mkSched (index s) (slot s) (next s) (executing s) (idle s) (permits s) (queued s) (should_stop s) (set_nat (pcs s) w p).

(** Lines 53-91 and 388-396: [None] is an access outside of the array of the level
    (or the failing assertion of line 81). *)
Definition trigger (s : sched) (r : reaction) : option sched :=
  if queued s r then Some s
  else
    let l := lvl r in
    let i := index s l in
    if (0 <=? i)%Z && (Z.to_nat i <? size l) && (l <=? top) then
      Some (mkSched (set_nat (index s) l (i + 1)%Z)
              (set_nat (slot s) l (set_nat (slot s l) (Z.to_nat i) (Some r)))
              (next s) (executing s) (idle s) (permits s) (set_nat (queued s) r true) (should_stop s) (pcs s))
    else None.
Fixpoint trigger_all (s : sched) (rs : list reaction) : option sched :=
  match rs with
  | [] => Some s
  | r :: rs => match trigger s r with Some s => trigger_all s rs | None => None end
  end.
(** Lines 233-283; the workers start after the reactions of the start tag have
    been triggered (reactor_threaded.c:1072-1103). *)
Definition empty : sched :=
  mkSched (fun _ => 0%Z) (fun _ _ => None) 1 0 0 0 (fun _ => false) false (fun _ => Get).
Definition init (rs : list reaction) : option sched := trigger_all empty rs.

(** What the environment decides: which worker moves, which reaction a running
    reaction triggers (or that it ends), and what the next tag brings. *)
Inductive op :=
| Step (w : nat)                                   (* a step inside the scheduler *)
| Triggers (w : nat) (r : reaction)                (* the reaction that w executes triggers r *)
| Ends (w : nat)                                   (* the reaction that w executes ends *)
| Tag (w : nat) (stop : bool) (rs : list reaction). (* w advances the tag: line 178 *)

Inductive outcome :=
| Next (s : sched) (es : list event)
| OutOfBounds
| ErrorExit                                        (* lf_print_error_and_exit *)
| Blocked.                                         (* the worker cannot do this now *)

(** Lines 128-145 *)
Definition notify (s : sched) : sched :=
  let k := Nat.min (idle s) (Z.to_nat (index s (next s - 1))) in
  mkSched (index s) (slot s) (next s) (executing s) (idle s - k) (permits s + (k - 1))
    (queued s) (should_stop s) (pcs s).

Definition step (s : sched) (o : op) : outcome :=
  match o with
  | Step w =>
      if negb (w <? n) then Blocked else
      match pcs s w with
      | Get =>
          (* lines 316-343 *)
          if should_stop s then Next (set_pc s w Ended) []
          else if next s =? 0 then OutOfBounds           (* current_level wraps around *)
          else
            let l := next s - 1 in
            let i := (index s l - 1)%Z in
            let s := mkSched (set_nat (index s) l i) (slot s) (next s) (executing s) (idle s) (permits s)
                       (queued s) (should_stop s) (pcs s) in
            if (i <? 0)%Z then Next (set_pc s w Idling) []
            else if negb (Z.to_nat i <? size (executing s)) then OutOfBounds
            else
              match slot s (executing s) (Z.to_nat i) with
              | None => Next (set_pc s w Idling) []
              | Some r =>
                  Next (mkSched (index s) (set_nat (slot s) (executing s) (set_nat (slot s (executing s)) (Z.to_nat i) None))
                          (next s) (executing s) (idle s) (permits s) (queued s) (should_stop s)
                          (set_nat (pcs s) w (Running r))) [Take w r]
              end
      | Idling =>
          (* lines 206-216; the last worker also resets the index, line 167 *)
          let s' := mkSched (index s) (slot s) (next s) (executing s) (S (idle s)) (permits s) (queued s) (should_stop s) (pcs s) in
          if S (idle s) =? n then
            if next s =? 0 then OutOfBounds
            else
              Next (mkSched (set_nat (index s) (next s - 1) 0%Z) (slot s) (next s) (executing s) (S (idle s)) (permits s)
                      (queued s) (should_stop s) (set_nat (pcs s) w Advancing)) []
          else Next (set_pc s' w Acquiring) []
      | Acquiring =>
          match permits s with
          | 0 => Blocked
          | S k => Next (mkSched (index s) (slot s) (next s) (executing s) (idle s) k (queued s) (should_stop s)
                           (set_nat (pcs s) w Get)) []
          end
      | Advancing =>
          (* one iteration of lines 103-118, followed by line 187 *)
          if next s =? S top then Blocked
          else
            let l := next s in
            let s' := mkSched (index s) (slot s) (S l) l (idle s) (permits s) (queued s) (should_stop s) (pcs s) in
            let es := if l =? 0 then [] else [NextLevel] in
            if negb (0 <? size l) then OutOfBounds       (* executing_reactions[0], line 114 *)
            else
              match slot s' l 0 with
              | None => Next s' es
              | Some _ => Next (set_pc (notify s') w Get) es
              end
      | Running _ | Ended => Blocked
      end
  | Triggers w r =>
      match pcs s w with
      | Running _ =>
          match trigger s r with
          | None => OutOfBounds
          | Some s' => Next s' [Trigger w r]
          end
      | _ => Blocked
      end
  | Ends w =>
      (* lines 362-367 *)
      match pcs s w with
      | Running r =>
          if queued s r then
            Next (mkSched (index s) (slot s) (next s) (executing s) (idle s) (permits s)
                    (set_nat (queued s) r false) (should_stop s) (set_nat (pcs s) w Get)) [Done w]
          else ErrorExit
      | _ => Blocked
      end
  | Tag w stop rs =>
      (* lines 171-185; lines 151-154 *)
      match pcs s w with
      | Advancing =>
          if next s =? S top then
            if stop then
              Next (mkSched (index s) (slot s) 0 (executing s) (idle s) (permits s + (n - 1)) (queued s) true
                      (set_nat (pcs s) w Get)) []
            else
              match trigger_all (mkSched (index s) (slot s) 0 (executing s) (idle s) (permits s) (queued s)
                                   (should_stop s) (pcs s)) rs with
              | None => OutOfBounds
              | Some s' => Next s' [NextTag rs]
              end
          else Blocked
      | _ => Blocked
      end
  end.

(** A running reaction triggers reactions of the program, of a higher level than
    its own; the next tag triggers reactions of the program.  [rs] are the
    reactions of the program. *)
Definition allowed (rs : list reaction) (s : sched) (o : op) : Prop :=
  match o with
  | Triggers w r => match pcs s w with Running q => lvl q < lvl r /\ In r rs | _ => True end
  | Tag _ _ ts => incl ts rs
  | _ => True
  end.

(** The executions from [s0]: the state reached and the events so far. *)
Inductive exec (rs : list reaction) (s0 : sched) : sched -> list event -> Prop :=
| exec_start : exec rs s0 s0 []
| exec_step s es o s' es' : exec rs s0 s es -> allowed rs s o -> step s o = Next s' es' -> exec rs s0 s' (es ++ es').
End Model.
