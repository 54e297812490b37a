(** Model of the adaptive scheduler, core/threaded/scheduler_adaptive.c, without the
    additions for federated programs.  The numbers of workers per level are an input
    here; how they are chosen is in AdaptiveData.v.

    A step is what a worker does between two accesses to what it shares with other
    workers, or everything it does while no other worker can interfere.  Two
    simplifications:
    - lines 295-297, which increment a counter and then store the reaction, are one
      step: the element is read only when its level is reached, that is when the
      worker that stores it has finished its own level;
    - the mutex is held by a worker that advances the level, also while it waits for
      time: all other workers are asleep then.
    Not modelled: the option "fast", with which the mutex is not acquired by the last
    worker (line 363), and the period of the counters. *)
From Verif Require Import Base SchedSpec.
Open Scope nat_scope.

(** Where a worker is in lf_sched_get_ready_reaction, lines 699-716. *)
Inductive pc :=
| Enter                      (* line 703 *)
| Try (v : nat)              (* line 214: will take from the reactions assigned to v *)
| Reset (v : nat)            (* line 218: found none, will set the counter to 0 *)
| Locking                    (* line 260: waits for the mutex *)
| Finishing                  (* line 707: holds the mutex *)
| Advancing                  (* line 431: top of the loop of advance_level_and_unlock *)
| Asleep (signalled : bool)  (* line 417: waits for its condition variable *)
| Running (r : reaction)     (* line 706 returned r; the worker executes it *)
| Ended.                     (* line 713 returned NULL *)

Record sched := mkSched {
  cnt : nat -> nat -> Z;                     (* num_reactions_by_worker_by_level *)
  arr : nat -> nat -> nat -> reaction;       (* reactions_by_worker_by_level *)
  current : nat;                             (* current_level *)
  nums : nat -> nat;                         (* num_workers_by_level; num_workers is that of the current level *)
  loose : Z;                                 (* num_loose_threads *)
  awakened : nat;                            (* num_awakened *)
  counter : nat;                             (* level_counter *)
  snap : nat -> nat;                         (* level_counter_snapshot of each worker *)
  holder : option nat;                       (* the worker that holds the mutex *)
  queued : reaction -> bool;                 (* reaction->status: queued, or else inactive *)
  should_stop : bool;
  pcs : nat -> pc }.

Section Model.
Variable debug : bool.                 (* whether assert() is compiled *)
Variable n : nat.                      (* max_num_workers *)
Variable top : nat.                    (* num_levels - 1 *)
Variable lvl : reaction -> nat.        (* LF_LEVEL(reaction->index) *)
Variable size : nat -> nat.            (* num_reactions_per_level *)
Variable hash : reaction -> nat.       (* lines 290-293 *)

Inductive outcome :=
| Next (s : sched) (es : list event)
| OutOfBounds
| AssertFails
| Blocked.

Definition set_pc (s : sched) (w : nat) (p : pc) : sched :=
  mkSched (cnt s) (arr s) (current s) (nums s) (loose s) (awakened s) (counter s) (snap s) (holder s) (queued s) (should_stop s) (set_nat (pcs s) w p).
Definition set_holder (s : sched) (h : option nat) : sched :=
  mkSched (cnt s) (arr s) (current s) (nums s) (loose s) (awakened s) (counter s) (snap s) h (queued s) (should_stop s) (pcs s).
Definition set_cnt (s : sched) (v : nat) (z : Z) : sched :=
  mkSched (set_nat (cnt s) (current s) (set_nat (cnt s (current s)) v z)) (arr s) (current s) (nums s) (loose s) (awakened s) (counter s) (snap s) (holder s) (queued s) (should_stop s) (pcs s).
Definition set_loose (s : sched) (z : Z) : sched :=
  mkSched (cnt s) (arr s) (current s) (nums s) z (awakened s) (counter s) (snap s) (holder s) (queued s) (should_stop s) (pcs s).

(** Lines 114-122: the number of binary digits *)
Definition cond_of (worker : nat) : nat := if worker =? 0 then 0 else S (Nat.log2 worker).
(** Lines 309-314 *)
Definition cumsum (cond : nat) : nat := count (fun c => c <=? cond) cond_of n.

(** Lines 276-298 and 724-729: [None] is an access outside of an array, or a failing
    assertion (the array of a level has elements for its maximal number of workers
    only, line 180) *)
Definition trigger (s : sched) (r : reaction) : option sched :=
  if queued s r then Some s
  else
    let l := lvl r in
    let u := hash r mod nums s l in
    let i := cnt s l u in
    if (l <=? top) && ((current s <? l) || (current s =? 0)) && (u <? Nat.min (size l) n) && (0 <=? i)%Z && (Z.to_nat i <? size l) then
      Some (mkSched (set_nat (cnt s) l (set_nat (cnt s l) u (i + 1)%Z))
              (set_nat (arr s) l (set_nat (arr s l) u (set_nat (arr s l u) (Z.to_nat i) r)))
              (current s) (nums s) (loose s) (awakened s) (counter s) (snap s) (holder s) (set_nat (queued s) r true) (should_stop s) (pcs s))
    else None.
Fixpoint trigger_all (s : sched) (rs : list reaction) : option sched :=
  match rs with
  | [] => Some s
  | r :: rs => match trigger s r with Some s => trigger_all s rs | None => None end
  end.

(** Lines 667-691; the workers start after the reactions of the start tag have been
    triggered (reactor_threaded.c:1072-1103). *)
Definition empty : sched :=
  mkSched (fun _ _ => 0%Z) (fun _ _ _ => 0) 0 (fun l => Nat.min (size l) n) (Z.of_nat n) 0 0 (fun _ => 0) None (fun _ => false) false (fun _ => Enter).
Definition init (rs : list reaction) : option sched := trigger_all empty rs.

(** Lines 151-160 *)
Definition total (s : sched) : Z := fold_right Z.add 0%Z (map (cnt s (current s)) (seq 0 (nums s (current s)))).

(** Lines 336-359 *)
Definition awaken (s : sched) (w k : nat) : sched :=
  if (w =? 0) && (k <=? 1) then set_loose s 1
  else
    let c := cond_of (k - 1) in
    let lt := if cumsum c <=? w then S (cumsum c) else cumsum c in
    mkSched (cnt s) (arr s) (current s) (nums s) (Z.of_nat lt) lt (S (counter s)) (snap s) (holder s) (queued s) (should_stop s)
      (fun v => match pcs s v with Asleep b => Asleep (b || (cond_of v <=? c)) | p => p end).

(** Lines 450-457: what follows a change of level *)
Definition go_on (s : sched) (w : nat) : sched :=
  if (total s =? 0)%Z then s
  else
    let k := if (total s <? 0)%Z then nums s (current s) else Nat.min (Z.to_nat (total s)) (nums s (current s)) in
    set_holder (set_pc (awaken s w k) w Enter) None.

Inductive op :=
| Step (w : nat)                                   (* a step inside the scheduler *)
| Triggers (w : nat) (r : reaction)                (* the reaction that w executes triggers r *)
| Ends (w : nat)                                   (* the reaction that w executes ends *)
| Tag (w : nat) (stop : bool) (rs : list reaction) (nums' : nat -> nat)
                                                   (* w ends the tag (lines 432-438), nums' being the new numbers of workers *)
| Spurious (w : nat).                              (* w is woken up without having been signalled *)

Definition step (s : sched) (o : op) : outcome :=
  match o with
  | Step w =>
      if negb (w <? n) then Blocked else
      match pcs s w with
      | Enter =>
          (* lines 703, 243-246 *)
          if debug && (cnt s (current s) w <? 0)%Z then AssertFails
          else Next (mkSched (cnt s) (arr s) (current s) (nums s) (loose s) (awakened s) (counter s) (set_nat (snap s) w (counter s)) (holder s)
                       (queued s) (should_stop s) (set_nat (pcs s) w (Try w))) []
      | Try v =>
          (* lines 214-217 *)
          let i := (cnt s (current s) v - 1)%Z in
          let s := set_cnt s v i in
          if (i <? 0)%Z then Next (set_pc s w (Reset v)) []
          else if negb ((v <? Nat.min (size (current s)) n) && (Z.to_nat i <? size (current s))) then OutOfBounds
          else let r := arr s (current s) v (Z.to_nat i) in Next (set_pc s w (Running r)) [Take w r]
      | Reset v =>
          (* lines 218, 252-258 *)
          let s := set_cnt s v 0 in
          let k := nums s (current s) in
          if (w <? k) && negb ((v + 1) mod k =? w) then Next (set_pc s w (Try ((v + 1) mod k))) []
          else Next (set_pc s w Locking) []
      | Locking =>
          match holder s with
          | Some _ => Blocked
          | None =>
              (* lines 260-264; the assertions of lines 365-366 *)
              if negb ((0 <? loose s)%Z && (loose s <=? Z.of_nat n)%Z) then AssertFails
              else if (cnt s (current s) w =? 0)%Z then Next (set_holder (set_pc s w Finishing) (Some w)) []
              else Next (set_pc s w (Try w)) []
          end
      | Finishing =>
          (* lines 385-395 and 409-424 *)
          if (0 <? cnt s (current s) w)%Z then AssertFails
          else
            let s := set_loose s (loose s - 1) in
            if (loose s =? 0)%Z then Next (set_pc s w Advancing) []
            else if (loose s <? 0)%Z then AssertFails
            else if (snap s w =? counter s) || (awakened s <=? w) then Next (set_holder (set_pc s w (Asleep false)) None) []
            else Next (set_holder (set_pc s w (if should_stop s then Ended else Enter)) None) []
      | Asleep true =>
          (* lines 417-418, and line 712 *)
          match holder s with
          | Some _ => Blocked
          | None =>
              if (snap s w =? counter s) || (awakened s <=? w) then Next (set_pc s w (Asleep false)) []
              else Next (set_pc s w (if should_stop s then Ended else Enter)) []
          end
      | Advancing =>
          (* lines 441-457 *)
          if current s =? top then Blocked
          else if (total s =? 0)%Z then
            let s := mkSched (cnt s) (arr s) (S (current s)) (nums s) (loose s) (awakened s) (counter s) (snap s) (holder s) (queued s) (should_stop s) (pcs s) in
            Next (go_on s w) [NextLevel]
          else Next (go_on s w) []
      | Asleep false | Running _ | Ended => Blocked
      end
  | Triggers w r =>
      match pcs s w with
      | Running _ => match trigger s r with Some s => Next s [Trigger w r] | None => OutOfBounds end
      | _ => Blocked
      end
  | Ends w =>
      match pcs s w with
      | Running r =>
          if queued s r then
            Next (mkSched (cnt s) (arr s) (current s) (nums s) (loose s) (awakened s) (counter s) (snap s) (holder s)
                    (set_nat (queued s) r false) (should_stop s) (set_nat (pcs s) w Enter)) [Done w]
          else AssertFails
      | _ => Blocked
      end
  | Tag w stop rs nums' =>
      match pcs s w with
      | Advancing =>
          if negb (current s =? top) then Blocked
          else
            let s := mkSched (cnt s) (arr s) 0 nums' (loose s) (awakened s) (counter s) (snap s) (holder s) (queued s) (should_stop s) (pcs s) in
            if stop then
              let s := mkSched (cnt s) (arr s) (current s) (nums s) (loose s) (awakened s) (counter s) (snap s) (holder s) (queued s) true (pcs s) in
              Next (set_holder (set_pc (awaken s w n) w Ended) None) []
            else
              match trigger_all s rs with
              | Some s => Next (go_on s w) [NextTag rs]
              | None => OutOfBounds
              end
      | _ => Blocked
      end
  | Spurious w => match pcs s w with Asleep false => Next (set_pc s w (Asleep true)) [] | _ => Blocked end
  end.

(** A running reaction triggers reactions of the program of a higher level; the
    numbers of workers are in the range of property C60; [spurious] is whether
    condition variables may wake up without a signal. *)
Definition allowed (spurious : bool) (rs : list reaction) (s : sched) (o : op) : Prop :=
  match o with
  | Triggers w r => match pcs s w with Running q => lvl q < lvl r /\ In r rs | _ => True end
  | Tag _ _ ts nums' => incl ts rs /\ forall l, l <= top -> 1 <= nums' l <= Nat.min (size l) n
  | Spurious _ => spurious = true
  | _ => True
  end.
Inductive exec (spurious : bool) (rs : list reaction) (s0 : sched) : sched -> list event -> Prop :=
| exec_start : exec spurious rs s0 s0 []
| exec_step s es o s' es' : exec spurious rs s0 s es -> allowed spurious rs s o -> step s o = Next s' es' -> exec spurious rs s0 s' (es ++ es').
End Model.
