(** What the start of a threaded program is supposed to do. *)
From Verif Require Import Base Trace TraceSpec ThreadStart.
Local Open Scope nat_scope.

(** The events a thread has recorded, in order. *)
Fixpoint recorded (t : thread) (l : list op) : list record :=
  match l with
  | [] => []
  | Event u r _ :: l => if thread_eqb u t then r :: recorded t l else recorded t l
  | Begin _ :: l => recorded t l
  end.
(** The events of the threads that are not threads of the runtime. *)
Fixpoint recorded_outside (ths : list thread) (l : list op) : list record :=
  match l with
  | [] => []
  | Event u r _ :: l => if existsb (thread_eqb u) ths then recorded_outside ths l else r :: recorded_outside ths l
  | Begin _ :: l => recorded_outside ths l
  end.
(** The trace file never fails. *)
Definition file_works (l : list op) : Prop :=
  Forall (fun x => match x with Event _ _ o => o = IoOk | Begin _ => True end) l.

(** How many threads a program has, counted by hand: the main thread counts twice if it is a worker too. *)
Definition sum (l : list nat) : nat := fold_right plus 0 l.
Definition total_workers (p : program) : nat := sum (map fst (envs p)).
Definition total_watchdogs (p : program) : nat := sum (map snd (envs p)).
Definition first_workers (p : program) : nat := match envs p with [] => 0 | (w, _) :: _ => w end.
Definition extra (f : federation) : nat := inbound f + 1 + (if staa f then 1 else 0) + (if clock f then 1 else 0).

(** The programs whose threads all have a place in the trace: they have no watchdogs, no environment has more
    workers than the first one, and a federate does not connect to itself. *)
Definition plain (p : program) : Prop :=
  total_watchdogs p = 0 /\ Forall (fun wd => fst wd <= first_workers p) (envs p)
  /\ match fed p with Some f => inbound f < federates f | None => True end.

(** Worker [j] of environment [e] exists. *)
Definition is_worker (p : program) (t : thread) : Prop :=
  exists e j w d, t = Worker e j /\ nth_error (envs p) e = Some (w, d) /\ j < w.
(** A history that breaks the trace: the program writes outside its memory, or exits. *)
Definition breaks (ths : list thread) (n : nat) : Prop :=
  exists l, file_works l /\ (run ths (start n) l = OutOfBounds \/ run ths (start n) l = Exited).
(** The history of an environment with [n] workers: every worker enters at most once and leaves at most once,
    after it has entered. *)
Definition enters (l : list env_op) : list nat := flat_map (fun x => match x with Enter w => [w] | _ => [] end) l.
Definition leaves (l : list env_op) : list nat := flat_map (fun x => match x with Leave w => [w] | _ => [] end) l.
Definition history (n : nat) (l : list env_op) : Prop :=
  NoDup (enters l) /\ NoDup (leaves l) /\ (forall w, In w (enters l) -> w < n) /\
  forall l1 w l2, l = l1 ++ Leave w :: l2 -> In w (enters l1).
(** The scheduler lets no worker leave before all of them have entered. *)
Definition together (n : nat) (l : list env_op) : Prop :=
  forall l1 w l2, l = l1 ++ Leave w :: l2 -> length (enters l1) = n.
