(** What is released when a program terminates. *)
From Verif Require Import Base Memory.
Local Open Scope nat_scope.

Definition kind_eq_dec (a b : kind) : {a = b} + {a <> b}.
Proof. decide equality. Defined.
(** The number of blocks of a kind. *)
Definition count (k : kind) (l : list block) : nat :=
  List.length (filter (fun b => if kind_eq_dec (snd b) k then true else false) l).

(** The heap is well-formed: blocks have different addresses, and the next address
    is new. *)
Definition wf (h : heap) : Prop := NoDup (map fst (live h)) /\ Forall (fun b => fst b < next h) (live h).

(** The program has reactions: the schedulers NP and adaptive need a table of at
    least one level, and the latter a worker. *)
Definition startable (c : config) : Prop :=
  match c_threaded c with
  | Some (NP (Some (_ :: _)), _) => True
  | Some (NP _, _) => False
  | Some (GEDF, _) => True
  | Some (Adaptive (Some (_ :: _)), w) => 0 < w
  | Some (Adaptive _, _) => False
  | None => True
  end.
Definition one_watchdog (o : op) : Prop := match o with NewReactor _ w => w <= 1 | _ => True end.
Definition no_watchdog (o : op) : Prop := match o with NewReactor _ w => w = 0 | _ => True end.
Definition no_suspension (o : op) : Prop := match o with Suspend _ => False | _ => True end.
Definition no_event (o : op) : Prop := match o with NewEvent _ => False | _ => True end.

Definition count_if {A} (f : A -> bool) (l : list A) : nat := List.length (filter f l).
Definition is_threaded c := match c_threaded c with Some _ => true | None => false end.
Definition is_np c := match c_threaded c with Some (NP _, _) => true | _ => false end.
Definition is_adaptive c := match c_threaded c with Some (Adaptive _, _) => true | _ => false end.
Definition other_mutex o := match o with NewReactor false w => 0 <? w | _ => false end.

(** What is not released, apart from events. *)
Definition leaked (envs : list config) (os : list op) (k : kind) : nat :=
  match k with
  | KSched => count_if is_threaded envs
  | KIndexes => count_if is_np envs
  | KWorkerStates | KAssignments | KData | KCumsum | KByLevel | KNumByLevel | KMins | KArgmins =>
    count_if is_adaptive envs
  | KWatchdogs => count_if (fun c => 0 <? c_watchdogs c) envs
  | KMutex => count_if other_mutex os
  | _ => 0
  end.

(** The events of environment [i]: how many are pending, and the largest number that
    were pending at any time. *)
Definition demand (i : nat) (o : op) (x : nat * nat) : nat * nat :=
  match o with
  | NewEvent j => if i =? j then (S (fst x), Nat.max (snd x) (S (fst x))) else x
  | HandleEvent j => if i =? j then (fst x - 1, snd x) else x
  | _ => x
  end.
Definition peak (i : nat) (os : list op) : nat := snd (fold_left (fun x o => demand i o x) os (0, 0)).
Definition peaks (n : nat) (os : list op) : nat := list_sum (map (fun i => peak i os) (seq 0 n)).
Definition new_event (o : op) : bool := match o with NewEvent _ => true | _ => false end.
