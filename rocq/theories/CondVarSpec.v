(** A monitor as POSIX defines it: waiting releases the mutex and starts to wait in one
    step; a notification wakes all that are waiting; waits may also end for no reason
    ("spurious wake-ups"); and a wait returns with the mutex locked. *)
From Verif Require Import Base CondVar.

Inductive mode := Active | Waiting | Woken.

Record monitor := mkMonitor {
  holder : option bool;
  depth : nat;
  mode_of : bool -> mode }.

Definition upd (k : bool) {A} (f : bool -> A) (a : A) : bool -> A :=
  fun j => if Bool.eqb j k then a else f j.

Definition monitor0 : monitor := mkMonitor None 0 (fun _ => Active).

Inductive event :=
| MLock (k : bool) | MUnlock (k : bool) | MNotify | MWait (k : bool) | MReturn (k : bool).

Inductive mstep : monitor -> option event -> monitor -> Prop :=
| m_lock : forall m k,
    mode_of m k = Active -> holder m = None \/ holder m = Some k ->
    mstep m (Some (MLock k)) (mkMonitor (Some k) (S (depth m)) (mode_of m))
| m_unlock : forall m k n,
    mode_of m k = Active -> holder m = Some k -> depth m = S n ->
    mstep m (Some (MUnlock k)) (mkMonitor (if Nat.eqb n 0 then None else Some k) n (mode_of m))
| m_notify : forall m,
    mstep m (Some MNotify)
      (mkMonitor (holder m) (depth m)
         (fun k => match mode_of m k with Waiting => Woken | x => x end))
| m_wait : forall m k,
    mode_of m k = Active -> holder m = Some k -> depth m = 1%nat ->
    mstep m (Some (MWait k)) (mkMonitor None 0 (upd k (mode_of m) Waiting))
| m_spurious : forall m k,
    mode_of m k = Waiting ->
    mstep m None (mkMonitor (holder m) (depth m) (upd k (mode_of m) Woken))
| m_return : forall m k,
    mode_of m k = Woken -> holder m = None ->
    mstep m (Some (MReturn k)) (mkMonitor (Some k) 1 (upd k (mode_of m) Active)).

(** Executions with the events that can be observed. *)
Inductive mrun : monitor -> list event -> monitor -> Prop :=
| mr_nil : forall m, mrun m [] m
| mr_silent : forall m m1 m2 l, mstep m None m1 -> mrun m1 l m2 -> mrun m l m2
| mr_event : forall m m1 m2 e l, mstep m (Some e) m1 -> mrun m1 l m2 -> mrun m (e :: l) m2.

(** What can be observed of an action. *)
Definition visible (a : action) : list event :=
  match a with
  | Lock k => [MLock k] | Unlock k => [MUnlock k] | Notify => [MNotify]
  | WaitBegin k => [MWait k] | WaitReturn k => [MReturn k]
  | WaitAcquire _ | TimedBegin _ | TimedReturn _ _ _ => []
  end.

Definition untimed (a : action) : Prop :=
  match a with TimedBegin _ | TimedReturn _ _ _ => False | _ => True end.

(** A wait happens when the mutex is locked once. *)
Definition flat (s : state) (a : action) : Prop :=
  match a with WaitBegin _ => count s = 1%nat | _ => True end.

(** Whole executions. *)
Fixpoint flat_run (s : state) (l : list action) : Prop :=
  match l with
  | [] => True
  | a :: r => untimed a /\ flat s a /\
      match step s a with Some s1 => flat_run s1 r | None => True end
  end.

(** How often core [k] has been woken, and how often anyone has notified. *)
Definition wakes (k : bool) (a : action) : bool :=
  match a with
  | WaitReturn j => Bool.eqb j k
  | TimedReturn j _ r => Bool.eqb j k && (r =? 0)
  | _ => false
  end.

Definition notifies (a : action) : bool := match a with Notify => true | _ => false end.

Definition how_many (p : action -> bool) (l : list action) : nat := length (filter p l).
