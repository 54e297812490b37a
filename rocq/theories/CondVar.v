(** Model of the mutexes and condition variables of the RP2040, which are built from
    semaphores: low_level_platform/impl/src/lf_rp2040_support.c:258-310.  (On the other
    platforms they are those of the operating system.) *)
From Verif Require Import Base.

(** The two cores are [false] and [true]. *)
Inductive place :=
| Running                        (* outside of the functions modelled here *)
| Acquiring                      (* in lf_cond_wait, line 297 *)
| Relocking                      (* in lf_cond_wait, line 298 *)
| TimedWaiting.                  (* in _lf_cond_timedwait, line 305 *)

Record state := mkState {
  owner : option bool;           (* of the recursive mutex ... *)
  count : nat;                   (* ... and how often it has locked it *)
  notifs : bool -> bool;         (* the semaphores: 0 or 1 permit *)
  at_ : bool -> place }.

Definition set (k : bool) {A} (f : bool -> A) (a : A) : bool -> A :=
  fun j => if Bool.eqb j k then a else f j.

(** lf_cond_init, lines 274-280, and lf_mutex_init. *)
Definition state0 : state := mkState None 0 (fun _ => false) (fun _ => Running).

(** What happens; [r] is the value returned.  An action that blocks does not happen. *)
Inductive action :=
| Lock (k : bool)                (* lf_mutex_lock returns *)
| Unlock (k : bool)              (* lf_mutex_unlock *)
| Notify                         (* lf_cond_broadcast or lf_cond_signal, also in an ISR *)
| WaitBegin (k : bool)           (* lf_cond_wait, up to line 296 *)
| WaitAcquire (k : bool)         (* its line 297 ends *)
| WaitReturn (k : bool)          (* it returns 0 *)
| TimedBegin (k : bool)          (* _lf_cond_timedwait is called *)
| TimedReturn (k : bool) (late : bool) (r : Z). (* it returns; [late]: the time has come *)

Definition LF_TIMEOUT : Z := 1.

Definition running (s : state) (k : bool) : bool :=
  match at_ s k with Running => true | _ => false end.

Definition free_for (s : state) (k : bool) : bool :=
  match owner s with None => true | Some j => Bool.eqb j k end.

(** recursive_mutex_enter_blocking and recursive_mutex_exit. *)
Definition enter (s : state) (k : bool) : option state :=
  if free_for s k then Some (mkState (Some k) (S (count s)) (notifs s) (at_ s)) else None.

Definition leave (s : state) (k : bool) : option state :=
  match owner s, count s with
  | Some j, S n =>
      if Bool.eqb j k
      then Some (mkState (match n with O => None | _ => Some j end) n (notifs s) (at_ s))
      else None
  | _, _ => None
  end.

Definition move (s : state) (k : bool) (p : place) : state :=
  mkState (owner s) (count s) (notifs s) (set k (at_ s) p).

(** Takes the permit. *)
Definition acquire (s : state) (k : bool) : option state :=
  if notifs s k then Some (mkState (owner s) (count s) (set k (notifs s) false) (at_ s)) else None.

Definition step (s : state) (a : action) : option state :=
  match a with
  | Lock k => if running s k then enter s k else None              (* lines 263-266 *)
  | Unlock k => if running s k then leave s k else None            (* lines 268-271 *)
  | Notify => Some (mkState (owner s) (count s) (fun _ => true) (at_ s)) (* lines 282-291 *)
  | WaitBegin k =>                                                 (* lines 293-296 *)
      if running s k then option_map (fun s1 => move s1 k Acquiring) (leave s k) else None
  | WaitAcquire k =>
      match at_ s k with
      | Acquiring => option_map (fun s1 => move s1 k Relocking) (acquire s k)
      | _ => None
      end
  | WaitReturn k =>
      match at_ s k with
      | Relocking => option_map (fun s1 => move s1 k Running) (enter s k)
      | _ => None
      end
  | TimedBegin k => if running s k then Some (move s k TimedWaiting) else None (* lines 302-304 *)
  | TimedReturn k late r =>                                        (* lines 305-306 *)
      match at_ s k with
      | TimedWaiting =>
          match acquire s k with
          | Some s1 => if r =? 0 then Some (move s1 k Running) else None
          | None => if late && (r =? LF_TIMEOUT) then Some (move s k Running) else None
          end
      | _ => None
      end
  end.

Fixpoint run (s : state) (l : list action) : option state :=
  match l with
  | [] => Some s
  | a :: r => match step s a with Some s1 => run s1 r | None => None end
  end.
