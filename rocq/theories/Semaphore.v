(** Model of core/utils/lf_semaphore.c as an interleaving of threads. *)
From Verif Require Import Base Pqueue.
Open Scope Z_scope.

(** What a thread is doing with the semaphore.  The mutex makes each of the
    following steps atomic; a thread blocked in [lf_cond_wait] is [Blocked] until
    a broadcast (or a spurious wake-up) makes it [Woken]. *)
Inductive why := ToAcquire | ToWait.
Inductive tstate := Idle | Trying (w : why) | Blocked (w : why) | Woken (w : why).
(** [sm_count] is the size_t count; the last two fields are ghost counters. *)
Record sem := mkSem { sm_count : Z; sm_th : nat -> tstate; sm_acquired : Z; sm_released : Z }.

(** lf_semaphore.c:43-49 [lf_semaphore_new] *)
Definition sem_new (n : Z) : sem := mkSem n (fun _ => Idle) 0 0.

Definition wake (st : tstate) : tstate := match st with Blocked w => Woken w | s => s end.

(** Steps: a thread calls acquire or wait; a thread holding the mutex evaluates the
    loop condition (lines 75-78 and 91-93) and passes or blocks; a thread releases
    [i] (lines 59-62, count is a size_t and wraps); a spurious wake-up. *)
Inductive sstep := SCall (t : nat) (w : why) | SRun (t : nat) | SRelease (i : Z) | SSpurious (t : nat).
Definition sem_step (s : sem) (e : sstep) : option sem :=
  match e with
  | SCall t w =>
      match sm_th s t with
      | Idle => Some (mkSem (sm_count s) (upd (sm_th s) t (Trying w)) (sm_acquired s) (sm_released s))
      | _ => None
      end
  | SRun t =>
      match sm_th s t with
      | Trying w | Woken w =>
          if sm_count s =? 0 then
            Some (mkSem (sm_count s) (upd (sm_th s) t (Blocked w)) (sm_acquired s) (sm_released s))
          else
            match w with
            | ToAcquire => Some (mkSem (sm_count s - 1) (upd (sm_th s) t Idle) (sm_acquired s + 1) (sm_released s))
            | ToWait => Some (mkSem (sm_count s) (upd (sm_th s) t Idle) (sm_acquired s) (sm_released s))
            end
      | _ => None
      end
  | SRelease i =>
      if (0 <=? i) && (i <? two64) then
        Some (mkSem ((sm_count s + i) mod two64) (fun t => wake (sm_th s t)) (sm_acquired s) (sm_released s + i))
      else None
  | SSpurious t =>
      match sm_th s t with
      | Blocked w => Some (mkSem (sm_count s) (upd (sm_th s) t (Woken w)) (sm_acquired s) (sm_released s))
      | _ => None
      end
  end.
Fixpoint sem_run (s : sem) (es : list sstep) : option sem :=
  match es with
  | [] => Some s
  | e :: r => match sem_step s e with Some s1 => sem_run s1 r | None => None end
  end.
