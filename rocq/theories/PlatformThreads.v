(** Model of thread creation, thread ids, priorities and scheduling policies:
    low_level_platform/impl/src/lf_platform_util.c, lf_linux_support.c,
    lf_zephyr_support.c and lf_rp2040_support.c. *)
From Verif Require Import Base.

(** * Priorities, lf_platform_util.c:4-14 *)

(** low_level_platform/api/low_level_platform.h:83-84. *)
Definition LF_SCHED_MAX_PRIORITY : Z := 99.
Definition LF_SCHED_MIN_PRIORITY : Z := 0.

(** Arithmetic of int. *)
Definition int_res (z : Z) : res Z :=
  if (-2147483648 <=? z) && (z <=? 2147483647) then Ok z else UB.

Definition map_priorities (priority dest_min dest_max : Z) : res Z :=
  if (priority <? LF_SCHED_MIN_PRIORITY) || (LF_SCHED_MAX_PRIORITY <? priority)
  then Ok (-1)                                                     (* lines 6-8 *)
  else                                                             (* lines 12-13 *)
    do! a <- int_res (priority - LF_SCHED_MIN_PRIORITY);
    do! b <- int_res (dest_max - dest_min);
    do! p <- int_res (a * b);
    do! q <- int_res (Z.quot p (LF_SCHED_MAX_PRIORITY - LF_SCHED_MIN_PRIORITY));
    int_res (dest_min + q).

(** * Linux, lf_linux_support.c:56-133 *)

Inductive posix_policy := SCHED_OTHER | SCHED_RR | SCHED_FIFO.

(** sched_get_priority_min and _max of Linux. *)
Definition posix_min (p : posix_policy) : Z :=
  match p with SCHED_OTHER => 0 | _ => 1 end.
Definition posix_max (p : posix_policy) : Z :=
  match p with SCHED_OTHER => 0 | _ => 99 end.

(** What the kernel knows about a thread. *)
Record thread := mkThread { th_policy : posix_policy; th_priority : Z }.

(** The answers of the system: whether it permits to change the policy and the priority
    (0 or an error number). *)
Record system := mkSystem { setschedparam : Z; setschedprio : Z }.

(** pthread_setschedprio refuses priorities outside of the range of the policy (EINVAL). *)
Definition EINVAL : Z := 22.

(** [lf_thread_set_priority], lines 56-82.  pthread_getschedparam succeeds. *)
Definition linux_set_priority (s : system) (th : thread) (priority : Z) : res (thread * Z) :=
  if (LF_SCHED_MAX_PRIORITY <? priority) || (priority <? LF_SCHED_MIN_PRIORITY)
  then Ok (th, -1)
  else
    let min_pri := posix_min (th_policy th) in
    let max_pri := posix_max (th_policy th) in
    do! final <- map_priorities priority min_pri max_pri;
    if final <? 0 then Ok (th, -1)
    else if negb (setschedprio s =? 0) then Ok (th, setschedprio s)
    else if (final <? min_pri) || (max_pri <? final) then Ok (th, EINVAL)
    else Ok (mkThread (th_policy th) final, 0).

(** lf_scheduling_policy_t, low_level_platform.h:147-171. *)
Inductive lf_policy := LF_SCHED_FAIR | LF_SCHED_TIMESLICE | LF_SCHED_PRIORITY | LF_SCHED_OTHER.

(** Lines 96-117; None is the default case. *)
Definition linux_policy (p : lf_policy) : option (posix_policy * Z * bool) :=
  match p with
  | LF_SCHED_FAIR => Some (SCHED_OTHER, 0, false)
  | LF_SCHED_TIMESLICE => Some (SCHED_RR, posix_max SCHED_RR, true)
  | LF_SCHED_PRIORITY => Some (SCHED_FIFO, posix_max SCHED_FIFO, true)
  | LF_SCHED_OTHER => None
  end.

(** [lf_thread_set_scheduling_policy], lines 84-133. *)
Definition linux_set_policy (s : system) (th : thread) (p : lf_policy) (priority : Z)
    : res (thread * Z) :=
  match linux_policy p with
  | None => Ok (th, -1)
  | Some (pol, pri, set_priority) =>
      if negb (setschedparam s =? 0) then Ok (th, setschedparam s)
      else
        let th1 := mkThread pol pri in
        if set_priority then linux_set_priority s th1 priority else Ok (th1, 0)
  end.

(** * Zephyr, lf_zephyr_support.c:176-222: smaller numbers are more urgent; [n] is
    CONFIG_NUM_PREEMPT_PRIORITIES. *)
Definition zephyr_set_priority (n : Z) (old priority : Z) : res (Z * Z) :=
  if (LF_SCHED_MAX_PRIORITY <? priority) || (priority <? LF_SCHED_MIN_PRIORITY)
  then Ok (old, -1)
  else
    do! final <- map_priorities priority (n - 1) 0;
    if final <? 0 then Ok (old, -1) else Ok (final, 0).

(** * Thread ids, lf_platform_util.c:18-24 (lf_zephyr_support.c:162-169 is alike, except
    that a thread without an id reads through a null pointer) *)

Record ids := mkIds { worker_thread_count : Z; id_var : nat -> Z }.

Definition ids0 : ids := mkIds 0 (fun _ => -1).

(** [initialize_lf_thread_id] called by thread [k]. *)
Definition initialize_lf_thread_id (s : ids) (k : nat) : res ids :=
  do! n <- int_res (worker_thread_count s + 1);
  Ok (mkIds n (fun j => if Nat.eqb j k then worker_thread_count s else id_var s j)).

Fixpoint initialize_all (s : ids) (l : list nat) : res ids :=
  match l with
  | [] => Ok s
  | k :: r => do! s1 <- initialize_lf_thread_id s k; initialize_all s1 r
  end.

Definition lf_thread_id (s : ids) (k : nat) : Z := id_var s k.

(** * Creating threads on Zephyr, lf_zephyr_support.c:136-158 *)

(** [tid] is the static counter, [locked] the thread that holds thread_mutex (a Zephyr
    mutex may be locked again by its holder). *)
Record pool := mkPool { tid : Z; locked : option nat }.

Definition pool0 : pool := mkPool 0 None.

Inductive created :=
| Created (slot : Z)             (* the k_thread structure and the stack that are used *)
| CreateError                    (* returns -1 *)
| Blocked.                       (* never returns *)

(** A call of thread [k]; [n] is NUMBER_OF_THREADS. *)
Definition zephyr_create (n : Z) (s : pool) (k : nat) : pool * created :=
  let mine := match locked s with None => true | Some j => Nat.eqb j k end in
  if negb mine then (s, Blocked)                                   (* line 137 *)
  else if n - 1 <? tid s then (mkPool (tid s) (Some k), CreateError) (* lines 143-145 *)
  else (mkPool (tid s + 1) (locked s), Created (tid s)).           (* lines 147-157 *)

Fixpoint zephyr_creates (n : Z) (s : pool) (l : list nat) : list created :=
  match l with
  | [] => []
  | k :: r => let (s1, c) := zephyr_create n s k in c :: zephyr_creates n s1 r
  end.
