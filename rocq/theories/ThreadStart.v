(** Model of the start of a threaded program: the number of workers, the threads that are
    created and joined, the identifiers they take, the room for them in the trace, and the
    numbers of the workers (core/threaded/reactor_threaded.c:875-972, 985-1136,
    core/reactor_common.c:1081-1117, core/threaded/watchdog.c:29-40, core/federated/RTI/main.c).

    The trace is the model in Trace.v.  The products and sums that give the number of
    buffers are computed without overflow: a program with 2^31 threads does not exist. *)
From Verif Require Import Base Trace.
Local Open Scope nat_scope.

(** * The number of workers *)

(** Conversion to unsigned int *)
Definition unsigned (z : Z) : Z := (z mod 4294967296)%Z.
(** lf_available_cores, lf_POSIX_threads_support.c:11, answers what sysconf answers; reactor_threaded.c:957-966 *)
Definition automatic (cores : Z) (breadth : option Z) : Z :=
  let w := unsigned cores in
  match breadth with
  | Some b => if (unsigned b <? w)%Z then unsigned b else w
  | None => w
  end.
(** reactor_threaded.c:952-972.  [given]: from the command line, 0 if absent (reactor_common.c:993-999);
    [fixed]: NUMBER_OF_WORKERS; [breadth]: LF_REACTION_GRAPH_BREADTH. *)
Definition determine_number_of_workers (given : Z) (fixed : option Z) (cores : Z) (breadth : option Z) : Z :=
  if (given =? 0)%Z then
    match fixed with
    | Some k => if (k =? 0)%Z then automatic cores breadth else unsigned k
    | None => automatic cores breadth
    end
  else given.

(** * The threads of a program *)

Inductive thread :=
| Main                       (* the thread that calls lf_reactor_c_main *)
| Worker (e j : nat)         (* worker [j] of environment [e]; (0, 0) runs on the main thread *)
| Watchdog (e i : nat)
| Inbound (i : nat)          (* listens to another federate, federate.c:747 *)
| Staa                       (* federate.c:1131 *)
| RtiListener                (* federate.c:1533 *)
| ClockListener              (* clock-sync.c:441 *)
| Federate (i : nat)         (* RTI: communicates with a federate, rti_remote.c:1072 *)
| Timeout                    (* RTI: rti_remote.c:590; made once, lines 659-666 *)
| ClockRounds                (* RTI: rti_remote.c:886 *)
| Responder                  (* RTI: rti_remote.c:1613 *)
| User (i : nat).            (* any other thread, e.g. one made by the user, or the one that accepts
                                connections of federates, federate.c:2150; it takes no identifier *)
Definition thread_eqb (a b : thread) : bool :=
  match a, b with
  | Main, Main | Staa, Staa | RtiListener, RtiListener | ClockListener, ClockListener
  | Timeout, Timeout | ClockRounds, ClockRounds | Responder, Responder => true
  | Worker e i, Worker f j | Watchdog e i, Watchdog f j => (e =? f) && (i =? j)
  | Inbound i, Inbound j | Federate i, Federate j | User i, User j => i =? j
  | _, _ => false
  end.

(** What a federate adds: the number of federates, NUMBER_OF_FEDERATES, the number of federates that
    connect to this one, and whether there are threads for STAA offsets and clock synchronization. *)
Record federation := mkFed { federates : nat; inbound : nat; staa : bool; clock : bool }.
(** For each environment the number of workers and of watchdogs *)
Record program := mkProgram { envs : list (nat * nat); fed : option federation }.

Definition workers_of (e w : nat) : list thread := map (Worker e) (seq 0 w).
Definition watchdogs_of (e d : nat) : list thread := map (Watchdog e) (seq 0 d).
(** watchdog.c:29-40 and reactor_threaded.c:1081-1096, from environment [e] on *)
Fixpoint env_threads (e : nat) (l : list (nat * nat)) : list thread :=
  match l with [] => [] | (w, d) :: l => watchdogs_of e d ++ workers_of e w ++ env_threads (S e) l end.
Definition fed_threads (f : federation) : list thread :=
  map Inbound (seq 0 (inbound f)) ++ RtiListener :: (if staa f then [Staa] else []) ++ (if clock f then [ClockListener] else []).
(** Every call of initialize_lf_thread_id: the main thread calls it on line 986, and again, as a worker, on line 876. *)
Definition threads (p : program) : list thread :=
  Main :: env_threads 0 (envs p) ++ match fed p with Some f => fed_threads f | None => [] end.
(** RTI/main.c:278 and the threads it creates *)
Definition rti_threads (n : nat) : list thread :=
  Main :: map Federate (seq 0 n) ++ [Timeout; ClockRounds; Responder].

(** The number of trace buffers.  reactor_common.c:1090-1103 *)
Definition buffers_for (p : program) : nat :=
  match envs p with [] => 0 | (w, _) :: _ => w end * length (envs p) + 1
  + match fed p with Some f => federates f + 2 | None => 0 end.
(** RTI/main.c:302-310 *)
Definition rti_buffers (n : nat) : nat := n * 2 + 3.

(** * Identifiers and the trace *)

(** The threads that have called initialize_lf_thread_id, in that order, and the trace. *)
Record state := mkState { begun : list thread; tr : trace }.
Definition start (n : nat) : state := mkState [] (trace0 (Z.of_nat n) true).

Fixpoint position (t : thread) (l : list thread) : option nat :=
  match l with
  | [] => None
  | u :: l => if thread_eqb u t then Some 0 else option_map S (position t l)
  end.
(** lf_platform_util.c:18-24: the identifier of a thread that has not called initialize_lf_thread_id is -1. *)
Definition lf_thread_id (s : state) (t : thread) : Z :=
  match position t (begun s) with Some i => Z.of_nat i | None => (-1)%Z end.

Inductive op :=
| Begin (t : thread)                         (* initialize_lf_thread_id *)
| Event (t : thread) (r : record) (o : io).  (* lf_tracing_tracepoint *)
Inductive outcome := Went (s : state) | Impossible | Exited | OutOfBounds.

(** The main thread begins first; a thread begins once. *)
Definition may_begin (ths : list thread) (s : state) (t : thread) : bool :=
  existsb (thread_eqb t) ths && negb (existsb (thread_eqb t) (begun s))
  && match begun s with [] => thread_eqb t Main | _ => true end.
Definition step (ths : list thread) (s : state) (x : op) : outcome :=
  match x with
  | Begin t => if may_begin ths s t then Went (mkState (begun s ++ [t]) (tr s)) else Impossible
  | Event t r o =>
      if existsb (thread_eqb t) ths && negb (existsb (thread_eqb t) (begun s)) then Impossible
      else
        match tracepoint (tr s) (lf_thread_id s t) r o with
        | Trace.Go t' => Went (mkState (begun s) t')
        | Trace.Exited => Exited
        | Trace.OutOfBounds => OutOfBounds
        end
  end.
Fixpoint run (ths : list thread) (s : state) (l : list op) : outcome :=
  match l with
  | [] => Went s
  | x :: l => match step ths s x with Went s => run ths s l | y => y end
  end.

(** * Creation and end of the workers *)

Inductive action := Create (t : thread) | RunHere (t : thread) | Join (t : thread) | Failed (t : thread) | Return.

(** reactor_threaded.c:1081-1096: worker (0, 0) is not created; the program exits when a thread cannot be
    created.  The second component tells whether the program goes on. *)
Fixpoint spawn (ok : thread -> bool) (l : list thread) : list action * bool :=
  match l with
  | [] => ([], true)
  | Worker 0 0 :: l => spawn ok l
  | t :: l => if ok t then let (a, b) := spawn ok l in (Create t :: a, b) else ([Failed t], false)
  end.
Fixpoint all_workers (e : nat) (l : list (nat * nat)) : list thread :=
  match l with [] => [] | (w, _) :: l => workers_of e w ++ all_workers (S e) l end.
(** Lines 1108-1133 *)
Definition join_all (l : list thread) : list action :=
  flat_map (fun t => match t with Worker 0 0 => [] | t => [Join t] end) l.
(** Lines 1052-1136, what concerns the workers *)
Definition main_actions (ok : thread -> bool) (p : program) : list action :=
  let ws := all_workers 0 (envs p) in
  let (a, goes_on) := spawn ok ws in
  if goes_on then
    a ++ match envs p with (S _, _) :: _ => [RunHere (Worker 0 0)] | _ => [] end ++ join_all ws ++ [Return]
  else a.

(** * Numbers of the workers of an environment *)

(** reactor_threaded.c:875-922: worker_thread_count; the number each worker took; who has told
    the coordination that the environment is done (lines 907-920). *)
Record env_state := mkEnv { count : Z; taken : list (nat * Z); told : list nat }.
Definition env0 : env_state := mkEnv 0 [] [].
Inductive env_op := Enter (w : nat) | Leave (w : nat).
Definition env_step (s : env_state) (x : env_op) : env_state :=
  match x with
  | Enter w => mkEnv (count s + 1) (taken s ++ [(w, count s)]) (told s)
  | Leave w => let c := (count s - 1)%Z in mkEnv c (taken s) (if (c =? 0)%Z then told s ++ [w] else told s)
  end.
Definition env_run (l : list env_op) : env_state := fold_left env_step l env0.
