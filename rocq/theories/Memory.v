(** Model of the memory that the runtime allocates for a program and releases when
    the program terminates: reactors and what they allocate
    (core/reactor_common.c:90-143), environments (core/environment.c), schedulers
    (core/threaded/scheduler_*.c), events (core/reactor_common.c:339-352), modes
    (core/modal_models/modes.c) and [termination] (core/reactor_common.c:1132-1222).
    Tokens and their values have a model of their own (Token.v).

    The heap is the list of the live blocks.  Allocation never fails here (the
    program exits then), and every allocation returns a block, also of size 0.
    [free] of anything but a live block or a null pointer is undefined, and so is
    reading a block that is not live. *)
From Verif Require Import Base.
Local Open Scope nat_scope.

Inductive kind :=
| KReactor | KRecord | KOwned | KMutex
| KName | KTimers | KStartup | KShutdown | KReset | KPresent | KAbbreviated | KWatchdogs
| KQueue | KQueueArray | KEvent | KNode
| KThreads | KModes | KModeStates | KResets | KIntended
| KSched | KCustom
| KTriggered | KLevel | KLevelMutexes | KSemaphore | KIndexes
| KWorkerStates | KConds | KCumsum | KHeld
| KAssignments | KByLevel | KNumByLevel | KNumWorkers | KMaxWorkers | KLevelWorkers | KLevelNums | KWorkerReactions
| KData | KStart | KTimes | KLevelTimes | KMins | KArgmins | KPossible.

Definition block := (nat * kind)%type.
Record heap := mkHeap { next : nat; live : list block }.

Definition M (A : Type) := heap -> res (A * heap).
Definition ret {A} (a : A) : M A := fun h => Ok (a, h).
Definition undefined {A} : M A := fun _ => UB.
Definition bindM {A B} (m : M A) (f : A -> M B) : M B :=
  fun h => match m h with Ok (a, h) => f a h | UB => UB end.
Notation "'let!' x <- m ; k" := (bindM m (fun x => k)) (at level 200, x name, m at level 100, k at level 200).
Notation "m ;; k" := (bindM m (fun _ => k)) (at level 199, right associativity).

Fixpoint remove_block (p : nat) (l : list block) : option (list block) :=
  match l with
  | [] => None
  | b :: r => if fst b =? p then Some r
              else match remove_block p r with Some r => Some (b :: r) | None => None end
  end.

(** malloc, calloc *)
Definition alloc (k : kind) : M nat :=
  fun h => Ok (next h, mkHeap (S (next h)) ((next h, k) :: live h)).
(** free *)
Definition free (p : nat) : M unit :=
  fun h => match remove_block p (live h) with Some l => Ok (tt, mkHeap (next h) l) | None => UB end.
(** free of a pointer that may be null *)
Definition free_opt (p : option nat) : M unit := match p with Some p => free p | None => ret tt end.
(** a read of a field of the block *)
Definition touch (p : nat) : M unit :=
  fun h => if existsb (fun b => fst b =? p) (live h) then Ok (tt, h) else UB.
Definition touch_opt (p : option nat) : M unit := match p with Some p => touch p | None => undefined end.

Fixpoint each {A B} (f : A -> M B) (l : list A) : M (list B) :=
  match l with
  | [] => ret []
  | a :: r => let! b <- f a; let! bs <- each f r; ret (b :: bs)
  end.
Fixpoint each_ {A} (f : A -> M unit) (l : list A) : M unit :=
  match l with [] => ret tt | a :: r => f a;; each_ f r end.

(** ** Reactors. *)
(** A list of allocation records, each with the address of the record itself and
    of the memory ([allocated]); the head comes first. *)
Definition records := list (nat * nat).
(** The self struct, the list of its allocations, the mutex of a reactor with
    watchdogs (allocated by generated code) and the number of its watchdogs.
    [r_first]: the reactor belongs to the first environment. *)
Record reactor := mkReactor {
  r_self : nat;
  r_record : nat;
  r_allocations : records;
  r_mutex : option nat;
  r_watchdogs : nat;
  r_first : bool }.

(** core/reactor_common.c:90-104 [lf_allocate], with a list of records *)
Definition lf_allocate (k : kind) (head : records) : M (nat * records) :=
  let! mem <- alloc k;
  let! record <- alloc KRecord;
  ret (mem, (record, mem) :: head).

(** core/reactor_common.c:114-127 [lf_free] *)
Definition lf_free (head : records) : M unit :=
  each_ (fun r => touch (fst r);; free (snd r);; touch (fst r);; free (fst r)) head.
(** core/reactor_common.c:129-132 [lf_free_reactor] *)
Definition lf_free_reactor (r : reactor) : M unit :=
  touch (r_self r);; lf_free (r_allocations r);; touch (r_self r);; free (r_self r).
(** core/reactor_common.c:134-143 [lf_free_all_reactors]: [l] is the list
    [_lf_reactors_to_free], whose records point to the self structs. *)
Definition lf_free_all_reactors (l : list reactor) : M unit :=
  each_ (fun r => touch (r_record r);; lf_free_reactor r;; touch (r_record r);; free (r_record r)) l.

(** core/reactor_common.c:112 [lf_new_reactor], and the mutex that the generated
    constructor of a reactor with watchdogs allocates (core/threaded/watchdog.c:23-24). *)
Definition lf_new_reactor (first : bool) (watchdogs : nat) : M reactor :=
  let! self <- alloc KReactor;
  let! record <- alloc KRecord;
  let! mutex <- (if 0 <? watchdogs then let! m <- alloc KMutex; ret (Some m) else ret None);
  ret (mkReactor self record [] mutex watchdogs first).

(** ** Queues: core/utils/pqueue_base.c:129-155, pqueue_tag.c:82-95.  Growing a queue
    reallocates its array, which leaves one array; the model keeps the block. *)
Record queue := mkQueue { q_struct : nat; q_array : nat }.
Definition pqueue_init : M queue :=
  let! q <- alloc KQueue; let! d <- alloc KQueueArray; ret (mkQueue q d).
Definition pqueue_free (q : queue) : M unit :=
  touch (q_struct q);; free (q_array q);; free (q_struct q).
(** [pqueue_tag_free] frees the elements with [is_dynamic].  Events are allocated
    with calloc (core/reactor_common.c:344) and nothing sets their field. *)
Definition pqueue_tag_free (q : queue) (dynamic_elements : list nat) : M unit :=
  touch (q_struct q);; each_ free dynamic_elements;; pqueue_free q.

(** ** Schedulers. *)
(** [levels]: the numbers of reactions per level; [None]: a null pointer. *)
Inductive scheduler :=
| NP (levels : option (list nat))
| GEDF
| Adaptive (levels : option (list nat)).

Record np_data := mkNp { np_triggered : nat; np_levels : list nat; np_mutexes : nat; np_semaphore : nat; np_indexes : nat }.
Record level_data := mkLevel { l_workers : nat; l_nums : nat; l_reactions : list nat }.
Record adaptive_data := mkAdaptive {
  a_states : nat; a_assign : nat; a_data : nat;
  a_conds : nat; a_cumsum : nat; a_held : nat;
  a_bylevel : nat; a_numbylevel : nat; a_numworkers : nat; a_maxworkers : nat; a_levels : list level_data;
  a_start : nat; a_times : nat; a_mins : nat; a_argmins : nat; a_leveltimes : list nat; a_possible : nat }.
(** The instance, its [custom_data] and what that holds. *)
Inductive sched :=
| SNp (instance : nat) (custom : option (nat * np_data))
| SGedf (instance : nat) (custom : nat) (q : queue)
| SAdaptive (instance : nat) (custom : nat) (a : adaptive_data).

(** core/threaded/scheduler_instance.c:19-52 and the functions [lf_sched_init]:
    scheduler_NP.c:233-283 (without reactions it returns early; with a table of no
    levels [max_reaction_level] wraps around and the loop reads outside the table),
    scheduler_GEDF_NP.c:122-143, scheduler_adaptive.c:666-690 with 161-187 (a table of
    no levels: [set_level(scheduler, 0)] reads outside it), 291-308 (no workers:
    [number_of_workers - 1] wraps around) and 474-550. *)
Definition sched_init (s : scheduler) (workers : nat) : M sched :=
  let! instance <- alloc KSched;
  match s with
  | NP None => ret (SNp instance None)
  | NP (Some []) => undefined
  | NP (Some levels) =>
    let! custom <- alloc KCustom;
    let! triggered <- alloc KTriggered;
    let! mutexes <- alloc KLevelMutexes;
    let! semaphore <- alloc KSemaphore;
    let! indexes <- alloc KIndexes;
    let! vectors <- each (fun _ => alloc KLevel) levels;
    ret (SNp instance (Some (custom, mkNp triggered vectors mutexes semaphore indexes)))
  | GEDF =>
    let! custom <- alloc KCustom;
    let! q <- pqueue_init;
    ret (SGedf instance custom q)
  | Adaptive None | Adaptive (Some []) => undefined
  | Adaptive (Some levels) =>
    if workers =? 0 then undefined
    else
      let! custom <- alloc KCustom;
      let! states <- alloc KWorkerStates;
      let! assign <- alloc KAssignments;
      let! data <- alloc KData;
      let! conds <- alloc KConds;
      let! cumsum <- alloc KCumsum;
      let! held <- alloc KHeld;
      let! bylevel <- alloc KByLevel;
      let! numbylevel <- alloc KNumByLevel;
      let! numworkers <- alloc KNumWorkers;
      let! maxworkers <- alloc KMaxWorkers;
      let! ls <- each (fun n =>
        let! w <- alloc KLevelWorkers;
        let! c <- alloc KLevelNums;
        let! rs <- each (fun _ => alloc KWorkerReactions) (seq 0 (Nat.min n workers));
        ret (mkLevel w c rs)) levels;
      let! start <- alloc KStart;
      let! times <- alloc KTimes;
      let! mins <- alloc KMins;
      let! argmins <- alloc KArgmins;
      let! leveltimes <- each (fun _ => alloc KLevelTimes) levels;
      let! possible <- alloc KPossible;
      ret (SAdaptive instance custom
             (mkAdaptive states assign data conds cumsum held bylevel numbylevel numworkers maxworkers ls
                start times mins argmins leveltimes possible))
  end.

(** The functions [lf_sched_free]: scheduler_NP.c:290-300, scheduler_GEDF_NP.c:150-153,
    scheduler_adaptive.c:692-697 with 189-200, 310-315 and 553-561. *)
Definition sched_free (s : sched) : M unit :=
  match s with
  | SNp instance None => touch instance;; undefined
  | SNp instance (Some (custom, d)) =>
    touch instance;; touch custom;;
    touch (np_triggered d);; each_ free (np_levels d);; free (np_triggered d);;
    free (np_mutexes d);; free (np_semaphore d);; free custom
  | SGedf instance custom q => touch instance;; touch custom;; pqueue_free q;; free custom
  | SAdaptive instance custom a =>
    touch instance;; touch custom;;
    touch (a_states a);; free (a_conds a);; free (a_held a);;
    touch (a_assign a);; touch (a_bylevel a);; touch (a_numbylevel a);; touch (a_maxworkers a);;
    each_ (fun l => each_ free (l_reactions l);; free (l_workers l);; free (l_nums l)) (a_levels a);;
    free (a_maxworkers a);; free (a_numworkers a);;
    touch (a_data a);; free (a_start a);; touch (a_times a);; each_ free (a_leveltimes a);; free (a_times a);;
    free (a_possible a);;
    free custom
  end.

(** ** Environments. *)
Record config := mkConfig {
  c_name : bool;                   (* whether there is a name *)
  c_timers : nat; c_startup : nat; c_shutdown : nat; c_reset : nat; c_present : nat; c_watchdogs : nat;
  c_threaded : option (scheduler * nat);   (* the scheduler and the number of workers; None: LF_SINGLE_THREADED *)
  c_modal : bool; c_modes : nat; c_resets : nat;      (* MODAL_REACTORS *)
  c_decentralized : bool }.                           (* FEDERATED_DECENTRALIZED *)
Record modes := mkModes { m_struct : nat; m_states : nat; m_resets : option nat }.
Record environment := mkEnv {
  e_name : option nat;
  e_timers : option nat; e_startup : option nat; e_shutdown : option nat; e_reset : option nat;
  e_present : option nat; e_abbreviated : option nat; e_watchdogs : option nat;
  e_event_q : queue; e_recycle_q : queue;
  e_threads : option nat; e_sched : option sched; e_reaction_q : option queue;
  e_modes : option modes; e_intended : option nat;
  (* the elements of the two queues *)
  e_events : list nat; e_recycled : list nat }.

Definition alloc_if (b : bool) (k : kind) : M (option nat) :=
  if b then let! p <- alloc k; ret (Some p) else ret None.

(** core/environment.c:207-292 [environment_init] with 48-136; the generated code
    then calls [lf_sched_init]. *)
Definition environment_init (c : config) : M environment :=
  let! name <- alloc_if (c_name c) KName;
  let! timers <- alloc_if (0 <? c_timers c) KTimers;
  let! startup <- alloc_if (0 <? c_startup c) KStartup;
  let! shutdown <- alloc_if (0 <? c_shutdown c) KShutdown;
  let! reset <- alloc_if (0 <? c_reset c) KReset;
  let! present <- alloc_if (0 <? c_present c) KPresent;
  let! abbreviated <- alloc_if (0 <? c_present c) KAbbreviated;
  let! watchdogs <- alloc_if (0 <? c_watchdogs c) KWatchdogs;
  let! event_q <- pqueue_init;
  let! recycle_q <- pqueue_init;
  let! threads <- alloc_if (match c_threaded c with Some _ => true | None => false end) KThreads;
  let! reaction_q <- (match c_threaded c with Some _ => ret None | None => let! q <- pqueue_init; ret (Some q) end);
  let! ms <- (if c_modal c && (0 <? c_modes c) then
                let! m <- alloc KModes;
                let! states <- alloc KModeStates;
                let! resets <- alloc_if (0 <? c_resets c) KResets;
                ret (Some (mkModes m states resets))
              else ret None);
  let! intended <- alloc_if (c_decentralized c && (0 <? c_present c)) KIntended;
  let! s <- (match c_threaded c with Some (k, w) => let! s <- sched_init k w; ret (Some s) | None => ret None end);
  ret (mkEnv name timers startup shutdown reset present abbreviated watchdogs event_q recycle_q threads s reaction_q
         ms intended [] []).

(** core/environment.c:178-193 [environment_free] with 138-173 *)
Definition environment_free (e : environment) : M unit :=
  free_opt (e_name e);;
  free_opt (e_timers e);;
  free_opt (e_startup e);;
  free_opt (e_shutdown e);;
  free_opt (e_reset e);;
  free_opt (e_present e);;
  free_opt (e_abbreviated e);;
  pqueue_tag_free (e_event_q e) [];;
  pqueue_tag_free (e_recycle_q e) [];;
  free_opt (e_threads e);;
  match e_sched e with Some s => sched_free s | None => ret tt end;;
  match e_reaction_q e with Some q => pqueue_free q | None => ret tt end;;
  match e_modes e with
  | Some m => touch (m_struct m);; free (m_states m);; free_opt (m_resets m);; free (m_struct m)
  | None => ret tt
  end;;
  free_opt (e_intended e).

(** ** The life of a program. *)
(** The environments, the reactors (the head of [_lf_reactors_to_free] first), the
    list of suspended events (node and event) and the list of unused nodes. *)
Record program := mkProgram {
  p_envs : list environment;
  p_reactors : list reactor;
  p_suspended : list (nat * nat);
  p_unused : list nat }.

Inductive op :=
| NewReactor (first : bool) (watchdogs : nat)
| Allocate (reactor : nat)          (* lf_allocate for the reactor with that position *)
| NewEvent (env : nat)              (* lf_get_new_event and insertion into the event queue *)
| HandleEvent (env : nat)           (* the first event is popped and recycled *)
| Suspend (env : nat)               (* an event goes to the list of suspended events *)
| Resume (env : nat).               (* the first suspended event goes back to the event queue *)

Fixpoint update {A} (i : nat) (f : A -> A) (l : list A) : list A :=
  match l, i with
  | [], _ => []
  | a :: r, O => f a :: r
  | a :: r, S i => a :: update i f r
  end.
Definition with_events (l : list nat) (e : environment) : environment :=
  mkEnv (e_name e) (e_timers e) (e_startup e) (e_shutdown e) (e_reset e) (e_present e) (e_abbreviated e) (e_watchdogs e)
    (e_event_q e) (e_recycle_q e) (e_threads e) (e_sched e) (e_reaction_q e) (e_modes e) (e_intended e) l (e_recycled e).
Definition with_recycled (l : list nat) (e : environment) : environment :=
  mkEnv (e_name e) (e_timers e) (e_startup e) (e_shutdown e) (e_reset e) (e_present e) (e_abbreviated e) (e_watchdogs e)
    (e_event_q e) (e_recycle_q e) (e_threads e) (e_sched e) (e_reaction_q e) (e_modes e) (e_intended e) (e_events e) l.
Definition with_allocations (a : records) (r : reactor) : reactor :=
  mkReactor (r_self r) (r_record r) a (r_mutex r) (r_watchdogs r) (r_first r).

(** core/reactor_common.c:339-352 [lf_get_new_event] *)
Definition lf_get_new_event (e : environment) : M (nat * environment) :=
  match e_recycled e with
  | p :: r => ret (p, with_recycled r e)
  | [] => let! p <- alloc KEvent; ret (p, e)
  end.

Definition step (o : op) (p : program) : M program :=
  match o with
  | NewReactor first w =>
    let! r <- lf_new_reactor first w;
    ret (mkProgram (p_envs p) (r :: p_reactors p) (p_suspended p) (p_unused p))
  | Allocate i =>
    match nth_error (p_reactors p) i with
    | None => ret p
    | Some r =>
      touch (r_self r);;
      let! x <- lf_allocate KOwned (r_allocations r);
      ret (mkProgram (p_envs p) (update i (with_allocations (snd x)) (p_reactors p)) (p_suspended p) (p_unused p))
    end
  | NewEvent i =>
    match nth_error (p_envs p) i with
    | None => ret p
    | Some e =>
      let! x <- lf_get_new_event e;
      ret (mkProgram (update i (fun _ => with_events (fst x :: e_events (snd x)) (snd x)) (p_envs p))
             (p_reactors p) (p_suspended p) (p_unused p))
    end
  | HandleEvent i =>
    match nth_error (p_envs p) i with
    | None => ret p
    | Some e =>
      match e_events e with
      | [] => ret p
      | v :: r =>
        touch v;;
        ret (mkProgram (update i (fun _ => with_recycled (v :: e_recycled e) (with_events r e)) (p_envs p))
               (p_reactors p) (p_suspended p) (p_unused p))
      end
    end
  | Suspend i =>
    match nth_error (p_envs p) i with
    | None => ret p
    | Some e =>
      match e_events e with
      | [] => ret p
      | v :: r =>
        (* core/modal_models/modes.c:77-91 [_lf_add_suspended_event] *)
        let! n <- (match p_unused p with n :: _ => ret n | [] => alloc KNode end);
        touch n;;
        ret (mkProgram (update i (with_events r) (p_envs p)) (p_reactors p) ((n, v) :: p_suspended p) (tl (p_unused p)))
      end
    end
  | Resume i =>
    match nth_error (p_envs p) i, p_suspended p with
    | Some e, (n, v) :: r =>
      (* core/modal_models/modes.c:97-126 [_lf_remove_suspended_event] *)
      touch n;;
      ret (mkProgram (update i (with_events (v :: e_events e)) (p_envs p)) (p_reactors p) r (n :: p_unused p))
    | _, _ => ret p
    end
  end.
Fixpoint run (os : list op) (p : program) : M program :=
  match os with [] => ret p | o :: os => let! p <- step o p; run os p end.

(** core/modal_models/modes.c:520-539 [_lf_terminate_modal_reactors]: the events are
    recycled in the environment given *)
Definition terminate_modal (p : program) : M program :=
  each_ (fun x => touch (fst x);; touch (snd x);; free (fst x)) (p_suspended p);;
  each_ (fun n => touch n;; free n) (p_unused p);;
  ret (mkProgram (match p_envs p with
                  | [] => []
                  | e :: r => with_recycled (map snd (p_suspended p) ++ e_recycled e) e :: r
                  end) (p_reactors p) [] []).

(** The watchdogs of an environment lead to the reactors that have them
    ([watchdog->base]). *)
Definition watchdog_bases (l : list reactor) : list reactor :=
  flat_map (fun r => repeat r (if r_first r then r_watchdogs r else 0)) l.

(** core/reactor_common.c:1132-1222 [termination], after a normal termination, without
    the reports and the tokens.  [threaded]: not LF_SINGLE_THREADED.  The mutexes of
    the watchdogs are freed for the first environment. *)
Definition termination (modal threaded : bool) (p : program) : M unit :=
  let! p <- (if modal then terminate_modal p else ret p);
  (if threaded then
     each_ (fun r => touch (r_self r);; free_opt (r_mutex r)) (watchdog_bases (p_reactors p))
   else ret tt);;
  lf_free_all_reactors (p_reactors p);;
  each_ environment_free (p_envs p).

(** From start to end. *)
Definition life (modal threaded : bool) (envs : list config) (os : list op) : M unit :=
  let! es <- each environment_init envs;
  let! p <- run os (mkProgram es [] [] []);
  termination modal threaded p.
