(** Model of the main loop of threaded programs without federation: the tag is advanced by
    [_lf_sched_advance_tag_locked] (core/threaded/scheduler_sync_tag_advance.c:51-79) and
    [_lf_next_locked] (core/threaded/reactor_threaded.c:309-455), which gives up the mutex while it
    waits, so that other threads schedule events and request stops in the meantime.

    One environment.  Environment, events, actions and the handling of a tag are those of Runtime.v.  Each
    constructor of [top] is a part of the code that runs with the mutex of the environment held; it carries the
    reading of the physical clock.  The reactions of a tag run, in any order and on any worker, between the
    entry of the tag and [TDone]; what they do is a sequence of [TAct].  Left out: modes, federation, enclaves and
    the release of the mutex between the two loops of lf_request_stop (C35). *)
From Verif Require Import Base Tag Pqueue Token Schedule Runtime.
Open Scope Z_scope.

(** include/core/reactor_common.h:45 *)
Definition MIN_SLEEP_DURATION : Z := 10000.

(** What the thread that advances the tag is doing: reactions are being executed; it waits in
    lf_clock_cond_timedwait (reactor_threaded.c:213) until the time given; the workers have ended. *)
Inductive phase := Run | Wait (until : Z) | Over.
Record th := mkTh {
  t_rt : rt;
  t_ph : phase;
  t_done : tag;        (* scheduler_sync_tag_advance.c:26 _latest_tag_completed *)
  t_req : bool;        (* reactor_threaded.c:471 lf_stop_requested *)
  t_clk : Z }.         (* the last reading of the physical clock *)

(** A tag that was entered: its line in the trace and the reading of the clock. *)
Record entry := mkEntry { en_line : line; en_clk : Z }.

(** [Fatal] is lf_print_error_and_exit; [Cannot]: the operation is not possible in this state. *)
Inductive reply (A : Type) := Go (a : A) (l : list entry) | Fatal | Cannot.
Arguments Go {A}. Arguments Fatal {A}. Arguments Cannot {A}.

(** reactor_threaded.c:366-379: without events and without keepalive the program stops. *)
Definition starve (kp : bool) (e : env) : env :=
  match min_tag (e_q e) with None => if kp then e else set_stop e (bump (e_cur e)) | Some _ => e end.
(** reactor_threaded.c:241-260 [get_next_event_tag] *)
Definition next_tag (e : env) : tag :=
  let t0 := match min_tag (e_q e) with None => FOREVER_TAG | Some h => h end in
  if after_stop e t0 then e_stop e else t0.

Section Loop.
Variable P : prog.
Variables kp nd fast : bool.

(** reactor_threaded.c:401-454: from the end of the wait to the end of [_lf_next_locked]. *)
Definition finish (now : Z) (s : th) : res (reply th) :=
  let e := r_env (t_rt s) in
  let t := next_tag e in
  if (0 <=? tag_compare t (e_stop e)) && (0 <=? tag_compare (e_cur e) (e_stop e))
  then Ok (Go (mkTh (t_rt s) Run (t_done s) (t_req s) now) [])
  else
    match advance nd e t with
    | None => Ok Fatal
    | Some e2 =>
        let down := 0 <=? tag_compare (e_cur e2) (e_stop e2) in
        do! r <- pop_events P nd now (start_time_step P (rt_env (t_rt s) e2));
        Ok (Go (mkTh (fst r) Run (t_done s) (t_req s) now) [mkEntry (mkLine (e_cur (r_env (fst r))) (snd r) down) now])
    end.
(** reactor_threaded.c:193-230 [wait_until] as called on line 389: wait, or go on. *)
Definition wait_or_finish (now : Z) (s : th) : res (reply th) :=
  let u := ttime (next_tag (r_env (t_rt s))) in
  if fast then finish now s
  else
    do! d <- c_add64 u (- now);
    if d <? MIN_SLEEP_DURATION then finish now s
    else Ok (Go (mkTh (t_rt s) (Wait u) (t_done s) (t_req s) now) []).

Inductive top :=
| TAct (a : uact)                    (* a reaction, or another thread, schedules, sets a port or requests a stop *)
| TDone (now : Z)                    (* the reactions of the tag are finished: _lf_sched_advance_tag_locked *)
| TWake (now : Z) (timeout : bool).  (* lf_clock_cond_timedwait returns *)

(** [TAct]: ports are set by reactions only.  Stop requests: reactor_threaded.c:474-527; after the first they are ignored.
    [TDone]: scheduler_sync_tag_advance.c:51-79 with [should_stop_locked], lines 28-42, and reactor_threaded.c:309-397.
    [TWake]: reactor_threaded.c:389-398.  A wait times out only when its time has come; it may be interrupted at any
    time.  The clock does not go back (C50). *)
Definition tstep (s : th) (o : top) : res (reply th) :=
  match o with
  | TAct a =>
      match a, t_ph s with
      | ASet _, Wait _ => Ok Cannot
      | _, Over => Ok Cannot
      | AStop, _ =>
          if t_req s then Ok (Go s [])
          else do! r <- act P nd (t_rt s) AStop; Ok (Go (mkTh r (t_ph s) (t_done s) true (t_clk s)) [])
      | a, _ => do! r <- act P nd (t_rt s) a; Ok (Go (mkTh r (t_ph s) (t_done s) (t_req s) (t_clk s)) [])
      end
  | TDone now =>
      match t_ph s with
      | Run =>
          if now <? t_clk s then Ok Cannot
          else
            let e := r_env (t_rt s) in
            if (tag_compare (t_done s) (e_cur e) =? 0) && (0 <=? tag_compare (e_cur e) (e_stop e))
            then Ok (Go (mkTh (t_rt s) Over (t_done s) (t_req s) now) [])
            else wait_or_finish now (mkTh (rt_env (t_rt s) (starve kp e)) Run (e_cur e) (t_req s) now)
      | _ => Ok Cannot
      end
  | TWake now timeout =>
      match t_ph s with
      | Wait u =>
          if now <? t_clk s then Ok Cannot
          else if timeout then if now <? u then Ok Cannot else finish now s
          else wait_or_finish now s
      | _ => Ok Cannot
      end
  end.

Fixpoint trun (s : th) (ops : list top) : res (reply th) :=
  match ops with
  | [] => Ok (Go s [])
  | o :: r =>
      do! x <- tstep s o;
      match x with
      | Go s1 l1 =>
          do! y <- trun s1 r;
          Ok (match y with Go s2 l2 => Go s2 (l1 ++ l2) | Fatal => Fatal | Cannot => Cannot end)
      | y => Ok y
      end
  end.

(** reactor_threaded.c:1065-1068 and [_lf_initialize_start_tag], lines 557-659, without federation: the start tag; [now] is the
    reading of the clock that gave the start time (reactor_threaded.c:1020), [d] the value of -o or of the target property. *)
Definition tmain (e : env) (now d : Z) (ops : list top) : res (reply th) :=
  do! e1 <- init_tags e now d;
  do! e2 <- init_timers e1 (p_timers P);
  let down := 0 <=? tag_compare (e_cur e2) (e_stop e2) in
  do! y <- trun (mkTh (mkRt (start_exec e2) (fun _ => false) [] 0) Run NEVER_TAG false now) ops;
  Ok (match y with Go s l => Go s (mkEntry (mkLine (e_cur e2) [] down) now :: l) | Fatal => Fatal | Cannot => Cannot end).
End Loop.
