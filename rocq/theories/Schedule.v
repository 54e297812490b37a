(** Model of lib/schedule.c and of the scheduling half of core/reactor_common.c.

    The event queue is the list of pending events in no particular order: C10 shows
    that the tag queue behaves as such a collection, with [find_equal_same_tag] a
    membership test.  Event structs and their recycling queue are left out (an event is
    a value).  The caller holds the environment's mutex, so a call is atomic.
    [ndebug] says whether the runtime is compiled with NDEBUG; [now] is the value
    returned by lf_time_physical() during the call. *)
From Verif Require Import Base Tag Pqueue Token.
Open Scope Z_scope.

(** lf_types.h:68-70 *)
Inductive policy := PDefer | PDrop | PReplace.
(** lf_types.h:208-248 [trigger_t], the fields used for scheduling.  A trigger starts with
    its token template, so trigger number [n] owns template [n] of the token store. *)
Record trig := mkTrig { tg_timer : bool; tg_phys : bool; tg_offset : Z; tg_period : Z; tg_policy : policy; tg_last : tag }.
(** lf_types.h:196-203 [event_t]; no trigger means a dummy event. *)
Record event := mkEv { ev_tag : tag; ev_trig : option nat; ev_tok : option nat }.
(** environment.h: the part of environment_t used here. *)
Record env := mkEnv { e_cur : tag; e_stop : tag; e_q : list event; e_tr : nat -> trig; e_handle : Z; e_tok : tst; e_started : bool }.

Definition with_tok e s := mkEnv (e_cur e) (e_stop e) (e_q e) (e_tr e) (e_handle e) s (e_started e).
Definition with_q e q := mkEnv (e_cur e) (e_stop e) q (e_tr e) (e_handle e) (e_tok e) (e_started e).
Definition with_handle e h := mkEnv (e_cur e) (e_stop e) (e_q e) (e_tr e) h (e_tok e) (e_started e).
Definition with_cur e t := mkEnv t (e_stop e) (e_q e) (e_tr e) (e_handle e) (e_tok e) (e_started e).
Definition with_stop e t := mkEnv (e_cur e) t (e_q e) (e_tr e) (e_handle e) (e_tok e) (e_started e).
Definition with_last e n t :=
  let g := e_tr e n in
  mkEnv (e_cur e) (e_stop e) (e_q e) (upd (e_tr e) n (mkTrig (tg_timer g) (tg_phys g) (tg_offset g) (tg_period g) (tg_policy g) t))
    (e_handle e) (e_tok e) (e_started e).

(** reactor_common.c:224-227 [lf_is_tag_after_stop_tag] *)
Definition after_stop (e : env) (t : tag) : bool := 0 <? tag_compare t (e_stop e).
(** microstep++ on a uint32_t *)
Definition bump (t : tag) : tag := mkTag (ttime t) ((tmicro t + 1) mod two32).
(** environment.c:30-32 [event_matches] with pqueue_tag_find_equal_same_tag *)
Definition opt_nat_eqb (a b : option nat) : bool := opt_eqb a b.
Definition same_ev (tr : option nat) (t : tag) (v : event) : bool := opt_nat_eqb (ev_trig v) tr && (tag_compare (ev_tag v) t =? 0).
Definition find_ev (q : list event) (tr : option nat) (t : tag) : option event := find (same_ev tr t) q.

(** token->ref_count++ when the token is not NULL *)
Definition hold_opt (s : tst) (o : option nat) : res tst :=
  match o with None => Ok s | Some t => write_tok s t (fun k => with_ref k ((tk_ref k + 1) mod two64)) end.
Definition release (e : env) (o : option nat) : res env := do! r <- done_using (e_tok e) o; Ok (with_tok e (fst r)).

(** schedule.c:194-199: the microstep is incremented until no event of the trigger has the
    tag.  Running out of fuel stands for not terminating. *)
Fixpoint first_free (fuel : nat) (q : list event) (tr : nat) (t : tag) : res tag :=
  match find_ev q (Some tr) t with
  | None => Ok t
  | Some _ => match fuel with O => UB | S f => first_free f q tr (bump t) end
  end.

(** reactor_common.c:473-480 [lf_replace_token] on the (first) event found. *)
Fixpoint set_ev_tok (q : list event) (tr : option nat) (t : tag) (o : option nat) : list event :=
  match q with
  | [] => []
  | v :: r => if same_ev tr t v then mkEv (ev_tag v) (ev_trig v) o :: r else v :: set_ev_tok r tr t o
  end.
Definition replace_ev_token (e : env) (v : event) (tr : option nat) (t : tag) (o : option nat) : res env :=
  do! e1 <- (if opt_eqb (ev_tok v) o then Ok e else release e (ev_tok v));
  Ok (with_q e1 (set_ev_tok (e_q e1) tr t o)).

(** schedule.c:320-327: handle++, reset to 1 when negative.  The increment of an int at
    INT_MAX is undefined. *)
Definition INT_MAX : Z := 2147483647.
Definition take_handle (e : env) : res (env * Z) :=
  if e_handle e <? INT_MAX then Ok (with_handle e (if e_handle e + 1 <? 0 then 1 else e_handle e + 1), e_handle e) else UB.
Definition insert_ev (e : env) (v : event) : env := with_q e (v :: e_q e).

(** schedule.c:176-183 and 264-272 (absent with NDEBUG). *)
Definition clamp_now (ndebug : bool) (e : env) (t : tag) : tag :=
  if negb ndebug && (ttime t <? ttime (e_cur e)) then mkTag (ttime (e_cur e)) (tmicro t) else t.

(** schedule.c:259-330, the common tail. *)
Definition sched_finish (ndebug : bool) (e : env) (tr : nat) (t : tag) (tok : option nat) : res (env * Z) :=
  let t1 := clamp_now ndebug e t in
  let t2 := if tag_compare t1 (e_cur e) =? 0 then bump t1 else t1 in
  if after_stop e t2 then do! e1 <- release e tok; Ok (e1, 0)
  else take_handle (insert_ev (with_last e tr t2) (mkEv t2 (Some tr) tok)).

(** schedule.c:110-330 [lf_schedule_trigger] *)
Definition sched (ndebug : bool) (now : Z) (e : env) (otr : option nat) (extra : Z) (tok : option nat) : res (env * Z) :=
  if after_stop e (e_cur e) then do! e1 <- release e tok; Ok (e1, 0)
  else
    let extra := if extra <? 0 then 0 else extra in
    do! s1 <- hold_opt (e_tok e) tok;
    let e := with_tok e s1 in
    match otr with
    | None => do! e1 <- release e tok; Ok (e1, 0)
    | Some tr =>
      let g := e_tr e tr in
      do! delay <- (if tg_timer g then Ok extra else c_add64 extra (tg_offset g));
      do! t <- (if tg_phys g then do! x <- c_add64 now delay; Ok (mkTag x 0)
                else Ok (clamp_now ndebug e (delay_tag (e_cur e) delay)));
      if tg_period g <=? 0 then
        match find_ev (e_q e) (Some tr) t with
        | Some _ =>
            do! t2 <- first_free (length (e_q e)) (e_q e) tr t;
            if after_stop e t2 then Ok (e, 0)
            else Ok (insert_ev (with_last e tr t2) (mkEv t2 (Some tr) tok), 0)
        | None => sched_finish ndebug e tr t tok
        end
      else if negb (tg_timer g) && negb (ttime (tg_last g) =? NEVER) then
        do! earliest <- c_add64 (ttime (tg_last g)) (tg_period g);
        if ttime t <? earliest then
          match tg_policy g with
          | PDrop => do! e1 <- release e tok; Ok (e1, 0)
          | PReplace =>
              match find_ev (e_q e) (Some tr) (tg_last g) with
              | Some v => do! e1 <- replace_ev_token e v (Some tr) (tg_last g) tok; Ok (e1, 0)
              | None => sched_finish ndebug e tr (mkTag earliest 0) tok
              end
          | PDefer => sched_finish ndebug e tr (mkTag earliest 0) tok
          end
        else sched_finish ndebug e tr t tok
      else sched_finish ndebug e tr t tok
    end.

(** reactor_common.c:482-560 [_lf_schedule_at_tag] *)
Definition sched_at (e : env) (tr : nat) (t : tag) (tok : option nat) : res (env * Z) :=
  if (tag_compare t (e_cur e) <=? 0) && e_started e then Ok (e, -1)
  else
    do! s1 <- hold_opt (e_tok e) tok;
    let e := with_tok e s1 in
    if after_stop e t then do! e1 <- release e tok; Ok (e1, -1)
    else
      match find_ev (e_q e) (Some tr) t with
      | None => take_handle (insert_ev e (mkEv t (Some tr) tok))
      | Some v =>
          match tg_policy (e_tr e tr) with
          | PDrop => do! e1 <- (if opt_eqb (ev_tok v) tok then Ok e else release e tok); Ok (e1, 0)
          | PReplace => do! e1 <- replace_ev_token e v (Some tr) t tok; Ok (e1, 0)
          | PDefer =>
              let t2 := bump t in
              if after_stop e t2 then Ok (e, 0) else take_handle (insert_ev e (mkEv t2 (Some tr) tok))
          end
      end.

(** schedule.c:21-86: the user calls.  [tr] is the action's trigger and template; the
    payload [d] is memory the caller owns (value) or is copied from (copy).  An action
    is its own template; its element size must be sizeof(int) for lf_schedule_int. *)
Definition sched_value (ndebug : bool) (now : Z) (e : env) (tr : nat) (extra : Z) (d : list Z) (len : Z) : res (env * Z) :=
  if len <? 0 then Ok (e, -1)
  else
    let (s1, p) := alloc_pay (e_tok e) d in
    do! r <- initialize_token_with_value s1 tr p len;
    sched ndebug now (with_tok e (fst r)) (Some tr) extra (Some (snd r)).
Definition sched_int (ndebug : bool) (now : Z) (e : env) (tr : nat) (extra : Z) (v : Z) : res (env * Z) :=
  if negb (tp_esz (ts_tmpl (e_tok e) tr) =? 4) then Ok (e, -1) else sched_value ndebug now e tr extra [v] 1.
Definition sched_copy (ndebug : bool) (now : Z) (e : env) (tr : nat) (extra : Z) (src : option (list Z)) : res (env * Z) :=
  match src with
  | None => sched ndebug now e (Some tr) extra None
  | Some d => if tp_esz (ts_tmpl (e_tok e) tr) <=? 0 then Ok (e, -1)
              else sched_value ndebug now e tr extra d (Z.of_nat (length d))
  end.
