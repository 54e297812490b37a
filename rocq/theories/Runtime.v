(** Model of the single-threaded main loop: core/reactor.c and the event half of
    core/reactor_common.c.  What the reactions of one tag do is a list of actions (schedule an action,
    set a port, request a stop), so the model covers every program; the order in which reactions
    run within a tag is the model of Reactions.v.  Modes, federation and deadlines are left out.
    [nd] is NDEBUG, [now] the clock reading during the step; [None] is lf_print_error_and_exit. *)
From Verif Require Import Base Tag Pqueue Token Schedule.
Open Scope Z_scope.

(** environment.h:58-61: the fields that record presence.  [p_all] is is_present_fields (ports and
    actions, by field number), [p_field] the status field of a trigger. *)
Record prog := mkProg { p_all : list nat; p_field : nat -> nat; p_timers : list nat }.
Record rt := mkRt { r_env : env; r_pres : nat -> bool; r_abb : list nat; r_cnt : nat }.
Definition rt_env s e := mkRt e (r_pres s) (r_abb s) (r_cnt s).

(** reactor.c:47-56 [lf_set_present] and reactor_common.c:306-311: set the field and record it in the abbreviated list
    while there is room; the counter counts on (an int). *)
Definition mark (P : prog) (s : rt) (f : nat) : res rt :=
  if Z.of_nat (r_cnt s) <? INT_MAX then
    Ok (mkRt (r_env s) (upd (r_pres s) f true)
          (if (r_cnt s <? length (p_all P))%nat then r_abb s ++ [f] else r_abb s) (S (r_cnt s)))
  else UB.

(** reactor_common.c:164-194 [_lf_start_time_step] (token copies and sparse records are in Token.v and Port.v). *)
Definition clear (l : list nat) (p : nat -> bool) : nat -> bool := fold_left (fun p f => upd p f false) l p.
Definition start_time_step (P : prog) (s : rt) : rt :=
  if e_started (r_env s) then
    mkRt (r_env s)
      (clear (if (length (p_all P) <? r_cnt s)%nat then p_all P else firstn (r_cnt s) (r_abb s)) (r_pres s))
      [] 0
  else s.

(** reactor_common.c:145-150 [lf_set_stop_tag] *)
Definition set_stop (e : env) (t : tag) : env := if tag_compare t (e_stop e) <? 0 then with_stop e t else e.
(** reactor.c:280-289 [lf_request_stop] *)
Definition request_stop (e : env) : env := set_stop e (bump (e_cur e)).

(** reactor_common.c:642-674 [_lf_advance_tag] *)
Definition min_tag (q : list event) : option tag :=
  fold_right (fun v o => match o with
                         | None => Some (ev_tag v)
                         | Some t => Some (if tag_compare (ev_tag v) t <=? 0 then ev_tag v else t)
                         end) None q.
Definition advance (nd : bool) (e : env) (t : tag) : option env :=
  let past_head := match min_tag (e_q e) with Some h => 0 <? tag_compare t h | None => false end in
  if negb nd && past_head then None
  else if tag_compare (e_cur e) t <? 0 then Some (with_cur e t) else None.

(** reactor_common.c:235-336, the body of the loop of [_lf_pop_events], for one popped event. *)
Definition pop_one (P : prog) (nd : bool) (now : Z) (s : rt) (v : event) : res rt :=
  match ev_trig v with
  | None => Ok s
  | Some tr =>
      let g := e_tr (r_env s) tr in
      do! s1 <- (if tg_timer g && (0 <? tg_period g)
                 then do! r <- sched nd now (r_env s) (Some tr) (tg_period g) None;
                      Ok (mkRt (fst r) (upd (r_pres s) (p_field P tr) true) (r_abb s) (r_cnt s))
                 else mark P s (p_field P tr));
      do! t1 <- replace_template_token (e_tok (r_env s1)) tr (ev_tok v);
      do! t2 <- done_using t1 (ev_tok v);
      Ok (rt_env s1 (with_tok (r_env s1) (fst t2)))
  end.
Fixpoint pop_all (P : prog) (nd : bool) (now : Z) (s : rt) (l : list event) : res rt :=
  match l with [] => Ok s | v :: r => do! s1 <- pop_one P nd now s v; pop_all P nd now s1 r end.
(** reactor_common.c:229-337 [_lf_pop_events]: all events at the current tag leave the queue.  They are removed first
    and handled afterwards; the C code alternates, which makes no difference because handling an event
    looks at the queue only to insert a timer's next event. *)
Definition at_tag (t : tag) (v : event) : bool := tag_compare (ev_tag v) t =? 0.
Definition pop_events (P : prog) (nd : bool) (now : Z) (s : rt) : res (rt * list event) :=
  let e := r_env s in
  let evs := filter (at_tag (e_cur e)) (e_q e) in
  do! s1 <- pop_all P nd now (rt_env s (with_q e (filter (fun v => negb (at_tag (e_cur e) v)) (e_q e)))) evs;
  Ok (s1, evs).

(** reactor.c:219-277 [next], up to the call of [_lf_do_step], when the wait is not interrupted.
    The result: new state, the events processed, and whether shutdown reactions were triggered. *)
Definition enter (P : prog) (kp nd : bool) (now : Z) (s : rt) : res (option (rt * list event * bool)) :=
  let e := r_env s in
  let head := min_tag (e_q e) in
  let e1 := match head with None => if kp then e else set_stop e (bump (e_cur e)) | Some _ => e end in
  let t0 := match head with None => FOREVER_TAG | Some h => h end in
  let t := if after_stop e1 t0 then e_stop e1 else t0 in
  match advance nd e1 t with
  | None => Ok None
  | Some e2 =>
      let down := 0 <=? tag_compare (e_cur e2) (e_stop e2) in
      do! r <- pop_events P nd now (start_time_step P (rt_env s e2));
      Ok (Some (fst r, snd r, down))
  end.

(** What reactions may do. *)
Inductive uact := ASched (now : Z) (tr : nat) (extra : Z) (tok : option nat) | ASet (f : nat) | AStop.
Definition act (P : prog) (nd : bool) (s : rt) (a : uact) : res rt :=
  match a with
  | ASched now tr extra tok => do! r <- sched nd now (r_env s) (Some tr) extra tok; Ok (rt_env s (fst r))
  | ASet f => mark P s f
  | AStop => Ok (rt_env s (request_stop (r_env s)))
  end.
Fixpoint acts (P : prog) (nd : bool) (s : rt) (l : list uact) : res rt :=
  match l with [] => Ok s | a :: r => do! s1 <- act P nd s a; acts P nd s1 r end.

(** reactor.c:197-201, the result of [_lf_do_step]. *)
Definition continues (s : rt) : bool := negb (0 <=? tag_compare (e_cur (r_env s)) (e_stop (r_env s))).

(** One line of the observable trace: the tag, the events processed, whether shutdown was triggered. *)
Record line := mkLine { l_tag : tag; l_events : list event; l_down : bool }.
(** reactor.c:354-358: the loop.  Each element of [steps] is the clock reading and the actions of one
    tag; [intr] steps are interrupted waits (reactor.c:247-256), during which physical actions may be
    scheduled.  The flag says whether the loop is still running. *)
Inductive turn := TStep (now : Z) (l : list uact) | TIntr (l : list uact).
Fixpoint loop (P : prog) (kp nd : bool) (s : rt) (steps : list turn) : res (option (rt * list line * bool)) :=
  match steps with
  | [] => Ok (Some (s, [], true))
  | TIntr l :: r =>
      let e := r_env s in
      let e1 := match min_tag (e_q e) with None => if kp then e else set_stop e (bump (e_cur e)) | Some _ => e end in
      do! s1 <- acts P nd (rt_env s e1) l; loop P kp nd s1 r
  | TStep now l :: r =>
      do! x <- enter P kp nd now s;
      match x with
      | None => Ok None
      | Some (s1, evs, down) =>
          do! s2 <- acts P nd s1 l;
          let ln := mkLine (e_cur (r_env s1)) evs down in
          if continues s2 then
            do! y <- loop P kp nd s2 r;
            Ok (match y with None => None | Some (s3, tr, b) => Some (s3, ln :: tr, b) end)
          else Ok (Some (s2, [ln], false))
      end
  end.

(** reactor_common.c:354-399 [_lf_initialize_timer] (the triggering of reactions at offset zero is in the trace line
    of the start tag only through its actions). *)
Definition init_timer (e : env) (tr : nat) : res env :=
  let g := e_tr e tr in
  if (tg_offset g =? 0) && (tg_period g =? 0) then Ok e
  else
    do! x <- c_add64 (ttime (e_cur e)) (if tg_offset g =? 0 then tg_period g else tg_offset g);
    Ok (if after_stop e (mkTag x 0) then e else insert_ev e (mkEv (mkTag x 0) (Some tr) None)).
Fixpoint init_timers (e : env) (l : list nat) : res env :=
  match l with [] => Ok e | tr :: r => do! e1 <- init_timer e tr; init_timers e1 r end.
(** environment.c:195-205 [environment_init_tags] *)
Definition init_tags (e : env) (start duration : Z) : res env :=
  do! st <- (if 0 <=? duration then do! x <- c_add64 start duration; Ok (mkTag x 0) else Ok FOREVER_TAG);
  Ok (with_stop (with_cur e (mkTag start 0)) st).
Definition start_exec (e : env) : env := mkEnv (e_cur e) (e_stop e) (e_q e) (e_tr e) (e_handle e) (e_tok e) true.
(** reactor.c:337-360 [lf_reactor_c_main] after the arguments have been processed. *)
Definition main (P : prog) (kp nd : bool) (e : env) (start duration : Z) (l0 : list uact) (steps : list turn) : res (option (rt * list line * bool)) :=
  do! e1 <- init_tags e start duration;
  do! e2 <- init_timers e1 (p_timers P);
  let down := 0 <=? tag_compare (e_cur e2) (e_stop e2) in
  do! s <- acts P nd (mkRt (start_exec e2) (fun _ => false) [] 0) l0;
  let ln := mkLine (e_cur e2) [] down in
  if continues s then
    do! y <- loop P kp nd s steps;
    Ok (match y with None => None | Some (s3, tr, b) => Some (s3, ln :: tr, b) end)
  else Ok (Some (s, [ln], false)).
