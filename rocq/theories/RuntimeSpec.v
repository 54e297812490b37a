(** Specification vocabulary for C25, C27, C28. *)
From Verif Require Import Base Tag TagSpec Pqueue Token Schedule ScheduleSpec Runtime.
Open Scope Z_scope.

(** Between tags: pending events are in the future, the current tag is not past the stop tag. *)
Definition sound (s : rt) : Prop :=
  future_queue (r_env s) /\ tag_le (e_cur (r_env s)) (e_stop (r_env s)) /\ tag_ok (e_cur (r_env s)) /\ tag_ok (e_stop (r_env s)) /\
  e_started (r_env s) = true.
(** Timers are never physical. *)
Definition timers_logical (e : env) : Prop := forall tr, tg_timer (e_tr e tr) = true -> tg_phys (e_tr e tr) = false.

(** Discipline of one action: a schedule call is in the range where C21 applies; a stop request is not made at the
    last microstep. *)
Definition act_ok (nd : bool) (s : rt) (a : uact) : Prop :=
  match a with
  | ASched now tr extra tok => sched_ok nd now (r_env s) tr extra
  | ASet _ => True
  | AStop => tmicro (e_cur (r_env s)) < UINT_MAX
  end.
Fixpoint acts_ok (P : prog) (nd : bool) (s : rt) (l : list uact) : Prop :=
  match l with [] => True | a :: r => act_ok nd s a /\ forall s1, act P nd s a = Ok s1 -> acts_ok P nd s1 r end.
(** Machine ranges when a step begins: pending tags are representable and not at time FOREVER; the current microstep is not the last one. *)
Definition in_range (s : rt) : Prop :=
  (forall v, In v (e_q (r_env s)) -> tag_ok (ev_tag v) /\ NEVER < ttime (ev_tag v) < FOREVER) /\ tmicro (e_cur (r_env s)) < UINT_MAX.
Fixpoint loop_ok (P : prog) (kp nd : bool) (s : rt) (steps : list turn) : Prop :=
  match steps with
  | [] => True
  | TIntr l :: r => in_range s /\
      let e := r_env s in
      let e1 := match min_tag (e_q e) with None => if kp then e else set_stop e (bump (e_cur e)) | Some _ => e end in
      acts_ok P nd (rt_env s e1) l /\ forall s1, acts P nd (rt_env s e1) l = Ok s1 -> loop_ok P kp nd s1 r
  | TStep now l :: r => in_range s /\
      forall s1 evs down, enter P kp nd now s = Ok (Some (s1, evs, down)) ->
        acts_ok P nd s1 l /\ forall s2, acts P nd s1 l = Ok s2 -> loop_ok P kp nd s2 r
  end.

(** Tags of a trace strictly increase, starting after [t]. *)
Fixpoint increasing (t : tag) (l : list line) : Prop :=
  match l with [] => True | x :: r => tag_lt t (l_tag x) /\ increasing (l_tag x) r end.

(** Periodic timers' status is not one of the fields that are reset. *)
Definition timer_fields_apart (P : prog) (e : env) : Prop :=
  forall tr, tg_timer (e_tr e tr) = true -> 0 < tg_period (e_tr e tr) -> ~ In (p_field P tr) (p_all P).
(** The field of the trigger of some event of the list. *)
Definition triggered_field (P : prog) (evs : list event) (f : nat) : Prop :=
  exists v tr, In v evs /\ ev_trig v = Some tr /\ p_field P tr = f.

(** States a program can be in: it starts with nothing present; then reactions act, and new tags are entered. *)
Inductive reach (P : prog) (kp nd : bool) : rt -> Prop :=
| reach_init e : e_started e = true -> timer_fields_apart P e -> reach P kp nd (mkRt e (fun _ => false) [] 0)
| reach_acts s l s' : reach P kp nd s -> acts P nd s l = Ok s' -> reach P kp nd s'
| reach_enter now s s' evs down : reach P kp nd s -> enter P kp nd now s = Ok (Some (s', evs, down)) -> reach P kp nd s'.

(** Well-formed start: empty queue, start time in range, timers logical with non-negative offset and period. *)
Definition main_ok (P : prog) (kp nd : bool) (e : env) (start duration : Z) (l0 : list uact) (steps : list turn) : Prop :=
  e_q e = [] /\ NEVER < start < FOREVER /\ timers_logical e /\
  (forall tr, In tr (p_timers P) -> 0 <= tg_offset (e_tr e tr) /\ 0 <= tg_period (e_tr e tr)) /\
  (forall e1 e2, init_tags e start duration = Ok e1 -> init_timers e1 (p_timers P) = Ok e2 ->
     let s0 := mkRt (start_exec e2) (fun _ => false) [] 0 in
     acts_ok P nd s0 l0 /\ forall s, acts P nd s0 l0 = Ok s -> loop_ok P kp nd s steps).
