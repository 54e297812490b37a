(** Specification vocabulary for C21-C24: what a schedule call may do to the event queue. *)
From Verif Require Import Base Tag TagSpec Pqueue Token Schedule.
From Coq Require Import Arith.
Open Scope Z_scope.

(** An event is identified by its action and its tag. *)
Definition key (v : event) : option nat * tag := (ev_trig v, ev_tag v).
Definition keys (q : list event) : list (option nat * tag) := map key q.

(** The queue got exactly one new event. *)
Definition inserted (e e' : env) (v : event) : Prop := e_q e' = v :: e_q e.
(** Exactly one pending event of [tr], at tag [t], got the value [tok]; nothing else changed. *)
Definition revalued (e e' : env) (tr : nat) (t : tag) (tok : option nat) : Prop :=
  exists a v b, e_q e = a ++ v :: b /\ key v = (Some tr, t) /\ e_q e' = a ++ mkEv t (Some tr) tok :: b.

(** The delay from now: negative extra delays count as zero; the offset of an action is its minimum delay. *)
Definition total_delay (g : trig) (extra : Z) : Z := Z.max 0 extra + (if tg_timer g then 0 else tg_offset g).
(** An action with a minimum spacing. *)
Definition spaced (g : trig) : Prop := 0 < tg_period g /\ tg_timer g = false.

(** The situations in which C21 holds.  Current tag: an ordinary time.  Pending events
    are in the future.  Logical actions and timers: non-negative minimum delay, and the microstep
    counter is not about to wrap.  Physical actions: the clock reading plus the delay
    is after the current time, or is clamped/equal to it while the microstep is zero. *)
Definition future_queue (e : env) : Prop := forall v, In v (e_q e) -> tag_lt (e_cur e) (ev_tag v).
Definition sched_ok (nd : bool) (now : Z) (e : env) (tr : nat) (extra : Z) : Prop :=
  let g := e_tr e tr in
  tag_ok (e_cur e) /\ NEVER < ttime (e_cur e) < FOREVER /\ future_queue e /\
  (tg_timer g = false -> 0 <= tg_offset g) /\
  (if tg_phys g
   then ttime (e_cur e) < now + total_delay g extra \/
        (tmicro (e_cur e) = 0 /\ (ttime (e_cur e) = now + total_delay g extra \/ nd = false))
   else tmicro (e_cur e) + Z.of_nat (length (e_q e)) + 1 <= UINT_MAX).

(** Histories: schedule calls (at any clock readings), messages at explicit tags, the runtime
    moving to a later tag and removing the events there, and stop requests. *)
Inductive sop := Sched (now : Z) (tr : nat) (extra : Z) (tok : option nat)
              | At (tr : nat) (t : tag) (tok : option nat)
              | Advance (t : tag) | Stop (t : tag).
Definition sstep (nd : bool) (e : env) (o : sop) : res (env * Z) :=
  match o with
  | Sched now tr extra tok => sched nd now e (Some tr) extra tok
  | At tr t tok => sched_at e tr t tok
  | Advance t => Ok (with_q (with_cur e t) (filter (fun v => negb (tag_compare (ev_tag v) t =? 0)) (e_q e)), 0)
  | Stop t => Ok (if tag_compare t (e_stop e) <? 0 then with_stop e t else e, 0)
  end.
Fixpoint srun (nd : bool) (e : env) (os : list sop) : res env :=
  match os with [] => Ok e | o :: r => do! p <- sstep nd e o; srun nd (fst p) r end.

(** The event a step added, seen from outside, and the tags a history gives to the events of
    [tr], oldest first. *)
Definition new_event (e e' : env) : option event :=
  if (length (e_q e) <? length (e_q e'))%nat then hd_error (e_q e') else None.
Fixpoint tags_given (nd : bool) (tr : nat) (e : env) (os : list sop) : list tag :=
  match os with
  | [] => []
  | o :: r =>
      match sstep nd e o with
      | Ok (e', _) =>
          match new_event e e' with
          | Some v => if opt_eqb (ev_trig v) (Some tr) then [ev_tag v] else []
          | None => []
          end ++ tags_given nd tr e' r
      | UB => []
      end
  end.
(** Every two events are at least [s] apart, the later-scheduled one later. *)
Inductive apart (s : Z) : list tag -> Prop :=
| apart_nil : apart s []
| apart_cons t l : (forall u, In u l -> ttime t + s <= ttime u) -> apart s l -> apart s (t :: l).

(** Discipline for histories.  Spacing: clock readings are not before time zero; messages
    at explicit tags go to other actions (the runtime uses them for network inputs only). *)
Definition spacing_op (tr : nat) (e : env) (o : sop) : Prop :=
  match o with
  | Sched now t extra tok => t = tr -> 0 <= now /\ 0 <= ttime (e_cur e) /\ 0 <= tg_offset (e_tr e tr)
  | At t _ _ => t <> tr
  | Advance t => tag_lt (e_cur e) t
  | Stop t => True
  end.
Fixpoint spacing_run (nd : bool) (tr : nat) (e : env) (os : list sop) : Prop :=
  match os with
  | [] => True
  | o :: r => spacing_op tr e o /\ forall e' h, sstep nd e o = Ok (e', h) -> spacing_run nd tr e' r
  end.

(** Uniqueness: in addition a physical action's tag is strictly after the current time, a timer is
    rescheduled only when it has no pending event (the runtime does so after removing it), a message
    at an explicit tag does not find both that tag and the next microstep taken, and the runtime
    does not skip events. *)
Definition unique_op (nd : bool) (e : env) (o : sop) : Prop :=
  match o with
  | Sched now tr extra tok =>
      let g := e_tr e tr in
      sched_ok nd now e tr extra /\ 0 <= ttime (e_cur e) /\ 0 <= now /\
      (tg_phys g = true -> ttime (e_cur e) < now + total_delay g extra) /\
      (0 < tg_period g -> tg_timer g = true -> forall t, ~ In (Some tr, t) (keys (e_q e)))
  | At tr t tok =>
      tag_ok t /\ tmicro t < UINT_MAX /\ tg_period (e_tr e tr) <= 0 /\ tag_lt (e_cur e) t /\
      (In (Some tr, t) (keys (e_q e)) -> ~ In (Some tr, mkTag (ttime t) (tmicro t + 1)) (keys (e_q e)))
  | Advance t => tag_ok t /\ tag_lt (e_cur e) t /\ ttime t < FOREVER /\ forall v, In v (e_q e) -> tag_le t (ev_tag v)
  | Stop t => True
  end.
Fixpoint unique_run (nd : bool) (e : env) (os : list sop) : Prop :=
  match os with
  | [] => True
  | o :: r => unique_op nd e o /\ forall e' h, sstep nd e o = Ok (e', h) -> unique_run nd e' r
  end.

(** Tokens held by pending events. *)
Definition queue_tokens (q : list event) : list nat :=
  flat_map (fun v => match ev_tok v with Some t => [t] | None => [] end) q.
