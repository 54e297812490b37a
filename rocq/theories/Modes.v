(** Model of modal reactors, core/modal_models/modes.c.

    Modal reactors are numbered 0, 1, ..., n - 1 in the order of the array of mode states,
    in which an enclosing reactor comes first; modes and triggers have numbers, too.  An
    event has an identity of its own ([eid]), a trigger ([None] for a dummy event) and a tag.
    Left out: tokens, the state variables that are reset by memcpy (lines 362-373), physical
    actions, minimum spacings. *)
From Verif Require Import Base Tag.

Definition mode := nat.
Inductive change := NoTransition | Reset | History.
Inductive policy := Defer | Drop | Replace.

(** The program: generated and never changed. *)
Record program := mkProgram {
  size : nat;                       (* the number of modal reactors *)
  owner : mode -> nat;              (* reactor_mode_t.state *)
  parent : nat -> option mode;      (* parent_mode *)
  initial : nat -> mode;            (* initial_mode *)
  timers : list nat;                (* env->timer_triggers *)
  tmode : nat -> option mode;       (* trigger_t.mode *)
  is_timer : nat -> bool;
  offset : nat -> Z;
  period : nat -> Z;
  pol : nat -> policy }.

Record ev := mkEv { eid : nat; etrig : option nat; etag : tag }.

Record mflags := mkFlags { act : bool; needs_startup : bool; had_startup : bool; needs_reset : bool }.

Record state := mkState {
  cur : nat -> mode;                (* current_mode *)
  next : nat -> option mode;        (* next_mode *)
  chg : nat -> change;              (* mode_change *)
  flags : mode -> mflags;
  deact : mode -> Z;                (* deactivation_time *)
  q : list ev;                      (* event_q *)
  susp : list ev;                   (* _lf_suspended_events_head *)
  req_startup : bool;               (* triggered_reactions_request *)
  req_reset : bool;
  now : tag;                        (* current_tag *)
  stop : tag;                       (* stop_tag *)
  start : Z;                        (* start_time *)
  fresh : nat }.                    (* the next unused event identity *)

(** What happens to events; the last tag is the current tag. *)
Inductive event :=
| Suspends (id tr : nat) (old at_ : tag)          (* is taken off the event queue *)
| Resumes (id tr : nat) (old new at_ : tag)       (* a history transition puts it on the event queue again *)
| Refused (id tr : nat) (old new at_ : tag)       (* ... refused, as [new] is not in the future *)
| TooLate (id tr : nat) (old new at_ : tag)       (* ... dropped, as [new] is after the stop tag *)
| Merged (id tr : nat) (old new at_ : tag)        (* ... dropped, because of the policy of the action *)
| Overflows (id tr : nat) (old at_ : tag)         (* undefined behaviour: signed overflow in line 405 *)
| Discards (id tr : nat) (old at_ : tag)          (* dropped without a replacement *)
| Restarts (tr : nat) (new at_ : tag)             (* a timer is scheduled anew *)
| Entered (m : mode) (c : change) (at_ : tag).

Definition upd {A} (f : nat -> A) (i : nat) (a : A) : nat -> A := fun j => if Nat.eqb j i then a else f j.

Section Model.
Variable p : program.

Definition in_mode (m : mode) (e : ev) : bool :=
  match etrig e with Some tr => match tmode p tr with Some m' => Nat.eqb m' m | None => false end | None => false end.

(** Lines 137-143 *)
Definition is_active (s : state) (m : option mode) : bool :=
  match m with Some m => act (flags s m) | None => true end.

Definition set_q (s : state) (l : list ev) (f : nat) : state :=
  mkState (cur s) (next s) (chg s) (flags s) (deact s) l (susp s) (req_startup s) (req_reset s) (now s) (stop s) (start s) f.

(** An event of the trigger with this tag, pqueue_tag_find_equal_same_tag *)
Definition found (l : list ev) (tr : nat) (t : tag) : bool :=
  existsb (fun e => match etrig e with Some tr' => Nat.eqb tr' tr | None => false end && (tag_compare (etag e) t =? 0)) l.
Definition bump (t : tag) : tag := mkTag (ttime t) ((tmicro t + 1) mod two32).
Definition push (s : state) (tr : nat) (t : tag) : state := set_q s (mkEv (fresh s) (Some tr) t :: q s) (S (fresh s)).

Inductive result := Put (t : tag) | Past | AfterStop | ByPolicy.
(** [_lf_schedule_at_tag], reactor_common.c:481-558, during the execution *)
Definition schedule_at_tag (s : state) (tr : nat) (t : tag) : state * result :=
  if tag_compare t (now s) <=? 0 then (s, Past)
  else if 0 <? tag_compare t (stop s) then (s, AfterStop)
  else if found (q s) tr t then
    match pol p tr with
    | Drop | Replace => (s, ByPolicy)
    | Defer => let t := bump t in if 0 <? tag_compare t (stop s) then (s, AfterStop) else (push s tr t, Put t)
    end
  else (push s tr t, Put t).

(** The loop in lib/schedule.c:205-209; a tag that is not taken exists among the first
    [length l + 1] candidates. *)
Fixpoint pile_up (fuel : nat) (l : list ev) (tr : nat) (t : tag) : tag :=
  match fuel with O => t | S k => if found l tr t then pile_up k l tr (bump t) else t end.
(** lf_schedule_trigger for a timer without a token, lib/schedule.c:123-320 *)
Definition schedule_timer (s : state) (tr : nat) (delay : Z) : state * option tag :=
  let t := delay_tag (now s) delay in
  let t := if period p tr <=? 0 then pile_up (S (length (q s))) (q s) tr t else t in
  let t := if tag_compare t (now s) =? 0 then bump t else t in
  if 0 <? tag_compare t (stop s) then (s, None) else (push s tr t, Some t).
Definition restart (s : state) (tr : nat) : state * list event :=
  let (s', r) := schedule_timer s tr (offset p tr) in
  (s', match r with Some t => [Restarts tr t (now s)] | None => [] end).

(** Lines 378-416: one suspended event of the mode [m] that is entered *)
Definition wake (m : mode) (c : change) (same : bool) (s : state) (e : ev) : state * list event :=
  match etrig e with
  | None => (s, [])
  | Some tr =>
      match c with
      | Reset =>
          if is_timer p tr then let (s', l) := restart s tr in (s', Discards (eid e) tr (etag e) (now s) :: l)
          else (s, [Discards (eid e) tr (etag e) (now s)])
      | _ =>
          if same then (s, [Discards (eid e) tr (etag e) (now s)])
          else
            let remaining := ttime (etag e) - (if deact s m =? 0 then start s else deact s m) in
            if in_int64b remaining && in_int64b (ttime (now s) + remaining) then
              let t := mkTag (ttime (now s) + remaining) (if remaining =? 0 then (tmicro (now s) + 1) mod two32 else 0) in
              let (s', r) := schedule_at_tag s tr t in
              (s', [match r with
                    | Put u => Resumes (eid e) tr (etag e) u (now s)
                    | Past => Refused (eid e) tr (etag e) t (now s)
                    | AfterStop => TooLate (eid e) tr (etag e) t (now s)
                    | ByPolicy => Merged (eid e) tr (etag e) t (now s)
                    end])
            else (s, [Overflows (eid e) tr (etag e) (now s)])
      end
  end.

(** Apply a function to the elements of a list one after the other. *)
Fixpoint each {A} (f : state -> A -> state * list event) (l : list A) (s : state) : state * list event :=
  match l with
  | [] => (s, [])
  | a :: l => let (s1, e1) := f s a in let (s2, e2) := each f l s1 in (s2, e1 ++ e2)
  end.

(** Lines 344-353 *)
Definition cascade (s : state) (i : nat) : state :=
  match parent p i with
  | Some m =>
      match next s (owner p m), chg s (owner p m) with
      | Some m', Reset =>
          if Nat.eqb m' m then
            mkState (cur s) (upd (next s) i (Some (initial p i))) (upd (chg s) i Reset) (flags s) (deact s) (q s) (susp s) (req_startup s) (req_reset s) (now s) (stop s) (start s) (fresh s)
          else s
      | _, _ => s
      end
  | None => s
  end.
(** Lines 339-426: one iteration of the first loop.  The list of suspended events is walked
    from its head on; scheduling does not change it. *)
Definition enter (s : state) (i : nat) : state * list event :=
  let s := cascade s i in
  match next s i with
  | None => (s, [])
  | Some m =>
      let (s, e0) := match chg s i with
                     | Reset => each (fun s tr => if (period p tr =? 0) && (match tmode p tr with Some m' => Nat.eqb m' m | None => false end) then restart s tr else (s, [])) (timers p) s
                     | _ => (s, [])
                     end in
      let mine := filter (in_mode m) (susp s) in
      let s1 := mkState (cur s) (next s) (chg s) (flags s) (deact s) (q s) (filter (fun e => negb (in_mode m e)) (susp s)) (req_startup s) (req_reset s) (now s) (stop s) (start s) (fresh s) in
      let (s2, e1) := each (wake m (chg s i) (Nat.eqb m (cur s i))) mine s1 in
      (s2, e0 ++ e1)
  end.

(** Lines 432-478: one iteration of the second loop *)
Definition set_flags (s : state) (m : mode) (f : mflags) : state :=
  mkState (cur s) (next s) (chg s) (upd (flags s) m f) (deact s) (q s) (susp s) (req_startup s) (req_reset s) (now s) (stop s) (start s) (fresh s).
Definition set_act (s : state) (m : mode) (b : bool) : state :=
  let f := flags s m in set_flags s m (mkFlags b (needs_startup f) (had_startup f) (needs_reset f)).
Definition switch (s : state) (i : nat) : state * list event :=
  let s := set_act s (cur s i) false in
  let (s, e) :=
    match next s i with
    | None => (s, [])
    | Some m =>
        let f := flags s m in
        let f := mkFlags (act f) (if had_startup f then needs_startup f else true) (had_startup f) (match chg s i with Reset => true | _ => false end) in
        (mkState (upd (cur s) i m) (upd (next s) i None) (upd (chg s) i NoTransition) (upd (flags s) m f)
                 (upd (deact s) (cur s i) (ttime (now s))) (q s) (susp s) (req_startup s) (req_reset s) (now s) (stop s) (start s) (fresh s),
         [Entered m (chg s i) (now s)])
    end in
  let s := if is_active s (parent p i) then
    let s := set_act s (cur s i) true in
    let f := flags s (cur s i) in
    mkState (cur s) (next s) (chg s) (flags s) (deact s) (q s) (susp s) (req_startup s || needs_startup f) (req_reset s || needs_reset f) (now s) (stop s) (start s) (fresh s)
  else s in
  (s, e).

(** Lines 481-507 *)
Definition inactive (s : state) (e : ev) : bool :=
  match etrig e with Some tr => negb (is_active s (tmode p tr)) | None => false end.
Definition retract (s : state) : state * list event :=
  let out := filter (inactive s) (q s) in
  (mkState (cur s) (next s) (chg s) (flags s) (deact s) (filter (fun e => negb (inactive s e)) (q s)) (rev out ++ susp s) (req_startup s) (req_reset s) (now s) (stop s) (start s) (fresh s),
   flat_map (fun e => match etrig e with Some tr => [Suspends (eid e) tr (etag e) (now s)] | None => [] end) out).
(** Lines 509-514 *)
Definition dummy (s : state) : state :=
  if req_startup s || req_reset s then set_q s (mkEv (fresh s) None (bump (now s)) :: q s) (S (fresh s)) else s.

Definition reactors : list nat := seq 0 (size p).
(** [_lf_process_mode_changes], lines 331-514.  The variable [transition] is true if a
    reactor has a next mode after the first loop. *)
Definition process (s : state) : state * list event :=
  let (s, e1) := each enter reactors s in
  if existsb (fun i => match next s i with Some _ => true | None => false end) reactors then
    let (s, e2) := each switch reactors s in
    let (s, e3) := retract s in
    (dummy s, e1 ++ e2 ++ e3)
  else (s, e1).

(** Lines 264-279: the end of [_lf_handle_mode_startup_reset_reactions] *)
Definition started (s : state) (i : nat) : state :=
  let f := flags s (cur s i) in
  if act f then set_flags s (cur s i) (mkFlags (act f) false (had_startup f || needs_startup f) false) else s.
Definition handled (s : state) : state :=
  let s := fold_left started reactors s in
  mkState (cur s) (next s) (chg s) (flags s) (deact s) (q s) (susp s) false false (now s) (stop s) (start s) (fresh s).

Inductive op :=
| SetMode (i : nat) (m : mode) (c : change)   (* lf_set_mode in a reaction of reactor i *)
| Schedule (tr : nat) (t : tag)               (* an event is put on the event queue *)
| Reorder (l : list ev)                       (* the array that holds the event queue changes its order *)
| Advance (t : tag).                          (* the current tag ends, the next one starts *)

(** [None]: not possible *)
Definition step (s : state) (o : op) : option (state * list event) :=
  match o with
  | SetMode i m c =>
      Some (mkState (cur s) (upd (next s) i (Some m)) (upd (chg s) i c) (flags s) (deact s) (q s) (susp s) (req_startup s) (req_reset s) (now s) (stop s) (start s) (fresh s), [])
  | Schedule tr t => Some (push s tr t, [])
  | Reorder l => Some (set_q s l (fresh s), [])
  | Advance t =>
      let (s, e) := process s in
      if (tag_compare (now s) t <? 0) && forallb (fun e => tag_compare t (etag e) <=? 0) (q s) then
        Some (handled (mkState (cur s) (next s) (chg s) (flags s) (deact s) (filter (fun e => negb (tag_compare (etag e) t =? 0)) (q s)) (susp s)
                               (req_startup s) (req_reset s) t (stop s) (start s) (fresh s)), e)
      else None
  end.

(** [_lf_initialize_mode_states], lines 182-196, and [_lf_initialize_timer],
    reactor_common.c:354-369, for the timers of modes that are not active *)
Definition enable (s : state) (i : nat) : state :=
  if is_active s (parent p i) then
    let f := flags s (cur s i) in set_flags s (cur s i) (mkFlags true true (had_startup f) (needs_reset f))
  else s.
Definition init_timer (s : state) (tr : nat) : state * list event :=
  if is_active s (tmode p tr) then (s, [])
  else
    let t := mkTag (ttime (now s) + offset p tr) 0 in
    (mkState (cur s) (next s) (chg s) (flags s) (deact s) (q s) (mkEv (fresh s) (Some tr) t :: susp s) (req_startup s) (req_reset s) (now s) (stop s) (start s) (S (fresh s)),
     [Suspends (fresh s) tr t (now s)]).
Definition init (t0 : Z) (stop : tag) : state * list event :=
  let s := mkState (initial p) (fun _ => None) (fun _ => NoTransition) (fun _ => mkFlags false false false false) (fun _ => 0) [] [] true false (mkTag t0 0) stop t0 0 in
  let s := handled (fold_left enable reactors s) in
  each init_timer (timers p) s.
End Model.
