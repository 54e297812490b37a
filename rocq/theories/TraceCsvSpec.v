(** What a converted trace and its summary should say (C76). *)
From Verif Require Import Base TraceFile TraceCsv.
Open Scope Z_scope.

(** The records asked for with the options -s and -e. *)
Definition in_window (start from until : Z) (e : entry) : bool := (from <=? logical_time e - start) && (logical_time e - start <? until).

(** One row per record, with the names registered for the reactor and the trigger. *)
Definition reactor_name (table : list object) (p : Z) : label :=
  match find (fun o => o_pointer o =? p) table with Some o => Named (o_description o) | None => NoReactor end.
Definition trigger_name (table : list object) (p : Z) : label :=
  match find (fun o => (o_trigger o =? p) && (o_type o =? trace_trigger)) table with Some o => Named (o_description o) | None => NoTrigger end.
Definition row_of (table : list object) (start : Z) (e : entry) : row :=
  mkRow (event_type e) (reactor_name table (pointer e)) (src_id e) (dst_id e) (logical_time e - start) (microstep e) (physical_time e - start)
    (trigger_name table (trigger e)) (extra_delay e).

(** Kinds of records. *)
Definition is_reaction (e : entry) : bool := (event_type e =? reaction_starts) || (event_type e =? reaction_ends).
Definition is_user (e : entry) : bool := (event_type e =? user_event) || (event_type e =? user_value).
Definition is_waiting (e : entry) : bool := (event_type e =? worker_wait_starts) || (event_type e =? worker_wait_ends).
Definition is_advancing (e : entry) : bool := (event_type e =? scheduler_advancing_time_starts) || (event_type e =? scheduler_advancing_time_ends).
Definition starts (e : entry) : bool := (event_type e =? reaction_starts) || (event_type e =? worker_wait_starts) || (event_type e =? scheduler_advancing_time_starts).
(** The executions of reaction [d] of the reactor at [p]; the waits of worker [w] for reactions or for time to advance; the calls
    that schedule the trigger at [p]; the user events at [p]. *)
Definition of_reaction (p d : Z) (e : entry) : bool := is_reaction e && (pointer e =? p) && (dst_id e =? d).
Definition of_worker (w : Z) (advancing : bool) (e : entry) : bool := (if advancing then is_advancing e else is_waiting e) && (src_id e =? w).
Definition of_schedule (p : Z) (e : entry) : bool := (event_type e =? schedule_called) && (trigger e =? p).
Definition of_user (p : Z) (e : entry) : bool := is_user e && (pointer e =? p).

(** Every start is followed by its end, which is later; [open] is the time of a start without an end. *)
Fixpoint paired (open : option Z) (l : list entry) : Prop :=
  match l with
  | [] => True
  | e :: l =>
    match open with
    | None => starts e = true /\ paired (Some (physical_time e)) l
    | Some s => starts e = false /\ s < physical_time e /\ paired None l
    end
  end.
Fixpoint pending (open : option Z) (l : list entry) : option Z :=
  match l with [] => open | e :: l => pending (if starts e then Some (physical_time e) else None) l end.
(** The times from the starts to the ends. *)
Fixpoint durations (open : option Z) (l : list entry) : list Z :=
  match l with
  | [] => []
  | e :: l => if starts e then durations (Some (physical_time e)) l
              else match open with Some s => (physical_time e - s) :: durations None l | None => durations None l end
  end.

Definition total (l : list Z) : Z := fold_right Z.add 0 l.
Definition largest (l : list Z) : Z := match l with [] => 0 | x :: l => fold_left Z.max l x end.
Definition smallest (l : list Z) : Z := match l with [] => 0 | x :: l => fold_left Z.min l x end.
Definition number {A} (l : list A) : Z := Z.of_nat (length l).
Definition measured (f : Z -> Z -> Z -> Z -> Z -> line) (l : list Z) : list line :=
  match l with [] => [] | _ => [f (number l) (total l) (total l / number l) (largest l) (smallest l)] end.

(** The summary of the records [l]. *)
Definition last_time (l : list entry) : Z := fold_right Z.max 0 (map physical_time l).
Definition expected_counts (l : list entry) : list line :=
  flat_map (fun k => match filter (fun e => event_type e =? k) l with [] => [] | es => [LCount k (number es)] end) (range 0 54).
Definition expected_reactions (table : list object) (l : list entry) : list line :=
  flat_map (fun o => if o_type o =? trace_reactor
    then flat_map (fun d => measured (LReaction (Named (o_description o)) d) (durations None (filter (of_reaction (o_pointer o) d) l))) (range 0 64)
    else []) table.
Definition expected_schedules (table : list object) (l : list entry) : list line :=
  flat_map (fun o => if o_type o =? trace_trigger
    then match filter (of_schedule (o_trigger o)) l with [] => [] | es => [LSchedule (Named (o_description o)) (number es)] end
    else []) table.
Definition expected_users (table : list object) (l : list entry) : list line :=
  flat_map (fun o => if o_type o =? trace_user
    then match filter (of_user (o_pointer o)) l with
         | [] => []
         | es => [LUser (Named (o_description o)) (number es)
                   (match map extra_delay (filter (fun e => event_type e =? user_value) es) with
                    | [] => None
                    | vs => Some (total vs, total vs / number vs, largest vs, smallest vs)
                    end)]
         end
    else []) table.
Definition expected_waits (l : list entry) : list line :=
  flat_map (fun w => measured (LWait w false) (durations None (filter (of_worker w false) l)) ++
                     measured (LWait w true) (durations None (filter (of_worker w true) l))) (range 0 32).
Definition expected_summary (table : list object) (start : Z) (l : list entry) : list line :=
  LTimes start (last_time l) (last_time l - start) ::
  expected_counts l ++ expected_reactions table l ++ expected_schedules table l ++ expected_users table l ++ expected_waits l.

(** What is assumed of the table: an address stands for one object, except that the triggers of a reactor are registered after
    it with its address. *)
Definition table_ok (t : list object) : Prop := forall i j oi oj, (i < j)%nat -> nth_error t i = Some oi -> nth_error t j = Some oj ->
  (o_pointer oi = o_pointer oj -> o_type oj = trace_trigger) /\
  (o_type oi = trace_trigger -> o_type oj = trace_trigger -> o_trigger oi <> o_trigger oj).
(** What is assumed of the records: they are about registered objects, ... *)
Definition registered (t : list object) (e : entry) : Prop :=
  (is_reaction e = true -> exists o, In o t /\ o_type o = trace_reactor /\ o_pointer o = pointer e) /\
  (event_type e = schedule_called -> exists o, In o t /\ o_type o = trace_trigger /\ o_trigger o = trigger e) /\
  (is_user e = true -> exists o, In o t /\ o_type o = trace_user /\ o_pointer o = pointer e) /\
  0 <= microstep e < 2 ^ 31.
(** ... starts and ends alternate, with time passing in between, waits have ended, user values are positive and a user event
    either always has a value or never. *)
Definition well_formed (l : list entry) : Prop :=
  (forall p d, paired None (filter (of_reaction p d) l)) /\
  (forall w a, paired None (filter (of_worker w a) l) /\ pending None (filter (of_worker w a) l) = None) /\
  (forall e, In e l -> event_type e = user_value -> 0 < extra_delay e) /\
  (forall e1 e2, In e1 l -> In e2 l -> is_user e1 = true -> is_user e2 = true -> pointer e1 = pointer e2 -> event_type e1 = event_type e2).

(** No number is too large: what is needed for the conversion to be defined. *)
Definition time_ok (z : Z) : Prop := 0 <= z < 2 ^ 63.
Definition in_range (start : Z) (e : entry) : Prop :=
  time_ok (logical_time e) /\ time_ok (physical_time e) /\ 0 <= event_type e < 54 /\
  (is_reaction e = true -> 0 <= dst_id e) /\ (is_waiting e = true \/ is_advancing e = true -> 0 <= src_id e < 32).
Definition sums_ok (l : list entry) : Prop :=
  (forall p d, total (durations None (filter (of_reaction p d) l)) < 2 ^ 63) /\
  (forall w a, total (durations None (filter (of_worker w a) l)) < 2 ^ 63) /\
  (forall p, total (map extra_delay (filter (fun e => event_type e =? user_value) (filter (of_user p) l))) < 2 ^ 63).
