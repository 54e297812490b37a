(** Model of util/tracing/trace_to_csv.c: the conversion of a trace to rows and summary statistics, and of the lookups in
    util/tracing/trace_util.c.  Texts are kept as the things they print; percentages (floating point) are left out. *)
From Coq Require Import Arith.
From Verif Require Import Base Net TraceFile.
Open Scope Z_scope.

(** trace/api/types/trace_types.h:18-76 *)
Definition reaction_starts : Z := 0.
Definition reaction_ends : Z := 1.
Definition schedule_called : Z := 3.
Definition user_event : Z := 4.
Definition user_value : Z := 5.
Definition worker_wait_starts : Z := 6.
Definition worker_wait_ends : Z := 7.
Definition scheduler_advancing_time_starts : Z := 8.
Definition scheduler_advancing_time_ends : Z := 9.
Definition NUM_EVENT_TYPES : Z := 54.
(** trace/api/trace.h:22-26 *)
Definition trace_reactor : Z := 0.
Definition trace_trigger : Z := 1.
Definition trace_user : Z := 2.
(** trace_to_csv.c:40-41 *)
Definition MAX_NUM_REACTIONS : Z := 64.
Definition MAX_NUM_WORKERS : Z := 64.

(** Undefined behaviour of the C program: an overflow of a signed integer or an access outside of an array. *)
Inductive outcome (A : Type) := Ok (a : A) | Undefined.
Arguments Ok {A} a.
Arguments Undefined {A}.

Definition fits32 (z : Z) : bool := (- 2 ^ 31 <=? z) && (z <? 2 ^ 31).
Definition fits64 (z : Z) : bool := (- 2 ^ 63 <=? z) && (z <? 2 ^ 63).

(** What is printed for a name. *)
Inductive label := Null | Named (text : list Z) | NoReactor | NoTrigger | EventName (k : Z).

(** trace_util.c:139-153, 164-178: the first entry that fits, and its index; 0 if there is none. *)
Fixpoint lookup (p : object -> bool) (i : Z) (table : list object) : option (object * Z) :=
  match table with
  | [] => None
  | o :: table => if p o then Some (o, i) else lookup p (i + 1) table
  end.
Definition get_object_description (table : list object) (ptr : Z) : label * Z :=
  match lookup (fun o => o_pointer o =? ptr) 0 table with Some (o, i) => (Named (o_description o), i) | None => (Null, 0) end.
Definition get_trigger_name (table : list object) (ptr : Z) : label * Z :=
  match lookup (fun o => (o_trigger o =? ptr) && (o_type o =? trace_trigger)) 0 table with
  | Some (o, i) => (Named (o_description o), i)
  | None => (Null, 0)
  end.
Definition or_else (l d : label) : label := match l with Null => d | _ => l end.

(** trace_to_csv.c:71-88 [reaction_stats_t], [summary_stats_t]; calloc gives [r0] and [s0]. *)
Record rstats := mkR { r_occ : Z; r_start : Z; r_total : Z; r_max : Z; r_min : Z }.
Record stats := mkS { s_event : Z; s_label : label; s_occ : Z; s_seen : Z; s_reactions : Z -> rstats }.
Definition r0 : rstats := mkR 0 0 0 0 0.
Definition s0 : stats := mkS 0 Null 0 0 (fun _ => r0).
Definition upd {A} (f : Z -> A) (i : Z) (a : A) : Z -> A := fun j => if j =? i then a else f j.

(** trace_to_csv.c:123-126, one row of the output; the microstep is printed with %d. *)
Record row := mkRow { w_event : Z; w_reactor : label; w_src : Z; w_dst : Z; w_logical : Z; w_microstep : Z; w_physical : Z; w_trigger : label; w_delay : Z }.

(** The output file, [summary_stats] and [latest_time] (trace_to_csv.c:90-98). *)
Record conv := mkConv { rows : list row; slots : Z -> option stats; latest : Z }.
Definition conv0 : conv := mkConv [] (fun _ => None) 0.

(** A value for an entry: trace_to_csv.c:201-210, and the second half of 169-178 and 244-253. *)
Definition add_value (r : rstats) (start v : Z) : outcome rstats :=
  if fits32 (r_occ r + 1) && fits64 (r_total r + v) then
    Ok (mkR (r_occ r + 1) start (r_total r + v) (if r_max r <? v then v else r_max r) (if (v <? r_min r) || (r_min r =? 0) then v else r_min r))
  else Undefined.
(** trace_to_csv.c:166-179, 241-254: a start or an end at physical time [t]. *)
Definition start_or_end (starts : bool) (r : rstats) (t : Z) : outcome rstats :=
  if starts then Ok (mkR (r_occ r) t (r_total r) (r_max r) (r_min r))
  else if fits64 (t - r_start r) then add_value r 0 (t - r_start r) else Undefined.
(** trace_to_csv.c:260-264 [common stats] after the update of one entry of [reactions]. *)
Definition store (c : conv) (i event : Z) (l : label) (seen j : Z) (s : stats) (r : rstats) : outcome conv :=
  if fits32 (s_occ s + 1) then
    Ok (mkConv (rows c) (upd (slots c) i (Some (mkS event l (s_occ s + 1) seen (upd (s_reactions s) j r)))) (latest c))
  else Undefined.
Definition alloc (c : conv) (i : Z) : conv :=
  match slots c i with Some _ => c | None => mkConv (rows c) (upd (slots c) i (Some s0)) (latest c) end.
Definition slot (c : conv) (i : Z) : stats := match slots c i with Some s => s | None => s0 end.

(** trace_to_csv.c:143-149: the number of events of the type. *)
Definition count_event (c : conv) (k : Z) : outcome conv :=
  let s := slot c k in
  if fits32 (s_occ s + 1) then
    Ok (mkConv (rows c) (upd (slots c) k (Some (mkS k (EventName k) (s_occ s + 1) (s_seen s) (s_reactions s)))) (latest c))
  else Undefined.

(** trace_to_csv.c:151-264; [obj] and [trg] are the indices found, [n] the size of the object table. *)
Definition count_special (n : Z) (e : entry) (obj trg : Z) (name tname : label) (c : conv) : outcome conv :=
  let k := event_type e in
  if (k =? reaction_starts) || (k =? reaction_ends) then
    if MAX_NUM_REACTIONS <=? dst_id e then Ok c
    else if dst_id e <? 0 then Undefined
    else
      let s := slot c (NUM_EVENT_TYPES + obj) in
      match start_or_end (k =? reaction_starts) (s_reactions s (dst_id e)) (physical_time e) with
      | Ok r => store c (NUM_EVENT_TYPES + obj) k name (if s_seen s <=? dst_id e then dst_id e + 1 else s_seen s) (dst_id e) s r
      | Undefined => Undefined
      end
  else if k =? schedule_called then
    if trg <? 0 then Ok c
    else let s := slot c (NUM_EVENT_TYPES + trg) in store c (NUM_EVENT_TYPES + trg) k tname (s_seen s) 0 s (s_reactions s 0)
  else if k =? user_event then
    let s := slot c (NUM_EVENT_TYPES + obj) in store c (NUM_EVENT_TYPES + obj) k name (s_seen s) 0 s (s_reactions s 0)
  else if k =? user_value then
    let s := slot c (NUM_EVENT_TYPES + obj) in
    match add_value (s_reactions s 0) (r_start (s_reactions s 0)) (extra_delay e) with
    | Ok r => store c (NUM_EVENT_TYPES + obj) k name (s_seen s) 0 s r
    | Undefined => Undefined
    end
  else if (k =? worker_wait_starts) || (k =? worker_wait_ends) || (k =? scheduler_advancing_time_starts) || (k =? scheduler_advancing_time_ends) then
    let index := src_id e * 2 + (if (k =? scheduler_advancing_time_starts) || (k =? scheduler_advancing_time_ends) then 1 else 0) in
    if negb (fits32 index) || negb (fits32 (n + index)) then Undefined
    else if NUM_EVENT_TYPES + n + MAX_NUM_WORKERS * 2 <=? n + index then Ok c
    else if (index <? 0) || (MAX_NUM_REACTIONS <=? index) then Undefined
    else
      let s := slot c (NUM_EVENT_TYPES + n + index) in
      match start_or_end ((k =? worker_wait_starts) || (k =? scheduler_advancing_time_starts)) (s_reactions s index) (physical_time e) with
      | Ok r => store c (NUM_EVENT_TYPES + n + index) k (s_label s) (if s_seen s <=? index then index else s_seen s) index s r
      | Undefined => Undefined
      end
  else Ok c.

(** trace_to_csv.c:104-270 [read_and_write_trace], one record; [from] and [until] are the options -s and -e. *)
Definition convert_one (table : list object) (start from until : Z) (c : conv) (e : entry) : outcome conv :=
  let '(name, obj) := get_object_description table (pointer e) in
  let '(tname, trg) := get_trigger_name table (trigger e) in
  let elapsed := logical_time e - start in
  if negb (fits64 elapsed) then Undefined
  else if (from <=? elapsed) && (elapsed <? until) then
    if (event_type e <? 0) || (NUM_EVENT_TYPES <=? event_type e) || negb (fits64 (physical_time e - start)) then Undefined
    else
      let w := mkRow (event_type e) (or_else name NoReactor) (src_id e) (dst_id e) elapsed (to_signed 32 (microstep e)) (physical_time e - start) (or_else tname NoTrigger) (extra_delay e) in
      let c := mkConv (rows c ++ [w]) (slots c) (if latest c <? physical_time e then physical_time e else latest c) in
      let c := alloc (alloc c (NUM_EVENT_TYPES + obj)) (NUM_EVENT_TYPES + trg) in
      match count_event c (event_type e) with
      | Ok c => count_special (Z.of_nat (length table)) e obj trg (or_else name NoReactor) (or_else tname NoTrigger) c
      | Undefined => Undefined
      end
  else Ok c.
(** trace_to_csv.c:494-495, all records *)
Fixpoint convert (table : list object) (start from until : Z) (c : conv) (l : list entry) : outcome conv :=
  match l with
  | [] => Ok c
  | e :: l => match convert_one table start from until c e with Ok c => convert table start from until c l | Undefined => Undefined end
  end.

(** The lines of the summary file. *)
Inductive line :=
  | LTimes (start latest total : Z)
  | LCount (k n : Z)
  | LReaction (l : label) (number occ total avg max min : Z)
  | LSchedule (l : label) (occ : Z)
  | LUser (l : label) (occ : Z) (values : option (Z * Z * Z * Z))
  | LWait (worker : Z) (advancing : bool) (occ total avg max min : Z).

(** [range a n]: a, a + 1, ..., a + n - 1 *)
Definition range (a : Z) (n : nat) : list Z := map (fun i => a + Z.of_nat i) (seq 0 n).

(** trace_to_csv.c:281-287 *)
Definition counts (c : conv) : list line :=
  flat_map (fun i => match slots c i with Some s => [LCount i (s_occ s)] | None => [] end) (range 0 (Z.to_nat NUM_EVENT_TYPES)).
(** trace_to_csv.c:289-308 *)
Definition reaction_lines (s : stats) : list line :=
  flat_map (fun j => let r := s_reactions s j in
    if 0 <? r_occ r then [LReaction (s_label s) j (r_occ r) (r_total r) (Z.quot (r_total r) (r_occ r)) (r_max r) (r_min r)] else [])
    (range 0 (Z.to_nat (s_seen s))).
(** trace_to_csv.c:310-322 *)
Definition schedule_lines (s : stats) : list line :=
  if (s_event s =? schedule_called) && (0 <? s_occ s) then [LSchedule (s_label s) (s_occ s)] else [].
(** trace_to_csv.c:324-346 *)
Definition user_lines (s : stats) : list line :=
  let r := s_reactions s 0 in
  if ((s_event s =? user_event) || (s_event s =? user_value)) && (0 <? s_occ s) then
    [LUser (s_label s) (s_occ s) (if (s_event s =? user_value) && (0 <? r_occ r) then Some (r_total r, Z.quot (r_total r) (r_occ r), r_max r, r_min r) else None)]
  else [].
(** trace_to_csv.c:348-374 *)
Definition wait_lines (s : stats) : list line :=
  if (s_event s =? worker_wait_ends) || (s_event s =? scheduler_advancing_time_ends) then
    flat_map (fun j => let r := s_reactions s j in
      if 0 <? r_occ r then [LWait (Z.quot j 2) (s_event s =? scheduler_advancing_time_ends) (r_occ r) (r_total r) (Z.quot (r_total r) (r_occ r)) (r_max r) (r_min r)] else [])
      (range 0 (Z.to_nat (s_seen s + 1)))
  else [].
Definition pass (f : stats -> list line) (n : nat) (c : conv) : list line :=
  flat_map (fun i => match slots c i with Some s => f s | None => [] end) (range NUM_EVENT_TYPES (n + Z.to_nat (MAX_NUM_WORKERS * 2))).
(** trace_to_csv.c:275-375 [write_summary_file] without the headers *)
Definition summary (start : Z) (n : nat) (c : conv) : outcome (list line) :=
  if fits64 (latest c - start) then
    Ok (LTimes start (latest c) (latest c - start) :: counts c ++ pass reaction_lines n c ++ pass schedule_lines n c ++ pass user_lines n c ++ pass wait_lines n c)
  else Undefined.
(** trace_to_csv.c:486-500 [main], after the header has been read: the rows and the summary *)
Definition to_csv (table : list object) (start from until : Z) (l : list entry) : outcome (list row * list line) :=
  match convert table start from until conv0 l with
  | Ok c => match summary start (length table) c with Ok s => Ok (rows c, s) | Undefined => Undefined end
  | Undefined => Undefined
  end.
