(** Model of util/tracing/trace_to_chrome.c: the conversion of a trace to the JSON text that the viewer of the Chrome
    browser reads.  Names are byte strings without NUL; the trace is the list of its entries (TraceFile.v), in the order
    of the file; the lookups are those of TraceCsv.v (util/tracing/trace_util.c). *)
From Coq Require Import String.
From Verif Require Import Base CText Logging Net TraceFile TraceCsv.
Open Scope Z_scope.
Local Open Scope list_scope.

(** [%d] and [%lld] *)
Definition sdec (z : Z) : text := if z <? 0 then 45 :: dec 20 (- z) else dec 20 z.
Definition nl : text := [10].

(** trace/api/types/trace_types.h:80-91; the names of federated events are not used *)
Definition deadline_missed : Z := 2.
Definition federated : Z := 10.
Definition event_name (k : Z) : text :=
  lit (match k with
       | 0 => "Reaction starts" | 1 => "Reaction ends" | 2 => "Reaction deadline missed" | 3 => "Schedule called"
       | 4 => "User-defined event" | 5 => "User-defined valued event" | 6 => "Worker wait starts" | 7 => "Worker wait ends"
       | 8 => "Scheduler advancing time starts" | 9 => "Scheduler advancing time ends" | _ => "Federated marker" end)%string.

(** Lines 40-43 *)
Definition PID_FOR_USER_EVENT : Z := 1000000.
Definition PID_FOR_UNKNOWN_EVENT : Z := 2000000.

Record event := mkEvent { j_name : text; j_cat : text; j_ph : text; j_tid : Z; j_pid : Z; j_ts : Z; j_args : text }.
(** Lines 196-206, 228-240 *)
Definition render (j : event) : text :=
  lit "{""name"": """ ++ j_name j ++ lit """, ""cat"": """ ++ j_cat j ++ lit """, ""ph"": """ ++ j_ph j
  ++ lit """, ""tid"": " ++ sdec (j_tid j) ++ lit ", ""pid"": " ++ sdec (j_pid j) ++ lit ", ""ts"": " ++ sdec (j_ts j)
  ++ lit ", ""args"": " ++ j_args j ++ lit "}," ++ nl.

(** Lines 133-140, 171, 235-238 *)
Definition args (reaction : text) (logical physical micro : Z) : text :=
  lit "{""reaction"": " ++ reaction ++ lit ",""logical time"": " ++ sdec logical ++ lit ",""physical time"": " ++ sdec physical
  ++ lit ",""microstep"": " ++ sdec micro ++ lit "}".
Definition value_args (v : Z) : text := lit "{""value"": " ++ sdec v ++ lit "}".
Definition instant_args (micro physical : Z) : text :=
  lit "{""microstep"": " ++ sdec micro ++ lit ", ""physical time"": " ++ sdec physical ++ lit "}".

Definition starts (k : Z) : bool := (k =? reaction_starts) || (k =? worker_wait_starts) || (k =? scheduler_advancing_time_starts).
Definition ends (k : Z) : bool := (k =? reaction_ends) || (k =? worker_wait_ends) || (k =? scheduler_advancing_time_ends).
Definition text_of (l : label) (d : text) : text := match l with Named t => t | _ => d end.

(** Lines 82-242, one entry.  [only] is the option -p.  The sum on line 155 does not overflow: both terms have been
    divided by 1000. *)
Definition convert (table : list object) (start : Z) (only : bool) (e : entry) : outcome (list event) :=
  let k := event_type e in
  if federated <? k then Ok []
  else
    let reaction := if 0 <=? dst_id e then snprintf 4 (sdec (dst_id e)) else lit """UNKNOWN""" in
    let '(l, reactor_index) := get_object_description table (pointer e) in
    let reactor_name :=
      text_of l (if (k =? worker_wait_starts) || (k =? worker_wait_ends) then lit "WAIT"
                 else if (k =? scheduler_advancing_time_starts) || (k =? scheduler_advancing_time_starts) then lit "ADVANCE TIME"
                 else lit "NO REACTOR") in
    let '(tl, trigger_index) := get_trigger_name table (trigger e) in
    let trigger_name := text_of tl (lit "NONE") in
    if negb (fits64 (physical_time e - start)) || negb (fits64 (logical_time e - start)) then Undefined
    else
      let physical := Z.quot (physical_time e - start) 1000 in
      let logical := Z.quot (logical_time e - start) 1000 in
      if physical <? 0 then Ok []
      else if logical <? 0 then Ok []
      else if k <? 0 then Undefined   (* the name of the event *)
      else
        let micro := to_signed 32 (microstep e) in
        let a := args reaction logical physical micro in
        let j :=
          if starts k then mkEvent reactor_name (event_name k) (lit "B") (src_id e) 0 physical a
          else if ends k then mkEvent reactor_name (event_name k) (lit "E") (src_id e) 0 physical a
          else if k =? schedule_called then
            mkEvent trigger_name (event_name k) (lit "i") trigger_index (reactor_index + 1)
              (if only then physical else logical + Z.quot (extra_delay e) 1000) a
          else if k =? user_event then
            mkEvent reactor_name (event_name k) (lit "i") reactor_index PID_FOR_USER_EVENT (if only then physical else logical) a
          else if k =? user_value then
            mkEvent reactor_name (event_name k) (lit "C") reactor_index PID_FOR_USER_EVENT (if only then physical else logical) (value_args (extra_delay e))
          else mkEvent reactor_name (event_name k) (lit "i") (src_id e) PID_FOR_UNKNOWN_EVENT physical a in
        if (k =? reaction_starts) && negb only then
          if fits32 (1024 + dst_id e) then
            Ok [j; mkEvent (snprintf 13 (lit "reaction " ++ sdec (dst_id e))) (lit "Reaction") (lit "i") (1024 + dst_id e) (reactor_index + 1) logical
                     (instant_args micro physical)]
          else Undefined
        else Ok [j].
(** Lines 75-82, all entries *)
Fixpoint convert_all (table : list object) (start : Z) (only : bool) (l : list entry) : outcome (list event) :=
  match l with
  | [] => Ok []
  | e :: l =>
      match convert table start only e with
      | Ok js => match convert_all table start only l with Ok r => Ok (js ++ r) | Undefined => Undefined end
      | Undefined => Undefined
      end
  end.

(** Lines 210-212 and 226-228: what is kept of an entry that has been written *)
Definition shown (start : Z) (e : entry) : bool :=
  (event_type e <=? federated) && (0 <=? Z.quot (physical_time e - start) 1000) && (0 <=? Z.quot (logical_time e - start) 1000).
Definition max_thread_id (start : Z) (l : list entry) : Z :=
  fold_left (fun m e => if shown start e && (m <? src_id e) then src_id e else m) l 0.
Definition max_reaction_number (start : Z) (only : bool) (l : list entry) : Z :=
  fold_left (fun m e => if shown start e && (event_type e =? reaction_starts) && negb only && (m <? dst_id e) then dst_id e else m) l 0.

(** An entry with names for the viewer, for a thread or, without a thread, for a process *)
Record meta := mkMeta { m_pid : Z; m_tid : option Z; m_name : text }.
(** Lines 254-260 etc. without the end; the spaces differ between the formats *)
Definition render_meta (m : meta) : text :=
  match m_tid m with
  | Some t => lit "{""name"": ""thread_name"", ""ph"": ""M"", ""pid"": " ++ sdec (m_pid m) ++ lit ", ""tid"": " ++ sdec t
              ++ lit ", ""args"": {""name"": """ ++ m_name m ++ lit """}}"
  | None => lit "{""name"": ""process_name"", ""ph"": ""M"", ""pid"": " ++ sdec (m_pid m)
            ++ lit ", ""args"": {""name"": """ ++ m_name m ++ lit """}}"
  end.
Definition upto (a b : Z) : list Z := map (fun i => a + Z.of_nat i) (seq 0 (Z.to_nat (b - a + 1))).
(** Lines 322-365 *)
Fixpoint object_names (table rest : list object) (i : Z) : list meta :=
  match rest with
  | [] => []
  | o :: rest =>
      (if o_type o =? trace_trigger then
         [mkMeta (snd (get_object_description table (o_pointer o)) + 1) (Some i) (lit "Trigger " ++ o_description o)]
       else if o_type o =? trace_reactor then
         [mkMeta (i + 1) None (lit "Reactor " ++ o_description o ++ lit " reactions, actions, and timers in logical time")]
       else if o_type o =? trace_user then [mkMeta PID_FOR_USER_EVENT (Some i) (o_description o)]
       else [])
      ++ object_names table rest (i + 1)
  end.
(** Lines 251-376: all but the last entry *)
Definition metadata (table : list object) (top : text) (threads reactions : Z) : list meta :=
  mkMeta 0 (Some 0) (lit "Main thread")
  :: flat_map (fun i => let m := mkMeta 0 (Some i) (lit "Worker " ++ sdec i) in [m; m; m]) (upto 1 threads)
  ++ flat_map (fun r => map (fun n => mkMeta r (Some (n + 1024)) (lit "Reaction " ++ sdec n)) (upto 0 reactions)) (upto 1 (Z.of_nat (List.length table)))
  ++ object_names table table 0
  ++ [mkMeta 0 None (lit "Execution of " ++ top)].
(** Lines 399-408 *)
Definition last_meta (top : text) : meta :=
  mkMeta PID_FOR_USER_EVENT None (lit "User events in " ++ top ++ lit ", shown in physical time:").

(** Lines 438-445 *)
Definition write_json (table : list object) (top : text) (start : Z) (only : bool) (l : list entry) : outcome text :=
  match convert_all table start only l with
  | Ok js =>
      Ok (lit "{ ""traceEvents"": [" ++ nl ++ flat_map render js
          ++ flat_map (fun m => render_meta m ++ lit "," ++ nl) (metadata table top (max_thread_id start l) (max_reaction_number start only l))
          ++ render_meta (last_meta top) ++ nl ++ lit "]}" ++ nl)
  | Undefined => Undefined
  end.
