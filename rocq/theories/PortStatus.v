(** Model of the status of network input ports (core/federated/federate.c): the
    tag up to which each port is known, the grants received, and the maximum
    level allowed to advance (MLAA).

    Both builds are modelled; [dec] is the FEDERATED_DECENTRALIZED build.  The
    operations are the critical sections of the code that hold the mutex of the
    top-level environment; [None] is termination of the process by
    lf_print_error_and_exit. *)
From Verif Require Import Base Tag.

(** limits.h: INT_MAX of a 32-bit int. *)
Definition INT_MAX : Z := 2147483647.

(** One entry of _lf_action_table, with the fields of its trigger that matter
    here (include/core/lf_types.h:208-248), its entry of _lf_action_delay_table,
    whether it is also in _lf_zero_delay_cycle_action_table
    (federate.c:163-167), its source federate and the level of its reaction
    (LF_LEVEL of reactions[0]->index, util.h:71: 16 bits). *)
Record port := mkPort {
  known : tag;         (* trigger->last_known_status_tag *)
  physical : bool;     (* trigger->is_physical *)
  level : Z;           (* LF_LEVEL(trigger->reactions[0]->index) *)
  delay : Z;           (* _lf_action_delay_table[i]; NEVER: no delay *)
  in_cycle : bool;     (* in _lf_zero_delay_cycle_action_table *)
  source : nat }.      (* source_id *)

Record fed := mkFed {
  ports : list port;   (* _lf_action_table *)
  cur : tag;           (* env->current_tag *)
  last_grant : tag;    (* _fed.last_TAG *)
  provisional : bool;  (* _fed.is_last_TAG_provisional *)
  mlaa : Z }.          (* max_level_allowed_to_advance *)

Definition set_known (p : port) (t : tag) : port :=
  mkPort t (physical p) (level p) (delay p) (in_cycle p) (source p).
Definition set_ports (s : fed) (l : list port) : fed :=
  mkFed l (cur s) (last_grant s) (provisional s) (mlaa s).
Definition set_mlaa (s : fed) (m : Z) : fed :=
  mkFed (ports s) (cur s) (last_grant s) (provisional s) m.

Section Build.
Variable dec : bool.      (* FEDERATED_DECENTRALIZED *)
Variable start : Z.       (* start_time *)

(** federate.c:2741-2758: whether one port of the table is skipped because of
    its delay (decentralized only). *)
Definition skipped (s : fed) (p : port) : bool :=
  dec &&
  (((delay p =? 0) && (ttime (cur s) =? start) && (tmicro (cur s) =? 0))
   || ((0 <? delay p) && (tag_compare (cur s) (delay_strict (mkTag start 0) (delay p)) <=? 0))).

(** federate.c:2759-2771: the body of the loop. *)
Definition level_of_port (s : fed) (m : Z) (p : port) : Z :=
  if skipped s p then m
  else if (0 <? tag_compare (cur s) (known p)) && negb (physical p)
       then Z.min m (level p) else m.

(** federate.c:2732-2739: the table the loop runs over. *)
Definition table (s : fed) : list port :=
  if dec then ports s else filter in_cycle (ports s).

(** federate.c:2715-2776 [lf_update_max_level]: the new value of
    max_level_allowed_to_advance.  The return value (changed or not) only
    controls broadcasts, which have no effect on the state modelled here. *)
Definition max_level (s : fed) (t : tag) (prov : bool) : Z :=
  if negb dec && ((tag_compare (cur s) t <? 0)
                  || ((tag_compare (cur s) t =? 0) && negb prov))
  then INT_MAX
  else fold_left (level_of_port s) (table s) INT_MAX.

Definition update_max_level (s : fed) (t : tag) (prov : bool) : fed :=
  set_mlaa s (max_level s t prov).

(** federate.c:205-234 [update_last_known_status_on_input_ports]. *)
Definition update_all (s : fed) (t : tag) : fed :=
  let newer p := 0 <=? tag_compare t (known p) in
  let s' := set_ports s (map (fun p => if newer p then set_known p t else p) (ports s)) in
  if existsb newer (ports s) then update_max_level s' t false else s'.

Fixpoint replace (l : list port) (i : nat) (q : port) : list port :=
  match l, i with
  | [], _ => []
  | _ :: r, O => q :: r
  | p :: r, S i => p :: replace r i q
  end.

(** federate.c:263-292 [update_last_known_status_on_input_port], with the range
    check of [action_for_port] (federate.c:186-192).  The microstep is a
    uint32_t: line 269 wraps. *)
Definition update_port (s : fed) (t : tag) (i : nat) : option fed :=
  let t := if tag_compare t (cur s) <? 0 then cur s else t in
  match nth_error (ports s) i with
  | None => None
  | Some p =>
      let c := tag_compare t (known p) in
      let t := if c =? 0 then mkTag (ttime t) ((tmicro t + 1) mod two32) else t in
      if 0 <=? c
      then let s' := set_ports s (replace (ports s) i (set_known p t)) in
           Some (update_max_level s' (last_grant s) (provisional s))
      else Some s
  end.

(** federate.c:301-319 [mark_inputs_known_absent]: the loop over the ports. *)
Fixpoint gone_from (s : fed) (f : nat) (l : list port) (i : nat) : option fed :=
  match l with
  | [] => Some s
  | p :: r =>
      if Nat.eqb (source p) f
      then match update_port s FOREVER_TAG i with
           | None => None
           | Some s' => gone_from s' f r (S i)
           end
      else gone_from s f r (S i)
  end.
Definition gone (s : fed) (f : nat) : option fed :=
  if dec then gone_from s f (ports s) 0 else Some s.

(** federate.c:632-653: the tag a message that is not handled at once will get.
    In the decentralized build a tardy message is moved behind the current tag
    and behind everything known about the port. *)
Definition actual_tag (s : fed) (t : tag) (p : port) : tag :=
  if dec && (tag_compare t (cur s) <=? 0) then
    let a := mkTag (ttime (cur s)) ((tmicro (cur s) + 1) mod two32) in
    if tag_compare a (known p) <=? 0
    then mkTag (ttime (known p)) ((tmicro (known p) + 1) mod two32)
    else a
  else t.

(** The critical sections. *)
Inductive op :=
| OTag (t : tag)            (* handle_tag_advance_grant *)
| OPtag (t : tag)           (* handle_provisional_tag_advance_grant *)
| OMessageNow (i : nat) (t : tag)    (* handle_tagged_message, handled at the current tag *)
| OMessageLater (i : nat) (t : tag)  (* handle_tagged_message, scheduled *)
| OAbsent (i : nat) (t : tag)        (* handle_port_absent_message *)
| OAssumeAbsent (i : nat)            (* update_ports_from_staa_offsets *)
| OGone (f : nat)                    (* listen_to_federates at end of file *)
| OAdvance (t : tag).                (* _lf_next_locked *)

(** - OTag: federate.c:1045-1071; OPtag: federate.c:1298-1310 (the rest of the
      function inserts a dummy event or sends a message);
    - OMessageNow: federate.c:612-616; OMessageLater: federate.c:632-657.  Which
      of the two happens depends on the level being executed
      ([handle_message_now], federate.c:468-473); here either may happen;
    - OAbsent: federate.c:727-729; OAssumeAbsent: federate.c:1184-1193 (it only
      happens in the decentralized build); OGone: federate.c:812-816;
    - OAdvance: reactor_threaded.c:445-447 with reactor_common.c:216-220 and
      federate.c:2313-2327, and again reactor_threaded.c:464 (nothing in
      between touches the state modelled here). *)
Definition step (s : fed) (o : op) : option fed :=
  match o with
  | OTag t =>
      let s := update_all s t in
      if 0 <=? tag_compare t (last_grant s)
      then Some (mkFed (ports s) (cur s) t false (mlaa s))
      else Some s
  | OPtag t =>
      if (tag_compare t (last_grant s) <? 0)
         || ((tag_compare t (last_grant s) =? 0) && negb (provisional s))
      then None
      else Some (update_max_level (mkFed (ports s) (cur s) t true (mlaa s)) t true)
  | OMessageNow i t => update_port s t i
  | OMessageLater i t =>
      match nth_error (ports s) i with
      | None => None
      | Some p => update_port s (actual_tag s t p) i
      end
  | OAbsent i t => update_port s t i
  | OAssumeAbsent i => if dec then update_port s (cur s) i else Some s
  | OGone f => gone s f
  | OAdvance t =>
      Some (update_max_level (mkFed (ports s) t (last_grant s) (provisional s) (mlaa s))
              (last_grant s) (provisional s))
  end.

Fixpoint run (s : fed) (l : list op) : option fed :=
  match l with
  | [] => Some s
  | o :: r => match step s o with None => None | Some s' => run s' r end
  end.

(** The state in which messages begin to be handled: no grant yet
    (federate.c:92-93 initializes last_TAG to NEVER), the statuses reset
    (reactor_threaded.c:570) and the current tag set to the start tag
    (reactor_threaded.c:577). *)
Definition boot (l : list port) : fed :=
  let s := mkFed l (mkTag start 0) NEVER_TAG false INT_MAX in
  update_max_level s NEVER_TAG false.

(** federate.c:2680-2686 [lf_stall_advance_level_federation_locked]: whether a
    level may be entered. *)
Definition may_enter (s : fed) (l : Z) : bool := negb (mlaa s <=? l).
End Build.

(** federate.c:1110-1121 [inputs_known_to] *)
Definition inputs_known_to (s : fed) (t : tag) : bool :=
  forallb (fun p => negb (tag_compare (known p) t <? 0)) (ports s).

(** federate.c:2772-2793 [lf_wait_until_time]; [sta] is lf_fed_STA_offset.  The
    microstep and the time before are computed on lines 2782-2786; the time
    cannot be NEVER there. *)
Definition wait_until_time (start sta : Z) (s : fed) (t : tag) : res Z :=
  if negb (ttime t =? start) || negb (tmicro t =? 0) then
    let before := if 0 <? tmicro t then mkTag (ttime t) (tmicro t - 1)
                  else mkTag (ttime t - 1) UINT_MAX in
    if inputs_known_to s before then Ok (ttime t) else time_add (ttime t) sta
  else Ok (ttime t).

(** federate.c:1627-1660 [bounded_NET]: [phys] is the reading of the physical
    clock on line 1649; the tag to report and whether it was modified.  The sum
    of lines 1650-1652 is a signed addition. *)
Definition bounded_net (min_delay : Z) (has_downstream : bool) (phys : Z) (t : tag)
  : res (tag * bool) :=
  if (0 <=? min_delay) && has_downstream then
    do! sum <- c_add64 phys min_delay;
    if sum <? ttime t
    then do! b <- c_add64 sum (-1); Ok (mkTag b 0, true)
    else Ok (t, false)
  else Ok (t, false).
