(** Model of the handling of deadlines and of safe-to-process (STP) violations
    when a reaction is executed, and of the index combining deadline and level. *)
From Verif Require Import Base.

(** core/reactor_common.c:1224-1229 [lf_combine_deadline_and_level], ISO C
    reading: interval_t is a signed 64-bit integer, so the shift on line 1228 is
    undefined for a negative deadline and when the result does not fit.  index_t
    is unsigned 64-bit (include/core/lf_types.h:132, pqueue_pri_t). *)
Definition combine (deadline level : Z) : res Z :=
  if Z.shiftr (two64 - 1) 16 <? deadline
  then Ok (Z.lor (Z.shiftl (Z.shiftr (two64 - 1) 16) 16) level)
  else if (deadline <? 0) || negb (in_int64b (Z.shiftl deadline 16)) then UB
  else Ok (Z.lor (Z.shiftl deadline 16) level).

(** The same with line 1228 read as a two's-complement shift, converted to
    index_t (modulo 2^64) on return. *)
Definition combine_wrap (deadline level : Z) : Z :=
  if Z.shiftr (two64 - 1) 16 <? deadline
  then Z.lor (Z.shiftl (Z.shiftr (two64 - 1) 16) 16) level
  else (Z.lor (wrap64 (Z.shiftl deadline 16)) level) mod two64.

(** include/core/utils/util.h:71 [LF_LEVEL] *)
Definition level_of (index : Z) : Z := Z.land index 65535.

(** What the execution of one reaction does, in order. *)
Inductive event :=
| Body               (* the reaction function *)
| DeadlineHandler    (* deadline_violation_handler *)
| StpHandler         (* STP_handler *)
| Outputs            (* schedule_output_reactions for this reaction *)
| CallNull.          (* a call through a null pointer *)

(** The fields of reaction_t used here (include/core/lf_types.h:155-190). *)
Record reaction := mkReaction {
  r_deadline : Z;            (* deadline; negative: none *)
  r_has_handler : bool;      (* deadline_violation_handler != NULL *)
  r_stp_violated : bool;     (* is_STP_violated *)
  r_has_stp : bool;          (* STP_handler != NULL *)
  r_input : bool }.          (* is_an_input_reaction *)

Definition with_stp (r : reaction) (b : bool) : reaction :=
  mkReaction (r_deadline r) (r_has_handler r) b (r_has_stp r) (r_input r).

(** The test made at reactor.c:150-161, reactor_threaded.c:684-688 and
    reactor_common.c:829-834; [now] is the current logical time and [phys] the
    reading of the physical clock.  The sum is a signed addition; it is not
    evaluated for a deadline of zero. *)
Definition missed (now phys : Z) (r : reaction) : res bool :=
  if 0 <=? r_deadline r then
    if r_deadline r =? 0 then Ok true
    else do! limit <- c_add64 now (r_deadline r); Ok (limit <? phys)
  else Ok false.

(** The handler part common to the three places. *)
Definition handler_events (r : reaction) : list event :=
  if r_has_handler r then [DeadlineHandler; Outputs] else [].

(** core/reactor.c:139-189: one reaction in the single-threaded runtime. *)
Definition run_single (now phys : Z) (r : reaction) : res (list event * reaction) :=
  do! m <- missed now phys r;
  if m then Ok (handler_events r, r) else Ok ([Body; Outputs], r).

(** core/threaded/reactor_threaded.c:673-707, 720-770, 785-791, 803-813 and
    854-859: one reaction taken by a worker. *)
Definition run_worker (now phys : Z) (r : reaction) : res (list event * reaction) :=
  do! m <- missed now phys r;
  if m then Ok (handler_events r, r)
  else if r_stp_violated r && negb (r_input r) && r_has_stp r
  then Ok ([StpHandler; Outputs], with_stp r false)
  else Ok ([Body; Outputs], with_stp r false).

(** core/reactor_common.c:780-866: a reaction executed at once by the worker
    that enabled it; [dec] is the FEDERATED_DECENTRALIZED build. *)
Definition run_now (dec : bool) (now phys : Z) (r : reaction) : res (list event * reaction) :=
  let stp := dec && r_stp_violated r && r_has_stp r in
  let e1 := if stp then [StpHandler; Outputs] else [] in
  do! m <- missed now phys r;
  let e2 := if m then handler_events r else [] in
  let e3 := if negb (stp || m) then [Body; Outputs] else [] in
  Ok (e1 ++ e2 ++ e3, with_stp r false).

(** lib/schedule.c:99-108 [lf_check_deadline] *)
Definition check_deadline (now phys : Z) (invoke : bool) (r : reaction) : res (bool * list event) :=
  do! limit <- c_add64 now (r_deadline r);
  if limit <? phys then
    Ok (true, if invoke then (if r_has_handler r then [DeadlineHandler] else [CallNull]) else [])
  else Ok (false, []).

(** core/reactor_common.c:270-278: the flag of a reaction when an event that
    triggers it is popped from the event queue; [late] says that the intended tag
    of the event is in the past (the flag is only written if so). *)
Definition popped (late : bool) (r : reaction) : reaction :=
  if late then with_stp r true else r.
