{
 "claims": [
  {
   "property": "C01",
   "status": "proved",
   "theorems": [
    "C01_compare_is_lexicographic",
    "C01_compare_total_order",
    "C01_sentinels_are_extreme"
   ],
   "note": ""
  },
  {
   "property": "C02",
   "status": "proved",
   "theorems": [
    "C02_time_add_saturates",
    "C02_time_add_iso_c",
    "C02_saturation_refuted",
    "C02_time_add_laws"
   ],
   "note": "Exact saturating sum with two's-complement addition; ISO C reading refuted (signed overflow before the check)."
  },
  {
   "property": "C03",
   "status": "proved",
   "theorems": [
    "C03_zero_is_neutral",
    "C03_tag_add_meaning",
    "C03_never_backwards",
    "C03_monotone",
    "C03_monotone_refuted",
    "C03_hop_by_hop"
   ],
   "note": "Monotonicity and associativity hold below microstep overflow; monotonicity refuted at microstep overflow."
  },
  {
   "property": "C04",
   "status": "proved",
   "theorems": [
    "C04_strictly_later",
    "C04_strictly_later_refuted",
    "C04_no_delay",
    "C04_monotone",
    "C04_delay_is_addition",
    "C04_doc_example_refuted"
   ],
   "note": "Holds below the 32-bit microstep wrap; refuted at the wrap; documented FOREVER example refuted."
  },
  {
   "property": "C05",
   "status": "proved",
   "theorems": [
    "C05_below_every_later_message",
    "C05_latest_below_for_positive_delays",
    "C05_above_earlier_messages",
    "C05_zero_interval_doc_refuted",
    "C05_negative_interval_doc_refuted",
    "C05_below_every_later_message_refuted"
   ],
   "note": "Strictness needed by the coordinator proved below the microstep wrap; documentation for interval 0 and negative intervals refuted."
  },
  {
   "property": "C06",
   "status": "proved",
   "theorems": [
    "C06_comma",
    "C06_readable",
    "C06_negative_refuted",
    "C06_readable_negative_refuted"
   ],
   "note": "Proved for non-negative numbers; for a negative number lf_comma_separated_time reads before its array of clauses (C06_negative_refuted) and lf_readable_time prints \"0\" (C06_readable_negative_refuted)."
  },
  {
   "property": "C07",
   "status": "proved",
   "theorems": [
    "C07_histories_refine_collection",
    "C07_runtime_orders_qualify",
    "C07_empty_into",
    "C07_reachable_inv"
   ],
   "note": ""
  },
  {
   "property": "C08",
   "status": "proved",
   "theorems": [
    "C08_positions_exact",
    "C08_print_preserves_queue_refuted"
   ],
   "note": "Positions exact over every legal history; the clause about printing is refuted (pqueue_print overwrites positions of the live elements)."
  },
  {
   "property": "C09",
   "status": "proved",
   "theorems": [
    "C09_find_same_priority",
    "C09_find_equal_same_priority"
   ],
   "note": ""
  },
  {
   "property": "C10",
   "status": "proved",
   "theorems": [
    "C10_tag_queue_refines_collection",
    "C10_at_most_one_entry_per_tag",
    "C10_remove_up_to_forever_refuted"
   ],
   "note": "Full refinement; the literal reading for FOREVER_TAG entries of remove_up_to is refuted (never removed)."
  },
  {
   "property": "C11",
   "status": "proved",
   "theorems": [
    "C11_histories_refine_stack",
    "C11_lifo",
    "C11_at_exposes_null_refuted",
    "C11_zero_capacity_refuted"
   ],
   "note": "Stack refinement for positive initial capacity. The clause that indexed access beyond the end exposes NULL is refuted, and capacity 0 is refuted (out-of-bounds write / endless loop)."
  },
  {
   "property": "C12",
   "status": "proved",
   "theorems": [
    "C12_histories_refine_list",
    "C12_no_leak"
   ],
   "note": ""
  },
  {
   "property": "C13",
   "status": "proved",
   "theorems": [
    "C13_histories_refine_set",
    "C13_reserved_value_refuted"
   ],
   "note": "Set refinement for fewer than 2^29 adds (the capacity is computed with an int shift). Passing the reserved value 1 to remove/is_member is refuted."
  },
  {
   "property": "C14",
   "status": "proved",
   "theorems": [
    "C14_iteration_complete",
    "C14_has_next"
   ],
   "note": ""
  },
  {
   "property": "C15",
   "status": "proved",
   "theorems": [
    "C15_get_latest",
    "C15_absent_key_crashes_refuted"
   ],
   "note": "Any hash function, up to capacity distinct keys. The documented crash on absent keys is refuted."
  },
  {
   "property": "C16",
   "status": "proved",
   "theorems": [
    "C16_increment",
    "C16_period",
    "C16_visits_all",
    "C16_to_int",
    "C16_to_int_overflow_refuted"
   ],
   "note": "to_int needs the product of the radixes to fit in an int; counterexample beyond."
  },
  {
   "property": "C17",
   "status": "proved",
   "theorems": [
    "C17_semaphore",
    "C17_progress"
   ],
   "note": ""
  },
  {
   "property": "C18",
   "status": "proved",
   "theorems": [
    "C18_counts_are_holders",
    "C18_release_frees_last",
    "C18_payload_kept_while_held",
    "C18_no_leak_at_exit",
    "C18_release_reports_refuted",
    "C18_schedule_value_leak_refuted",
    "C18_set_after_forward_leak_refuted",
    "C18_schedule_value_frees_current_refuted"
   ],
   "note": "Reference counts equal holders over every disciplined history, payloads live while held, freed with the last reference, nothing left at exit. Refuted: the reported result (always NOT_FREED), leak after lf_schedule_value on an action with a pending event, leak after lf_set following a forward, lf_schedule_value freeing the value being read."
  },
  {
   "property": "C19",
   "status": "partial",
   "theorems": [
    "C19_bin_bounded",
    "C19_end_of_tag_safe_partial",
    "C19_end_of_tag_overflow",
    "C19_end_of_tag_use_after_free_refuted"
   ],
   "note": "Bin bound proved; end-of-tag release safe when the bin has room for the copies; with a full bin the code reads a freed token (refuted)."
  },
  {
   "property": "C20",
   "status": "proved",
   "theorems": [
    "C20_writable_copy",
    "C20_writes_invisible"
   ],
   "note": "All token states reachable by disciplined histories; zero-byte values are returned uncopied (no data to alias)."
  },
  {
   "property": "C21",
   "status": "proved",
   "theorems": [
    "C21_schedule_future",
    "C21_schedule_frame",
    "C21_intended_tag",
    "C21_pending_values_live",
    "C21_physical_in_the_past_refuted",
    "C21_stop_leak_refuted",
    "C21_release_after_stop_refuted"
   ],
   "note": "Holds for logical actions and timers below microstep wrap, and for physical actions whose clock reading is after the current time; refuted for a physical action at a non-zero microstep with the clock at or behind logical time. Two reference-count defects on stop paths refuted."
  },
  {
   "property": "C22",
   "status": "proved",
   "theorems": [
    "C22_min_spacing",
    "C22_policies"
   ],
   "note": "All histories, all three policies, debug and release builds."
  },
  {
   "property": "C23",
   "status": "partial",
   "theorems": [
    "C23_handle_partial",
    "C23_handle_refuted",
    "C23_handle_at_tag",
    "C23_one_event_per_tag",
    "C23_physical_duplicate_refuted"
   ],
   "note": "Handles: refuted for the pile-up path (inserts but returns 0); everything else proved. Uniqueness proved over disciplined histories; refuted for physical actions scheduled while the clock equals logical time."
  },
  {
   "property": "C24",
   "status": "proved",
   "theorems": [
    "C24_at_tag_in_window",
    "C24_earlier_messages_kept",
    "C24_message_accepted",
    "C24_pending_values_live",
    "C24_third_message_refuted"
   ],
   "note": "Window and retention proved; refuted: a third message for the same tag shares its tag with the second."
  },
  {
   "property": "C25",
   "status": "proved",
   "theorems": [
    "C25_step",
    "C25_execution",
    "C25_no_event_lost"
   ],
   "note": "One step, the whole execution and no-event-lost. Hypotheses: machine ranges (microsteps below 2^32-1) and schedule calls in the range of C21."
  },
  {
   "property": "C26",
   "status": "proved",
   "theorems": [
    "C26_exactly_once",
    "C26_triggered_before",
    "C26_precedence",
    "C26_level_order",
    "C26_terminates",
    "C26_level_order_refuted",
    "C26_runs_twice_refuted"
   ],
   "note": "Level order holds without immediate execution; with it precedence along the graph holds and C26_level_order_refuted shows the order of levels does not. C26_runs_twice_refuted: last_enabling_reaction must be the only cause."
  },
  {
   "property": "C27",
   "status": "proved",
   "theorems": [
    "C27_stop_never_increases",
    "C27_shutdown_once",
    "C27_request_stop",
    "C27_stop_wrap_refuted"
   ],
   "note": "C27_stop_wrap_refuted: a stop request at microstep 2^32-1 wraps to a stop tag in the past."
  },
  {
   "property": "C28",
   "status": "proved",
   "theorems": [
    "C28_presence",
    "C28_ports_absent",
    "C28_timer_status_refuted"
   ],
   "note": "C28_timer_status_refuted: the status of a periodic timer is never reset."
  },
  {
   "property": "C29",
   "status": "proved",
   "theorems": [
    "C29_iteration",
    "C29_overflow",
    "C29_set_twice_refuted",
    "C29_history"
   ],
   "note": "With a sparse record each channel is set at most once (hypothesis NoDup); a channel set twice in one tag is reported twice: C29_set_twice_refuted."
  },
  {
   "property": "C30",
   "status": "proved",
   "theorems": [
    "C30_writers",
    "C30_size_bounded"
   ],
   "note": "Writers are interleaved step by step (atomic read, fetch-and-add, store); sequentially consistent atomics assumed."
  },
  {
   "property": "C31",
   "status": "proved",
   "theorems": [
    "C31_schedule",
    "C31_defined",
    "C31_same_level",
    "C31_no_deadlock",
    "C31_empty_level_refuted"
   ],
   "note": "Every execution of the non-preemptive scheduler (any number of workers, any interleaving of its atomic steps, any reaction graph whose triggers raise the level) is accepted by an abstract scheduler automaton (SchedSpec.v): reactions run once per tag, only at their level, levels advance only when nothing of the level is pending or running. C31_empty_level_refuted: a level with no reactions makes the scheduler read element 0 of an empty array."
  },
  {
   "property": "C32",
   "status": "proved",
   "theorems": [
    "C32_schedule",
    "C32_defined",
    "C32_no_deadlock",
    "C32_once",
    "C32_precedence",
    "C32_inherits",
    "C32_twice_refuted"
   ],
   "note": "Every execution of the deadline scheduler is accepted by the automaton of SchedGEDFSpec.v (same level, most urgent first, each triggering taken once, tag left only when all is done), no worker state is a deadlock, and with inherited deadlines (C32_inherits relates this to the index computed by the code) no reaction runs twice per tag and triggering order is kept. C32_twice_refuted: without inheritance a reaction runs twice in one tag."
  },
  {
   "property": "C33",
   "status": "proved",
   "theorems": [
    "C33_order",
    "C33_level",
    "C33_iso_c",
    "C33_defined_refuted"
   ],
   "note": "C33_order/C33_level: the combined key orders by deadline then level, and the level is recovered. C33_iso_c/C33_defined_refuted: the shift in the generated code is undefined for deadlines in [2^47,2^48)."
  },
  {
   "property": "C34",
   "status": "proved",
   "theorems": [
    "C34_respected",
    "C34_lifted",
    "C34_defined",
    "C34_forever_refuted",
    "C34_unfederated_refuted"
   ],
   "note": "Proved for federated programs and every tag but FOREVER_TAG. Two refutations: a proposal of FOREVER_TAG is not held back by the barrier (reactor_threaded.c:151), and a program that is not federated never waits for the barrier."
  },
  {
   "property": "C35",
   "status": "partial",
   "theorems": [
    "C35_later_partial",
    "C35_shutdown_partial",
    "C35_unrequested",
    "C35_once",
    "C35_woken_partial",
    "C35_enclave_refuted",
    "C35_thread_refuted",
    "C35_microstep_refuted",
    "C35_woken_refuted"
   ],
   "note": "The full claim is false. Proved for the environment of the calling reaction: its stop tag is later than its current tag and its shutdown reactions are triggered exactly once before it ends. Refuted: another enclave, or the only environment when the caller is not a reaction, can advance between the two loops of lf_request_stop and then ends without shutdown reactions; at microstep UINT_MAX the stop tag wraps around; only the first environment is woken up (line 526)."
  },
  {
   "property": "C36",
   "status": "partial",
   "theorems": [
    "C36_only_expired",
    "C36_never_lost_partial",
    "C36_terminates",
    "C36_handler_refuted",
    "C36_earlier_refuted",
    "C36_terminates_refuted"
   ],
   "note": "The first half is proved without restriction: the handler is only invoked when the latest request has expired. That no restart is lost is proved for watchdogs that are not started by their own handler, not restarted with an earlier expiration and not started after termination; each of the three restrictions is shown to be necessary by a refutation."
  },
  {
   "property": "C37",
   "status": "proved",
   "theorems": [
    "C37_current",
    "C37_active",
    "C37_transition",
    "C37_queue"
   ],
   "note": "In every execution the current mode of a modal reactor is one of its own modes, the cached flag of activity is set exactly for the modes that are current together with all modes around them, the modes entered at the end of a tag are the requested ones (or the initial ones inside of a mode that is reset), and the event queue holds no event of a mode that is not active."
  },
  {
   "property": "C38",
   "status": "partial",
   "theorems": [
    "C38_once",
    "C38_delay_partial",
    "C38_not_refused_partial",
    "C38_resume_partial",
    "C38_reset_partial",
    "C38_nested_refuted",
    "C38_delay_refuted",
    "C38_history_drops_refuted",
    "C38_oneshot_refuted",
    "C38_self_reset_refuted",
    "C38_order_refuted"
   ],
   "note": "Proved for modes that are not inside of other modes (history) and for all modes (reset): remaining delays, restarted timers, each event suspended at most once. Refuted for modes inside of modes: events stay suspended when the outer mode is entered again by history, and are later resumed with another delay or dropped. Also refuted: a timer that fires once is restarted once only; a reset of the current mode restarts its timers; events at successive microsteps keep their order."
  },
  {
   "property": "C39",
   "status": "proved",
   "theorems": [
    "C39_table",
    "C39_flags"
   ],
   "note": "All topologies with identifiers in range, fewer than 2^32-1 nodes and any int64 delays; any subset of nodes connected. Paths go through connected nodes; delays at or above FOREVER count as unreachable."
  },
  {
   "property": "C40",
   "status": "proved",
   "theorems": [
    "C40_safe",
    "C40_not_late"
   ],
   "note": "Proved for every topology without zero-delay cycles and every interleaving of federates, FIFO channels and the coordinator (grants, in-transit bookkeeping, resignation at any time). Federates are modelled by the protocol obligations of federate.c: events not caused by the current tag are not before the promised NET; a federate with upstream connections starts only granted tags. Side conditions: socket writes succeed, start times received, tags leave room for one microstep per federate (the microstep wrap-around is C03)."
  },
  {
   "property": "C41",
   "status": "proved",
   "theorems": [
    "C41_order",
    "C41_order_source",
    "C41_left",
    "C41_source_refuted"
   ],
   "note": "C41_order covers federates with upstream connections; for a federate without upstream connections strict increase of TAGs is false (C41_source_refuted: its own NET lowers the recorded grant, and TAGs reach it through the provisional-grant recursion), C41_order_source states what remains. PENDING waits are not modelled."
  },
  {
   "property": "C42",
   "status": "proved",
   "theorems": [
    "C42_in_transit"
   ],
   "note": "For messages whose tag is not before the start time; the two critical sections of the confirmation are separate operations."
  },
  {
   "property": "C43",
   "status": "partial",
   "theorems": [
    "C43_bound",
    "C43_once",
    "C43_told",
    "C43_not_passed",
    "C43_granted_partial",
    "C43_resign_refuted",
    "C43_enclave_refuted"
   ],
   "note": "Proved for federates with one environment: every proposal is at or before the stop tag that is sent; it is sent at most once to each federate, the same to all, and to all that have not left; no federate still running has passed it and each stops there or at its earlier timeout; it is sent once each federate that was asked has answered. Refuted: a federate that leaves after being asked and before answering is never counted, so the stop is never granted (rti_remote.c:1031-1096); with several environments a federate can answer with a tag one of them has passed (federate.c:1470)."
  },
  {
   "property": "C44",
   "status": "proved",
   "theorems": [
    "C44_bytes",
    "C44_int64",
    "C44_int32",
    "C44_uint32",
    "C44_uint16",
    "C44_tag",
    "C44_timed_header",
    "C44_port_absent",
    "C44_length_refuted"
   ],
   "note": "Lengths of 2^32 bytes or more are truncated in the header: C44_length_refuted. The signed left shift by 56 in encode_int64 is modelled as GCC/clang define it."
  },
  {
   "property": "C45",
   "status": "proved",
   "theorems": [
    "C45_start",
    "C45_defined",
    "C45_big_endian_refuted"
   ],
   "note": "Holds for a coordinator on a little-endian host; on a big-endian host the reply is swapped twice: C45_big_endian_refuted."
  },
  {
   "property": "C46",
   "status": "proved",
   "theorems": [
    "C46_read",
    "C46_read_completes",
    "C46_close",
    "C46_write",
    "C46_write_completes",
    "C46_huge_refuted"
   ],
   "note": "For lengths up to SSIZE_MAX; above it success is reported without reading: C46_huge_refuted."
  },
  {
   "property": "C47",
   "status": "proved",
   "theorems": [
    "C47_forward",
    "C47_destination_refuted"
   ],
   "note": "For destinations in range; the destination is not range-checked by the coordinator: C47_destination_refuted."
  },
  {
   "property": "C48",
   "status": "proved",
   "theorems": [
    "C48_admitted",
    "C48_exact",
    "C48_distinct",
    "C48_prefix_refuted",
    "C48_stuck_refuted",
    "C48_p2p",
    "C48_p2p_longer_refuted",
    "C48_p2p_overread_refuted",
    "C48_p2p_range_refuted"
   ],
   "note": "Model of the RTI admission of a federate (federation id, federate id, follow-up message) and of the peer-to-peer handshake. C48_admitted characterises admission; the refuted theorems show that a prefix of the federation id is accepted, that a rejected follow-up leaves the id taken, and three defects of the peer-to-peer check."
  },
  {
   "property": "C49",
   "status": "proved",
   "theorems": [
    "C49_port",
    "C49_port_byte_refuted",
    "C49_host",
    "C49_host_accepts",
    "C49_host_refuted",
    "C49_user",
    "C49_extract",
    "C49_address",
    "C49_accepted",
    "C49_port_used",
    "C49_high_port_refuted",
    "C49_long_port_refuted",
    "C49_bad_port_refuted"
   ],
   "note": "C49_port (iff), C49_host (iff), C49_user (iff), C49_extract (leftmost-longest), C49_address, C49_port_used. Refuted: hosts that only begin with a letter or digit are accepted, ports above 32767 are replaced by the default, ports with more than five digits are cut off."
  },
  {
   "property": "C50",
   "status": "proved",
   "theorems": [
    "C50_monotone",
    "C50_calls",
    "C50_sequential",
    "C50_strict_refuted",
    "C50_defined"
   ],
   "note": "C50_monotone/C50_calls over all histories of raw clock readings, C50_strict_refuted shows that the documented strict increase fails (equal readings repeat)."
  },
  {
   "property": "C51",
   "status": "proved",
   "theorems": [
    "C51_estimate",
    "C51_t1_defined",
    "C51_window",
    "C51_guard",
    "C51_counted",
    "C51_offset_roundtrip",
    "C51_initial",
    "C51_error_bound_refuted",
    "C51_lost_probe_refuted"
   ],
   "note": "C51_estimate, C51_window (all message histories), C51_offset_roundtrip, C51_initial (ten exchanges). The standard-deviation test is an input. Refuted side claims: the kept error bound ignores federates that are ahead; a lost probe counts in the window."
  },
  {
   "property": "C52",
   "status": "proved",
   "theorems": [
    "C52_mlaa",
    "C52_stall",
    "C52_stale_refuted"
   ],
   "note": "For grants that are not older than the last one (C41); C52_stale_refuted shows that a stale TAG makes the level too low."
  },
  {
   "property": "C53",
   "status": "proved",
   "theorems": [
    "C53_step",
    "C53_grants",
    "C53_monotone",
    "C53_wrap_refuted"
   ],
   "note": "Whole histories without microstep overflow; C53_wrap_refuted: the end of a connection seen twice makes the known tag decrease."
  },
  {
   "property": "C54",
   "status": "partial",
   "theorems": [
    "C54_complete",
    "C54_order_partial",
    "C54_no_file_refuted",
    "C54_after_stop_refuted",
    "C54_header_refuted",
    "C54_tid_refuted"
   ],
   "note": "If the file never fails and no tracepoint follows the stop, all records are in the file in order exactly once and no access is out of bounds. Whatever happens to the file, the order is kept and nothing is duplicated, but the statement about bounds is refuted (no file, header failure, tracepoints after the end, thread id equal to the number of buffers)."
  },
  {
   "property": "C55",
   "status": "proved",
   "theorems": [
    "C55_single",
    "C55_worker",
    "C55_now",
    "C55_now_stp",
    "C55_defined",
    "C55_overflow_refuted",
    "C55_no_handler_refuted",
    "C55_both_refuted",
    "C55_stale_stp_refuted",
    "C55_check",
    "C55_check_refuted"
   ],
   "note": "C55_single/C55_worker/C55_now: which handler runs on each execution path, as a function of the deadline and the clock; refutations record the paths where the handler choice departs from the documentation."
  },
  {
   "property": "C56",
   "status": "partial",
   "theorems": [
    "C56_granted",
    "C56_safe_partial",
    "C56_not_late_partial",
    "C56_race_refuted",
    "C56_physical_refuted",
    "C56_starvation_refuted"
   ],
   "note": "Enclaves under the local coordinator (rti_local.c) with their main loop. C56_granted holds of every execution. C56_safe_partial and C56_not_late_partial hold of calm executions: no physical actions, no starvation, no lowering of a stop tag below what was asked for, no event arriving between the two critical sections of a request. Refuted otherwise: C56_race_refuted (rti_local.c:90-91), C56_physical_refuted, C56_starvation_refuted (reactor_threaded.c:333-341)."
  },
  {
   "property": "C57",
   "status": "proved",
   "theorems": [
    "C57_bounded",
    "C57_unbounded",
    "C57_microstep_refuted",
    "C57_overflow_refuted"
   ],
   "note": "The bounded case holds; C57_microstep_refuted: when physical time plus minimum delay equals the time of the next event at a microstep above zero, the tag is not bounded although an earlier output is possible; C57_overflow_refuted: signed overflow."
  },
  {
   "property": "C58",
   "status": "proved",
   "theorems": [
    "C58_exact",
    "C58_signed",
    "C58_rejected",
    "C58_defined",
    "C58_workers",
    "C58_unknown_unit_refuted",
    "C58_trailing_refuted",
    "C58_signed_zero_refuted",
    "C58_overflow_refuted"
   ],
   "note": "C58_exact (any position on the command line), C58_rejected, C58_defined (argv never read past its end), C58_workers. \"Unknown units are rejected\" is false of the code in full: units that merely begin with a unit name are accepted (C58_unknown_unit_refuted); trailing characters after the number too."
  },
  {
   "property": "C59",
   "status": "proved",
   "theorems": [
    "C59_schedule",
    "C59_defined",
    "C59_no_deadlock",
    "C59_spurious_refuted",
    "C59_assert_refuted"
   ],
   "note": "The scheduler is modelled with the granularity of its atomic operations. Two findings: a spurious wake-up lets a worker run that is not counted, so that a level is left while a reaction executes; and assert() of line 246 may fail."
  },
  {
   "property": "C60",
   "status": "proved",
   "theorems": [
    "C60_range",
    "C60_prepared",
    "C60_prepared_refuted",
    "C60_empty_level_refuted",
    "C60_recorded_refuted"
   ],
   "note": "For all clock readings and random numbers the chosen number of workers of each level stays within 1..min(workers, reactions of the level), all array accesses are in bounds (C60_range); it is a power of two or the limit (C60_prepared). Refuted: the limit need not be in the prepared list; a level without reactions fails the assertion; the recorded times are not those of the level."
  },
  {
   "property": "C61",
   "status": "proved",
   "theorems": [
    "C61_commit",
    "C61_settled"
   ],
   "note": ""
  },
  {
   "property": "C62",
   "status": "partial",
   "theorems": [
    "C62_told_partial",
    "C62_ahead_refuted"
   ],
   "note": "Being told again what is already known adds a microstep nobody spoke of (C62_ahead_refuted); everything else is proved."
  },
  {
   "property": "C63",
   "status": "proved",
   "theorems": [
    "C63_determinism",
    "C63_urgency_refuted"
   ],
   "note": "Single-threaded execution is covered by C26 only; physical time, event handles and reactions executed at once by their trigger are left out (Determinism.v)."
  },
  {
   "property": "C64",
   "status": "proved",
   "theorems": [
    "C64_fires_exactly_when_due",
    "C64_no_due_tag_skipped",
    "C64_at_start"
   ],
   "note": "Executions are those of the single-threaded main loop model of C25; reactions and threads may schedule anything except the timer itself, which the API gives no means to do."
  },
  {
   "property": "C65",
   "status": "proved",
   "theorems": [
    "C65_value_scheduled",
    "C65_value_arrives",
    "C65_readable_during_tag",
    "C65_current_value_overwritten_refuted"
   ],
   "note": "Values carried by lf_schedule_value/int/copy; hypotheses: reference counts below 2^64, the recycling bin has room (C19), policy not replace, one event of the action per tag (C23). Overwriting by a call for the same action at the tag itself is refuted (C65_current_value_overwritten_refuted)."
  },
  {
   "property": "C66",
   "status": "partial",
   "theorems": [
    "C66_exactly",
    "C66_startup_partial",
    "C66_startup_once",
    "C66_reset",
    "C66_reset_outermost",
    "C66_shutdown_partial",
    "C66_last",
    "C66_startup_refuted",
    "C66_shutdown_nested_refuted",
    "C66_shutdown_last_refuted"
   ],
   "note": "C66_exactly describes all triggered reactions; the English statement is false for initial modes inside of other modes and for modes first active at the last tag (refuted)"
  },
  {
   "property": "C67",
   "status": "proved",
   "theorems": [
    "C67_refines",
    "C67_execution",
    "C67_no_event_lost",
    "C67_physical",
    "C67_timeout",
    "C67_ends",
    "C67_early_refuted"
   ],
   "note": "One environment, no federation, no modes. C67_refines: every threaded execution has the state and trace of an execution of the single-threaded loop (C25, C27). C67_early_refuted: tags can be entered up to 10 us early because shorter waits are left out. The condition variable itself is not modelled: a wait may be interrupted at any time."
  },
  {
   "property": "C68",
   "status": "partial",
   "theorems": [
    "C68_nrf52",
    "C68_nrf52_masked_refuted",
    "C68_arduino_partial",
    "C68_arduino_wraps",
    "C68_arduino_refuted",
    "C68_arduino_stands_still_refuted",
    "C68_zephyr_monotone",
    "C68_zephyr_partial",
    "C68_zephyr_drift_refuted",
    "C68_zephyr_race_refuted",
    "C68_kernel",
    "C68_kernel_drift_refuted",
    "C68_timespec",
    "C68_timespec_back",
    "C68_timespec_negative_refuted"
   ],
   "note": "nRF52 is proved except for overflows inside critical sections, Zephyr up to its drift and race, Arduino for the first 71 minutes only; what is missing is false and shown by the refuted theorems. The conversions are proved in full."
  },
  {
   "property": "C69",
   "status": "partial",
   "theorems": [
    "C69_nested",
    "C69_restores",
    "C69_patmos_off_refuted",
    "C69_flexpret_isr",
    "C69_unmatched",
    "C69_nrf52_refuted",
    "C69_arduino_refuted",
    "C69_atomic",
    "C69_operations",
    "C69_rp2040_cores_refuted",
    "C69_flexpret_harts_refuted"
   ],
   "note": "Proved for Patmos, Zephyr, RP2040 and FlexPRET (nesting) and, for one core, all platforms but Arduino (atomicity); nRF52 nesting, Arduino, sections in Patmos interrupt routines and two cores are refuted."
  },
  {
   "property": "C70",
   "status": "partial",
   "theorems": [
    "C70_patmos",
    "C70_patmos_exact",
    "C70_kernel",
    "C70_rp2040",
    "C70_rp2040_early_refuted",
    "C70_nrf52",
    "C70_nrf52_ends_partial",
    "C70_nrf52_oversleep_refuted",
    "C70_counter",
    "C70_counter_ends_partial",
    "C70_counter_early_refuted",
    "C70_counter_alarm_refuted",
    "C70_flexpret_refuted"
   ],
   "note": "Proved with the tolerance of each platform; nRF52 ends for sleeps up to 2^32-1 us only and Zephyr counters need 32 bits (refuted otherwise); FlexPRET is refuted."
  },
  {
   "property": "C71",
   "status": "partial",
   "theorems": [
    "C71_priorities",
    "C71_priorities_overflow",
    "C71_linux_priority",
    "C71_linux_distinct_refuted",
    "C71_linux_policy_partial",
    "C71_linux_policy_refuted",
    "C71_zephyr_priority",
    "C71_ids",
    "C71_zephyr_create_partial",
    "C71_zephyr_create_refuted"
   ],
   "note": "The map of priorities, ids and Zephyr slots are proved. On Linux a failing call may have changed the thread, and on Zephyr a refused creation blocks other threads: refuted."
  },
  {
   "property": "C72",
   "status": "partial",
   "theorems": [
    "C72_monitor_partial",
    "C72_no_lost_notification",
    "C72_woken_by_notifications",
    "C72_timedwait_refuted",
    "C72_nested_wait_refuted"
   ],
   "note": "Proved for waits without a time and with the mutex locked once; the timed wait and nested locking are refuted."
  },
  {
   "property": "C73",
   "status": "partial",
   "theorems": [
    "C73_progress_partial",
    "C73_progress_refuted"
   ],
   "note": "Deadlock freedom for every execution in which no federate with downstream federates has been granted FOREVER; in that case the statement is false (C73_progress_refuted). The stop tag is not part of the model."
  },
  {
   "property": "C74",
   "status": "proved",
   "theorems": [
    "C74_deterministic",
    "C74_same_results",
    "C74_inputs",
    "C74_follows_program"
   ],
   "note": "Federates that leave and PTAGs (zero-delay cycles) are outside this theorem; programs must not depend on the order of the inputs of one tag (in the code each input has its own port)."
  },
  {
   "property": "C75",
   "status": "partial",
   "theorems": [
    "C75_round_trip_partial",
    "C75_fields",
    "C75_truncated",
    "C75_traced",
    "C75_big_endian_refuted",
    "C75_description_refuted",
    "C75_register_refuted",
    "C75_register"
   ],
   "note": "The round trip holds on little-endian 64-bit hosts with descriptions of at most 1023 characters; big-endian hosts, longer descriptions and the return value for a full table are refuted (C75_big_endian_refuted, C75_description_refuted, C75_register_refuted). Fields and truncation are proved in full under the same conditions."
  },
  {
   "property": "C76",
   "status": "partial",
   "theorems": [
    "C76_rows",
    "C76_summary_partial",
    "C76_defined_partial",
    "C76_extremes",
    "C76_no_tag_refuted",
    "C76_workers_refuted",
    "C76_unregistered_refuted",
    "C76_minimum_refuted",
    "C76_negative_refuted",
    "C76_waiting_refuted"
   ],
   "note": "Rows are proved for every defined conversion. Summary and definedness are proved for traces about registered objects in which starts and ends alternate with time passing in between, waits have ended and values are positive, with at most 32 workers; without these conditions the claim is refuted (six theorems C76_..._refuted)."
  },
  {
   "property": "C77",
   "status": "partial",
   "theorems": [
    "C77_safe_partial",
    "C77_not_late_partial",
    "C77_safe_refuted",
    "C77_cycles_refuted",
    "C77_stuck_refuted"
   ],
   "note": "Proved for every execution in which no absence arrives late and in which inputs from a federate on a zero-delay cycle are in the table of such inputs (wired); without either, a federate can end with an error (C77_safe_refuted, C77_cycles_refuted). The second part, that nobody waits forever, is false (C77_stuck_refuted). Message contents, physical connections, and the time during which the coordinator has not yet started the federation are not modelled."
  },
  {
   "property": "C78",
   "status": "partial",
   "theorems": [
    "C78_in_time_partial",
    "C78_kept",
    "C78_flag",
    "C78_unblocks",
    "C78_min_sleep_refuted",
    "C78_startup_refuted",
    "C78_absence_refuted",
    "C78_lost_refuted"
   ],
   "note": "Messages are only shown to be in time if they arrive 10 microseconds before the documented time, absences are in time too and nothing at the current tag is handled before the execution starts (each refuted otherwise). C78_kept, C78_flag and C78_unblocks have no such conditions; the latter two need microsteps not to run out. Not modelled: -fast, the stop tag, modes."
  },
  {
   "property": "C79",
   "status": "partial",
   "theorems": [
    "C79_handler_partial",
    "C79_no_false_alarm_partial",
    "C79_passed_on",
    "C79_executed",
    "C79_ends",
    "C79_overwritten_refuted",
    "C79_inline_refuted",
    "C79_stale_refuted",
    "C79_twice_refuted"
   ],
   "note": "Soundness (a flag or a handler only where a tardy message leads, no flag at the start of a tag) is proved for programs without missed deadlines, exactness (handler_partial) for reactions with handlers that go through the queue, at tags at which a reaction has one source and is executed once; without these hypotheses the statement is false (overwritten, inline, stale, twice). Modes and concurrent updates of one flag by several workers are not modelled."
  },
  {
   "property": "C80",
   "status": "partial",
   "theorems": [
    "C80_single",
    "C80_item_partial",
    "C80_item_type",
    "C80_item_refuted",
    "C80_set",
    "C80_set_refuted",
    "C80_len",
    "C80_loop_partial",
    "C80_empty_refuted",
    "C80_nested_refuted",
    "C80_absent_refuted",
    "C80_tag_partial",
    "C80_tag_refuted",
    "C80_order",
    "C80_args_partial",
    "C80_args_refuted",
    "C80_function",
    "C80_function_refuted"
   ],
   "note": "Channels, presence, values, setting, len, loops, tag order, arguments and lookup are proved for all widths and histories. Not provable, and refuted: exceptions for indices out of range, None for absent ports, iteration of empty multiports and nested loops, microsteps out of range, wrong arguments of start(), NULL for missing functions."
  },
  {
   "property": "C81",
   "status": "partial",
   "theorems": [
    "C81_alive_partial",
    "C81_released_partial",
    "C81_stored_refuted",
    "C81_dealloc_refuted",
    "C81_item_leak_refuted",
    "C81_self_refuted",
    "C81_action_leak_refuted",
    "C81_action_dropped_refuted",
    "C81_action_value_partial",
    "C81_uninit_refuted"
   ],
   "note": "Proved for all sequences in which values of port and action objects are read while something refers to them and these objects are not given up for good; release is proved for programs that give no values to actions. The rest is refuted: stored port objects, deallocation, leaks of channel objects and of values of actions, dropped values, uninitialized values."
  },
  {
   "property": "C82",
   "status": "partial",
   "theorems": [
    "C82_options_partial",
    "C82_ignored",
    "C82_dropped_refuted",
    "C82_order_refuted",
    "C82_rejected",
    "C82_exit_partial",
    "C82_exit_refuted",
    "C82_exit_tracing_refuted",
    "C82_records",
    "C82_number_refuted",
    "C82_port_refuted",
    "C82_exchanges_refuted",
    "C82_period_refuted",
    "C82_junk_refuted",
    "C82_status_refuted",
    "C82_free_refuted",
    "C82_forever_refuted"
   ],
   "note": "Proved: documented command lines with clock synchronization last set exactly what was written; wrong ones after any options are rejected, cleanly if neither -n nor -t came before; records are created and freed. Refuted without these conditions (12 findings)."
  },
  {
   "property": "C83",
   "status": "partial",
   "theorems": [
    "C83_exact_partial",
    "C83_all_released",
    "C83_double_free_refuted",
    "C83_no_reactions_refuted",
    "C83_event_refuted",
    "C83_scheduler_refuted",
    "C83_indexes_refuted",
    "C83_adaptive_refuted",
    "C83_watchdogs_refuted"
   ],
   "note": "What is live after termination is exactly what was live before plus the blocks of a table (scheduler instance, some scheduler arrays, watchdog arrays, watchdog mutexes of other enclaves, and as many events per environment as were pending at one time); nothing is freed twice or used after release. Everything is released without threads, watchdogs and events (C83_all_released). Missing: two watchdogs in one reactor are freed twice, NP without reactions dereferences null, and the table is not empty (refuted)."
  },
  {
   "property": "C84",
   "status": "partial",
   "theorems": [
    "C84_links_partial",
    "C84_inbound_partial",
    "C84_complete_partial",
    "C84_server_partial",
    "C84_address_partial",
    "C84_gives_up_partial",
    "C84_loopback_refuted",
    "C84_impostor_refuted",
    "C84_soft_error_refuted",
    "C84_reject_refuted",
    "C84_terminated_refuted"
   ],
   "note": "Proved under two conditions that fail in reality and are refuted without: the address seen by the coordinator leads to the peer from everywhere, and other programs do not know the federation id. Completeness for calls that do not give up. Bounded attempts for a silent or refusing peer, refuted for a rejecting one."
  },
  {
   "property": "C85",
   "status": "partial",
   "theorems": [
    "C85_join_partial",
    "C85_rejection",
    "C85_found",
    "C85_clock_off_refuted",
    "C85_exchanges_refuted",
    "C85_enabled_refuted",
    "C85_counts_refuted",
    "C85_port_range_refuted",
    "C85_search_partial",
    "C85_timeout_refuted",
    "C85_broken_refuted"
   ],
   "note": "C85_rejection and C85_found in full. C85_join_partial: every schedule ends with the federate joined and the coordinator knowing its neighbors, for sides that agree about clock synchronization and a connection that does not fail; C85_search_partial: unless a coordinator turned the federate down. Refuted: disagreement about clock synchronization, signed counts, ports above 32767, the timeout after a rejection, a connection that breaks."
  },
  {
   "property": "C86",
   "status": "partial",
   "theorems": [
    "C86_authenticated",
    "C86_admitted_partial",
    "C86_federate",
    "C86_secret_refuted",
    "C86_wrong_key_refuted",
    "C86_plain_federate_refuted",
    "C86_plain_coordinator_refuted",
    "C86_number_refuted",
    "C86_outsider",
    "C86_type_refuted"
   ],
   "note": "C86_authenticated and C86_federate in full, for every hash, opponent and schedule. C86_admitted_partial: whoever is admitted sent the keyed hash of the fresh nonce; that this needs the key is a property of the hash that is not modelled. Refuted: secrecy of the key, robustness against a wrong key or a federate without authentication, the cause shown to the federate, the number."
  },
  {
   "property": "C87",
   "status": "partial",
   "theorems": [
    "C87_rounds_partial",
    "C87_left",
    "C87_lost_refuted",
    "C87_leave_refuted",
    "C87_fifth_refuted",
    "C87_short_refuted",
    "C87_forged_refuted",
    "C87_off_refuted"
   ],
   "note": "Rounds proved for a network that loses nothing, federates that stay and no foreign datagrams; the rest of the statement is refuted by witness runs."
  },
  {
   "property": "C88",
   "status": "partial",
   "theorems": [
    "C88_released_partial",
    "C88_crash_refuted",
    "C88_dead_refuted"
   ],
   "note": "Proved for federates that announce their departure; refuted for connections that close without a message."
  },
  {
   "property": "C89",
   "status": "partial",
   "theorems": [
    "C89_ends_partial",
    "C89_flushed_partial",
    "C89_deaf_refuted",
    "C89_bad_message_refuted"
   ],
   "note": "Termination ends in a bounded number of steps under every schedule and nobody waits for ever (C89_ends_partial); connections of a federate that terminated normally are read to their end (C89_flushed_partial). Missing: messages in flight during termination. Refuted: the coordinator holds its mutex until the resigning federate has exited; a bad message leaves a socket open that the sender later waits for."
  },
  {
   "property": "C90",
   "status": "partial",
   "theorems": [
    "C90_promise_partial",
    "C90_defined",
    "C90_renews",
    "C90_microstep_refuted",
    "C90_interval_refuted",
    "C90_zero_interval_refuted",
    "C90_fast_refuted"
   ],
   "note": "Times of outputs are proved for every run, tags for runs without messages (false with messages that have microsteps: C90_microstep_refuted). C90_renews and C90_defined in full; that announcements are an interval apart is refuted, as are intervals of at most 1 ns and -fast."
  },
  {
   "property": "C91",
   "status": "partial",
   "theorems": [
    "C91_start_first",
    "C91_safe_partial",
    "C91_all_start_partial",
    "C91_granted_partial",
    "C91_order_partial",
    "C91_order_refuted",
    "C91_once_refuted",
    "C91_crash_refuted"
   ],
   "note": "Proved for every schedule: the start time is the first message and sent once; grants are safe; all federates start when all propose and none dies. Increasing order is proved when nobody completes a tag before all federates are marked as started, and refuted without that condition. Missing: grants from announced tags, delays and transitive downstream federates in the threaded model."
  },
  {
   "property": "C92",
   "status": "partial",
   "theorems": [
    "C92_roundtrip_partial",
    "C92_ends",
    "C92_fits",
    "C92_unsupported_refuted",
    "C92_short_refuted",
    "C92_padding_refuted",
    "C92_empty_refuted",
    "C92_stack_refuted",
    "C92_cut_refuted",
    "C92_multiple_refuted",
    "C92_leak_refuted"
   ],
   "note": "The round trip is proved for all files whose further chunks are non-empty, of even size and fit on the stack. Termination and the size of the result are proved for all files. The rest of the statement is refuted: see the findings."
  },
  {
   "property": "C93",
   "status": "partial",
   "theorems": [
    "C93_shown_partial",
    "C93_inside",
    "C93_codes",
    "C93_typed",
    "C93_percent_refuted",
    "C93_log_refuted",
    "C93_restart_refuted",
    "C93_end_twice_refuted",
    "C93_special_refuted",
    "C93_border_refuted"
   ],
   "note": "Order, completeness, positions, results of registering and scheduling of typed characters are proved; the order for texts without percent signs. The rest of the statement is refuted: see the findings."
  },
  {
   "property": "C94",
   "status": "partial",
   "theorems": [
    "C94_arrives_partial",
    "C94_all_arrive_partial",
    "C94_memory_partial",
    "C94_refused",
    "C94_large_refuted",
    "C94_forged_refuted",
    "C94_log_refuted",
    "C94_leak_refuted",
    "C94_crash_refuted"
   ],
   "note": "Messages below 2 GB and federates that do not print at level LOG; the rest is refuted (length as int, length cut to 32 bits, contents printed as a string, lost buffer, ends of the program)."
  },
  {
   "property": "C95",
   "status": "partial",
   "theorems": [
    "C95_printed_partial",
    "C95_errors",
    "C95_no_exit",
    "C95_macro_refuted",
    "C95_levels_refuted",
    "C95_redirect_refuted",
    "C95_errno_refuted",
    "C95_race_refuted"
   ],
   "note": "All kinds of messages except that the macros follow the level of the program only (refuted); conversions of the C library are a parameter; registrations by other threads during a message are refuted as a race."
  },
  {
   "property": "C96",
   "status": "partial",
   "theorems": [
    "C96_workers_partial",
    "C96_once",
    "C96_fails",
    "C96_places_partial",
    "C96_orders",
    "C96_rti",
    "C96_exact",
    "C96_watchdog_refuted",
    "C96_enclaves_refuted",
    "C96_breadth_refuted",
    "C96_cores_refuted",
    "C96_numbers"
   ],
   "note": "C96_places_partial holds for programs without watchdogs whose environments have no more workers than the first; C96_exact says exactly which programs break their trace. C96_workers_partial needs a positive breadth and a known number of cores. C96_numbers assumes that no worker leaves before all have entered, which the schedulers provide (they stop only when all workers are idle; C31, C32, C59); C96_late_ex shows that the assumption is needed."
  },
  {
   "property": "C97",
   "status": "partial",
   "theorems": [
    "C97_json_partial",
    "C97_defined",
    "C97_spans_partial",
    "C97_schedule",
    "C97_user",
    "C97_named_partial",
    "C97_reactions",
    "C97_names_refuted",
    "C97_number_refuted",
    "C97_advancing_refuted",
    "C97_deadline_refuted",
    "C97_skipped_refuted"
   ],
   "note": "Proved: the text is JSON for names without quotes, backslashes and control characters; no undefined behaviour on sound traces; spans, schedule calls, user events, reactions and their rows. Missing: other names, numbers of reactions of four digits, names of time advances, missed deadlines, entries before the start (all refuted)."
  },
  {
   "property": "C98",
   "status": "partial",
   "theorems": [
    "C98_exact",
    "C98_heard_partial",
    "C98_amplitude",
    "C98_time",
    "C98_tick",
    "C98_ontime",
    "C98_eight",
    "C98_early_refuted",
    "C98_last_refuted",
    "C98_empty_refuted",
    "C98_gap_refuted",
    "C98_overflow_refuted",
    "C98_frames_refuted"
   ],
   "note": "For proper sounds and near times behaviour is defined and exactly described; sounds that fit into their buffer and end in silence are heard as they should be. Longer sounds, the last frame, empty sounds and calls during the change of buffers are refuted."
  },
  {
   "property": "C99",
   "status": "partial",
   "theorems": [
    "C99_line_partial",
    "C99_sent_partial",
    "C99_settings",
    "C99_long_refuted",
    "C99_memory_refuted",
    "C99_backslash_refuted",
    "C99_url_refuted",
    "C99_token_refuted",
    "C99_count_refuted",
    "C99_digits_refuted",
    "C99_merge_refuted"
   ],
   "note": "Sendable entries (names without backslashes, reactions up to 999, lines below 256 bytes) are sent in order and read back; options in any order. Longer lines and names, long tokens and URLs, the printed number and points of several workers are refuted."
  },
  {
   "property": "C100",
   "status": "partial",
   "theorems": [
    "C100_heard_partial",
    "C100_amplitude",
    "C100_time",
    "C100_last_refuted",
    "C100_empty_refuted"
   ],
   "note": "Full for every history of sounds that end in silence (C100_heard_partial); the last frame of other sounds is not heard (C100_last_refuted), and an empty sound can make the callback read outside of its memory (C100_empty_refuted). C100_time and C100_amplitude are complete."
  },
  {
   "property": "C101",
   "status": "partial",
   "theorems": [
    "C101_starts_partial",
    "C101_complaint",
    "C101_own",
    "C101_release_refuted",
    "C101_core_refuted",
    "C101_script_refuted"
   ],
   "note": "Proved for programs compiled with their assertions (C101_starts_partial); refuted for release builds (C101_release_refuted), for the version of the runtime (C101_core_refuted) and for the plugin built by the script of the repository (C101_script_refuted). C101_complaint and C101_own are complete."
  },
  {
   "property": "C102",
   "status": "proved",
   "theorems": [
    "C102_queued",
    "C102_others",
    "C102_silent",
    "C102_once"
   ],
   "note": "Sequential: the compare-and-swap is one step and the queue of the scheduler is a list; the queues themselves are modelled in other claims."
  },
  {
   "property": "C103",
   "status": "partial",
   "theorems": [
    "C103_clock_partial",
    "C103_date",
    "C103_sleep",
    "C103_wait_partial",
    "C103_advances",
    "C103_timeout",
    "C103_clock_refuted",
    "C103_result_refuted",
    "C103_early_refuted",
    "C103_forever_refuted",
    "C103_passed_refuted",
    "C103_join_refuted"
   ],
   "note": "Proved: the clock for every frequency with exact fractions in place of doubles (C103_clock_partial, C103_date), sleeps up to 99 ns (C103_sleep), no early tag while timers work (C103_wait_partial, C103_advances), timeouts (C103_timeout). Refuted: failures of the clock and of timers, the result of sleeps, waits of 50 days, waits for the past, exit status of threads."
  },
  {
   "property": "C104",
   "status": "partial",
   "theorems": [
    "C104_timeout_partial",
    "C104_wait_partial",
    "C104_notified",
    "C104_goes",
    "C104_early_refuted",
    "C104_wrap_refuted",
    "C104_late_refuted"
   ],
   "note": "Proved up to one millisecond for waits of less than 49.7 days (C104_timeout_partial, C104_wait_partial) and for notifications (C104_notified); refuted for the last millisecond, for longer waits and for times that have passed. The behaviour of mbed is the relation ends in ArduinoWaitSpec.v."
  }
 ]
}