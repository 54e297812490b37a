{"id": "C01", "title": "Tags are totally ordered", "statement": "lf_tag_compare is the lexicographic order on (time, microstep): it returns exactly -1, 0 or 1, 0 only for equal tags, it is antisymmetric and transitive, and NEVER_TAG / FOREVER_TAG are its least and greatest values.", "quantifier": "all pairs and triples of tags with 64-bit time and 32-bit microstep", "why_tests_cant": "2^192 triples; everything else (queues, grants, barriers) assumes an order", "anchors": ["core/tag.c:lf_tag_compare", "tag/api/tag.h"]}
{"id": "C02", "title": "Adding times saturates and never silently wraps", "statement": "lf_time_add returns NEVER if either argument is NEVER, otherwise FOREVER if either is FOREVER, otherwise the exact sum when it is representable, otherwise the sentinel on the side of the overflow; it is commutative and monotone.", "quantifier": "all pairs of 64-bit times", "why_tests_cant": "the boundary is at the edge of the 64-bit range and involves signed overflow, which is undefined behaviour in C", "anchors": ["core/tag.c:lf_time_add"]}
{"id": "C03", "title": "Tag addition is a saturating, associative action of delays on tags", "statement": "lf_tag_add adds non-negative delays to tags: (0,0) is neutral, sentinels absorb, a positive time delay resets the microstep, microstep overflow yields FOREVER_TAG, adding never moves a tag backwards, it is monotone in both arguments, and accumulating delays hop by hop equals adding the accumulated delay.", "quantifier": "all tags and all non-negative delay tags", "why_tests_cant": "unbounded domains; associativity fails at sentinels only if the code is wrong there", "anchors": ["core/tag.c:lf_tag_add"]}
{"id": "C04", "title": "Delaying a tag moves it strictly into the future", "statement": "lf_delay_tag with a non-negative delay yields a tag strictly greater than the input for every input below FOREVER, is monotone in the tag, and applying delays one after the other is ordered consistently; a negative delay (NEVER) leaves the tag unchanged.", "quantifier": "all tags and delays", "why_tests_cant": "the microstep is a 32-bit counter and the time a 64-bit one; wrap-around needs 2^32 steps to reach", "anchors": ["core/tag.c:lf_delay_tag", "tag/api/tag.h"]}
{"id": "C05", "title": "The strict delay bound is below every later delayed message", "statement": "If a sender has completed tag c then lf_delay_strict(c, d) is a tag strictly below lf_delay_tag(s, d) for every later sending tag s > c, it is at least the delayed tag of every s < c, and it agrees with its documentation on the value returned for each kind of interval.", "quantifier": "all tags c, s and delays d", "why_tests_cant": "the grant logic and port-absent logic of the federation depend on it for every tag and every delay", "anchors": ["core/tag.c:lf_delay_strict", "tag/api/tag.h"]}
{"id": "C06", "title": "Human-readable times are exact and fit the buffer", "statement": "lf_comma_separated_time prints exactly the decimal digits of the number in groups of three, lf_readable_time prints a text whose parts sum to exactly the given time, both return the number of characters written and never exceed the 64-byte buffer; every call is free of undefined behaviour.", "quantifier": "all 64-bit times", "why_tests_cant": "2^63 inputs; several unit boundaries use strict comparisons", "anchors": ["core/tag.c:lf_readable_time", "core/tag.c:lf_comma_separated_time"]}
{"id": "C07", "title": "The priority queue always hands out a minimum", "statement": "After any history of insertions, removals and pops, peek/pop return an element of minimal priority among those present, the elements present are exactly the inserted ones minus the removed ones, and size reports their number.", "quantifier": "all operation histories, all element orders including ties", "why_tests_cant": "heap shapes grow factorially; ties and arbitrary removal interact", "anchors": ["core/utils/pqueue_base.c:pqueue_insert", "core/utils/pqueue_base.c:pqueue_pop", "core/utils/pqueue_base.c:pqueue_remove", "core/utils/pqueue_base.c:pqueue_peek"]}
{"id": "C08", "title": "An element's recorded position in the queue is always right", "statement": "After any history of operations each element present records the slot where it is stored, so that removing an element by reference removes that element and no other; dumping or printing a queue does not change it.", "quantifier": "all operation histories including printing", "why_tests_cant": "the position is maintained by side effects inside every sift; printing works on a shallow copy", "anchors": ["core/utils/pqueue_base.c:pqueue_remove", "core/utils/pqueue_base.c:pqueue_print"]}
{"id": "C09", "title": "Searching the queue finds an element exactly when one is there", "statement": "Searching for an element with the same priority (or the same priority and equal content) returns a matching stored element if one is present and nothing otherwise.", "quantifier": "all heaps and all search keys", "why_tests_cant": "the search prunes subtrees, so correctness depends on the heap order of every subtree", "anchors": ["core/utils/pqueue_base.c:find_same_priority", "core/utils/pqueue_base.c:find_equal_same_priority"]}
{"id": "C10", "title": "Tag queues deliver tags in order and drop exactly the passed ones", "statement": "For the tag-ordered queue: insert_if_no_match keeps at most one entry per tag, pop_tag drains tags in ascending order and answers FOREVER_TAG when empty, and remove_up_to(t) removes exactly the entries with tags at most t.", "quantifier": "all operation histories over all tags", "why_tests_cant": "unbounded histories", "anchors": ["core/utils/pqueue_tag.c"]}
{"id": "C11", "title": "The growable vector behaves like a stack", "statement": "After any history of push, pushall, pop, vote and indexed access, pops return the pushed pointers in last-in-first-out order, size is the number of elements, reallocation never loses or reorders elements and no access is out of bounds; indexed access beyond the end exposes NULL entries as documented.", "quantifier": "all operation histories and capacities", "why_tests_cant": "capacity changes happen after votes/empty pops and depend on the whole history", "anchors": ["core/utils/vector.c"]}
{"id": "C12", "title": "The deque behaves like a double-ended list", "statement": "After any history of push/pop at either end the deque yields exactly the elements of the corresponding list, peeks do not modify it, and size/is_empty agree with the list.", "quantifier": "all operation histories", "why_tests_cant": "pointer links must agree in both directions after every mix of operations", "anchors": ["util/deque.c"]}
{"id": "C13", "title": "The pointer hash set is a finite set", "statement": "After any history of add and remove, membership holds exactly for the items added and not removed since, adding reports whether the item was new, the count is the cardinality, and every operation terminates and stays within the table.", "quantifier": "all operation histories over all non-reserved items", "why_tests_cant": "probing depends on collisions, tombstones and rehashing; termination needs a free slot always", "anchors": ["core/utils/hashset/hashset.c"]}
{"id": "C14", "title": "Iterating a hash set visits each member exactly once", "statement": "Iterating a set from its start until has_next is false yields each member exactly once and nothing else, without touching memory outside the table.", "quantifier": "all sets", "why_tests_cant": "deleted slots and the end-of-table condition depend on the layout", "anchors": ["core/utils/hashset/hashset_itr.c"]}
{"id": "C15", "title": "The fixed-size hash map returns the last value put", "statement": "In a map holding fewer keys than its capacity, get of a key returns the value of the latest put of this key, puts of other keys do not interfere, and the stored-entry count never exceeds the number of distinct keys put.", "quantifier": "all put/get histories, all hash functions, all capacities", "why_tests_cant": "collisions and wrap-around of the linear probe", "anchors": ["include/core/utils/impl/hashmap.h"]}
{"id": "C16", "title": "Mixed-radix counters enumerate every combination once", "statement": "Incrementing a mixed-radix number visits all combinations of digits in value order, returns to zero exactly after the product of the radixes, keeps every digit below its radix, and to_int is its positional value.", "quantifier": "all radix lists and increment counts", "why_tests_cant": "the state space is a product of arbitrary radixes", "anchors": ["core/mixed_radix.c"]}
{"id": "C17", "title": "A semaphore never lets more acquirers through than were released", "statement": "Under every interleaving of threads, completed acquires never exceed the initial count plus releases, and an acquirer never stays blocked while the count is positive and it is scheduled.", "quantifier": "all interleavings of any number of threads", "why_tests_cant": "interleavings", "anchors": ["core/utils/lf_semaphore.c"]}
{"id": "C18", "title": "Tokens are freed exactly when the last reference goes away", "statement": "Under any history of creating, forwarding, replacing and releasing tokens, a token's payload is released once, only when its count reaches zero, never while a holder remains, and the release function reports what was freed.", "quantifier": "all histories of token operations", "why_tests_cant": "reference counts are spread over ports, events and templates", "anchors": ["core/lf_token.c:_lf_free_token", "core/lf_token.c:_lf_done_using", "core/lf_token.c:_lf_replace_template_token"]}
{"id": "C19", "title": "Recycled tokens are never used after being freed", "statement": "Releasing the tokens held for the end of a tag never reads a token already returned to the allocator, and the recycling bin never exceeds its limit.", "quantifier": "all histories and bin fill levels", "why_tests_cant": "only shows when the recycling bin is full", "anchors": ["core/lf_token.c:_lf_free_token_copies", "core/lf_token.c:_lf_free_token"]}
{"id": "C20", "title": "Mutable copies never alias shared data", "statement": "A writable copy of a token either is the only reference to its payload or has a fresh payload with the same contents; other readers never observe the writer's changes.", "quantifier": "all token states", "why_tests_cant": "depends on reference counts at the time of the call", "anchors": ["core/lf_token.c:_lf_writable_copy_locked", "core/lf_token.c:lf_writable_copy"]}
{"id": "C21", "title": "Scheduling an action never inserts an event at or before the current tag", "statement": "lf_schedule on any action with any delay inserts an event only at a tag strictly later than the current tag and not later than the stop tag, and otherwise leaves the event queue unchanged.", "quantifier": "all actions, policies, delays, clocks and queue contents", "why_tests_cant": "physical time readings and microsteps at the boundary cannot be forced in tests", "anchors": ["lib/schedule.c:lf_schedule_trigger"]}
{"id": "C22", "title": "Minimum spacing between events of an action is respected", "statement": "For an action with minimum spacing s and any of the three policies (defer, drop, replace), two events of the action scheduled one after the other that both stay in the queue are at least s apart in time; drop leaves the queue unchanged and replace changes only the pending event's value.", "quantifier": "all sequences of schedule calls", "why_tests_cant": "depends on the last event's tag over the whole history", "anchors": ["lib/schedule.c:lf_schedule_trigger"]}
{"id": "C23", "title": "A successful schedule returns a positive handle and at most one event per action and tag exists", "statement": "Every call to lf_schedule that inserts an event returns a positive handle and every call that does not returns a non-positive value; no two events of the same action ever have the same tag.", "quantifier": "all schedule histories", "why_tests_cant": "depends on conflict resolution over the whole queue", "anchors": ["lib/schedule.c:lf_schedule_trigger", "core/reactor_common.c:_lf_schedule_at_tag"]}
{"id": "C24", "title": "Scheduling at an explicit tag keeps every message", "statement": "Scheduling a message at an explicit tag never loses an earlier message of the same action and never places an event in the past or after the stop tag.", "quantifier": "all histories of messages and all spacing policies", "why_tests_cant": "needs several messages colliding at neighbouring microsteps", "anchors": ["core/reactor_common.c:_lf_schedule_at_tag"]}
{"id": "C25", "title": "Logical time advances strictly and never skips an event", "statement": "Each execution step of the runtime moves the current tag strictly forward to the tag of the earliest pending event (never past it), stops exactly at the stop tag, and every event is processed at its own tag.", "quantifier": "all event queues, schedules made by reactions, and stop requests", "why_tests_cant": "unbounded runs", "anchors": ["core/reactor.c:next", "core/reactor_common.c:_lf_advance_tag", "core/reactor_common.c:_lf_pop_events"]}
{"id": "C26", "title": "Within a tag each reaction runs at most once and in precedence order", "statement": "At each tag a reaction runs at most once, runs only if triggered, and a reaction never runs before a triggered reaction of a lower level.", "quantifier": "all reaction graphs whose edges go to higher levels", "why_tests_cant": "all graphs and all trigger patterns", "anchors": ["core/reactor.c:_lf_do_step", "core/reactor.c:_lf_trigger_reaction", "core/reactor_common.c:schedule_output_reactions"]}
{"id": "C27", "title": "The stop tag only moves earlier and shutdown happens exactly once", "statement": "The stop tag never increases, execution never passes it, and shutdown reactions are triggered exactly once, at the stop tag.", "quantifier": "all runs and all stop requests", "why_tests_cant": "depends on when the request arrives", "anchors": ["core/reactor_common.c:lf_set_stop_tag", "core/reactor.c:lf_request_stop", "core/reactor.c:next"]}
{"id": "C28", "title": "Presence of a port lasts exactly one tag", "statement": "At the start of each tag every port that was set in the previous tag is absent again, whether it was recorded in the abbreviated list or not.", "quantifier": "all numbers of ports and all sets per tag", "why_tests_cant": "the abbreviated list has a capacity; overflow behaviour differs", "anchors": ["core/reactor_common.c:_lf_start_time_step", "core/reactor.c:lf_set_present"]}
{"id": "C29", "title": "Iterating a multiport yields exactly its present channels in order", "statement": "lf_multiport_iterator / lf_multiport_next return the indices of the present channels, in ascending order, each exactly once, then -1 forever, both with and without a sparse record.", "quantifier": "all widths and presence patterns, all orders of setting", "why_tests_cant": "sparse records overflow at a threshold; order of writes is arbitrary", "anchors": ["core/port.c:_lf_multiport_iterator_impl", "core/port.c:lf_multiport_next"]}
{"id": "C30", "title": "Concurrent writers do not corrupt the sparse record of a multiport", "statement": "If several workers set channels of a multiport concurrently then afterwards the sparse record either lists every set channel exactly once or is marked as overflowed, and no write goes past its capacity.", "quantifier": "all interleavings of any number of writers", "why_tests_cant": "lock-free counter with a reset to -1 racing with increments", "anchors": ["core/threaded/reactor_threaded.c:lf_set_present"]}
{"id": "C31", "title": "Worker threads execute every triggered reaction once, level by level", "statement": "Under every interleaving of worker threads of the non-preemptive scheduler, all reactions executing at one time have the same level, every triggered reaction is executed exactly once before the tag advances, and no queue access is out of bounds.", "quantifier": "all numbers of workers, all interleavings, all trigger patterns towards higher levels", "why_tests_cant": "interleavings", "anchors": ["core/threaded/scheduler_NP.c"]}
{"id": "C32", "title": "The deadline scheduler picks the most urgent reaction and never deadlocks", "statement": "Under every interleaving of the GEDF scheduler, executing reactions have the same level, among reactions of the current level the one with the earliest deadline is taken first, each triggered reaction is executed exactly once, and not all workers ever sleep.", "quantifier": "all interleavings and deadlines", "why_tests_cant": "interleavings", "anchors": ["core/threaded/scheduler_GEDF_NP.c", "core/reactor_common.c:lf_combine_deadline_and_level"]}
{"id": "C33", "title": "Combining deadline and level orders reactions by level-respecting urgency", "statement": "lf_combine_deadline_and_level orders reactions first by deadline (saturated) then by level and the level can be read back, for all non-negative deadlines and all 16-bit levels.", "quantifier": "all deadlines and levels", "why_tests_cant": "64-bit domain", "anchors": ["core/reactor_common.c:lf_combine_deadline_and_level"]}
{"id": "C34", "title": "A tag barrier keeps time from passing pending messages", "statement": "While any requestor holds a tag barrier, an environment waiting for the barrier does not advance to or beyond the horizon; when all requestors release, the horizon is lifted and waiting threads proceed.", "quantifier": "all sequences of raises, releases and waits from any number of threads", "why_tests_cant": "interleavings", "anchors": ["core/threaded/reactor_threaded.c:_lf_increment_tag_barrier_locked", "core/threaded/reactor_threaded.c:_lf_decrement_tag_barrier_locked", "core/threaded/reactor_threaded.c:_lf_wait_on_tag_barrier"]}
{"id": "C35", "title": "A stop request stops every enclave at one common later tag", "statement": "After lf_request_stop each environment's stop tag is strictly later than its current tag at that moment, so that it will execute its shutdown reactions.", "quantifier": "all numbers of environments, all interleavings", "why_tests_cant": "race between the two passes over the environments", "anchors": ["core/threaded/reactor_threaded.c:lf_request_stop"]}
{"id": "C36", "title": "A watchdog fires if and only if it is not fed or stopped in time", "statement": "A watchdog's handler runs exactly when the latest requested expiration has passed without a stop or a restart; a restart is never lost.", "quantifier": "all interleavings of start, stop and time", "why_tests_cant": "races between handler and restart", "anchors": ["core/threaded/watchdog.c"]}
{"id": "C37", "title": "Exactly one mode of each modal reactor is current and activity follows the hierarchy", "statement": "After any sequence of mode changes every modal reactor has one current mode and a mode is active exactly if it and all its ancestors are current.", "quantifier": "all mode hierarchies and all transition sequences", "why_tests_cant": "arbitrary hierarchy", "anchors": ["core/modal_models/modes.c:_lf_process_mode_changes", "core/modal_models/modes.c:_lf_mode_is_active"]}
{"id": "C38", "title": "Suspended events keep their remaining delay", "statement": "When a mode is re-entered by history, an event suspended while the mode was inactive is resumed after exactly the delay that remained when it was left; when entered by reset it is discarded (timers restart at their offset).", "quantifier": "all event sets, all transitions, all hierarchies", "why_tests_cant": "depends on deactivation and re-entry times and nested modes", "anchors": ["core/modal_models/modes.c:_lf_process_mode_changes"]}
{"id": "C39", "title": "The coordinator computes the true minimum upstream delay", "statement": "For every pair of federates the minimum-delay table holds the minimum over all upstream paths of the sum of connection delays, and a federate is flagged as in a zero-delay cycle iff it lies on a cycle whose connections all have no delay.", "quantifier": "all topologies and delays", "why_tests_cant": "all graphs, including cyclic ones", "anchors": ["core/federated/RTI/rti_common.c:_update_min_delays_upstream", "core/federated/RTI/rti_common.c:update_min_delays_upstream"]}
{"id": "C40", "title": "A tag advance grant is never contradicted by a later message", "statement": "In every execution of the centralized coordination, once a federate has been granted (TAG) a tag, no message with a tag at or before it is afterwards forwarded to that federate.", "quantifier": "all topologies (without zero-delay cycles), all event and message histories, all network interleavings", "why_tests_cant": "global distributed interleavings", "anchors": ["core/federated/RTI/rti_common.c:tag_advance_grant_if_safe", "core/federated/RTI/rti_remote.c:handle_timed_message", "core/federated/RTI/rti_remote.c:handle_next_event_tag"]}
{"id": "C41", "title": "Grants to a federate only move forward", "statement": "The sequence of TAGs sent to a federate is strictly increasing, provisional grants are strictly increasing and never sent at or below a TAG already sent, and nothing is sent to a resigned federate.", "quantifier": "all histories of coordinator inputs", "why_tests_cant": "unbounded histories", "anchors": ["core/federated/RTI/rti_remote.c:notify_tag_advance_grant", "core/federated/RTI/rti_remote.c:notify_provisional_tag_advance_grant", "core/federated/RTI/rti_local.c:notify_tag_advance_grant"]}
{"id": "C42", "title": "The coordinator never assumes a federate is later than its in-transit messages", "statement": "The next-event tag recorded for a federate is never later than the tag of any message forwarded to it and not yet confirmed as processed.", "quantifier": "all histories", "why_tests_cant": "ordering of message, next-event and completion notifications", "anchors": ["core/federated/RTI/rti_remote.c:update_federate_next_event_tag_locked", "core/federated/RTI/rti_remote.c:handle_timed_message", "core/federated/RTI/rti_remote.c:handle_latest_tag_confirmed"]}
{"id": "C43", "title": "Federated stop agrees on a tag no federate has passed", "statement": "The stop tag granted by the coordinator is at least every proposal received, is sent exactly once to every connected federate, and is eventually sent once every connected federate has answered or left.", "quantifier": "all orders of requests, replies and resignations", "why_tests_cant": "orders of events across federates", "anchors": ["core/federated/RTI/rti_remote.c:handle_stop_request_message", "core/federated/RTI/rti_remote.c:handle_stop_request_reply", "core/federated/RTI/rti_remote.c:broadcast_stop_time_to_federates_locked"]}
{"id": "C44", "title": "Integers survive the network encoding on every host", "statement": "Encoding then extracting a 16, 32 or 64-bit integer, a tag or a header gives back the same value on little- and big-endian hosts and between hosts of different endianness; encoding writes exactly the documented bytes (little endian).", "quantifier": "all values, both byte orders", "why_tests_cant": "2^64 values and big-endian hosts are not tested", "anchors": ["core/federated/network/net_util.c"]}
{"id": "C45", "title": "All federates start at one common time after every proposal", "statement": "The start time sent to every federate is the same, later than every proposal by the fixed start delay, and is decoded by the federate as the value the coordinator chose, on every host.", "quantifier": "all proposal orders, numbers of federates and byte orders", "why_tests_cant": "barrier interleavings and big-endian hosts", "anchors": ["core/federated/RTI/rti_remote.c:handle_timestamp"]}
{"id": "C46", "title": "Socket helpers transfer exactly the requested bytes", "statement": "Whenever reading or writing on a socket reports success, exactly the requested bytes were transferred in order, however the operating system splits the transfer; otherwise an error is reported.", "quantifier": "all ways the OS may split, interrupt or fail", "why_tests_cant": "short reads/writes at arbitrary points", "anchors": ["core/federated/network/net_util.c:read_from_socket", "core/federated/network/net_util.c:write_to_socket"]}
{"id": "C47", "title": "Messages are forwarded byte-exact in chunks", "statement": "The coordinator forwards a timed message of any length to the destination byte for byte, without overrunning its buffer.", "quantifier": "all lengths including larger than the buffer", "why_tests_cant": "lengths around multiples of the buffer size", "anchors": ["core/federated/RTI/rti_remote.c:handle_timed_message"]}
{"id": "C48", "title": "Only members of the federation may join", "statement": "A federate is admitted only if it presents the coordinator's federation identifier exactly, with an identifier in range that is not already taken.", "quantifier": "all identifier strings and numbers", "why_tests_cant": "prefix comparisons", "anchors": ["core/federated/RTI/rti_remote.c:receive_and_check_fed_id_message", "core/federated/federate.c:lf_handle_p2p_connections_from_federates"]}
{"id": "C49", "title": "Coordinator addresses are validated correctly", "statement": "A port string is accepted exactly if it is a decimal number of at most five digits not above 65535; a host string is accepted only if it is an IPv4 address or a host name; a valid port is used as given, and an address with an invalid host, port or user is rejected.", "quantifier": "all strings", "why_tests_cant": "all strings; regex precedence", "anchors": ["core/federated/network/net_util.c:validate_port", "core/federated/network/net_util.c:validate_host", "core/federated/federate.c:lf_connect_to_rti"]}
{"id": "C50", "title": "The physical clock never goes backwards", "statement": "For all concurrent callers and arbitrary raw clock readings, the time reported never decreases, and as documented each value is at least one nanosecond larger than any earlier one.", "quantifier": "all interleavings and raw readings", "why_tests_cant": "compare-and-swap interleavings", "anchors": ["core/clock.c:lf_clock_gettime", "include/core/clock.h"]}
{"id": "C51", "title": "Clock synchronization estimates the offset up to the path asymmetry", "statement": "After an exchange with delays d1 and d2 the estimated error differs from the true offset by at most half the asymmetry (plus rounding); with symmetric delays it is exact, adding then subtracting the offset is the identity, and the statistics window is never overrun; an exchange whose probe was disturbed by the guard band or more changes nothing.", "quantifier": "all clock values, offsets and delays, all probe sequences", "why_tests_cant": "arithmetic over 64-bit values", "anchors": ["core/federated/clock-sync.c"]}
{"id": "C52", "title": "The level limit never lets a reaction run before its input is known", "statement": "The maximum level allowed to advance is at most the level of every network input whose status is unknown at the current tag, and is unlimited exactly if all are known.", "quantifier": "all sets of ports and statuses", "why_tests_cant": "all combinations", "anchors": ["core/federated/federate.c:lf_update_max_level"]}
{"id": "C53", "title": "Knowledge about an input port's status never regresses", "statement": "The last tag for which an input port's status is known never decreases, whatever sequence of messages, absences and grants arrives; nor does the tag granted last.", "quantifier": "all histories", "why_tests_cant": "clamping and microstep increments", "anchors": ["core/federated/federate.c:update_last_known_status_on_input_port", "core/federated/federate.c:update_last_known_status_on_input_ports"]}
{"id": "C54", "title": "Trace records are neither lost, reordered nor written out of bounds", "statement": "For every history of trace points, the records of each worker appear in the file in order and exactly once, and no buffer access is out of bounds, whatever happens to the file.", "quantifier": "all histories, file failures and worker ids", "why_tests_cant": "needs a full buffer and a failing file", "anchors": ["trace/impl/src/trace_impl.c"]}
{"id": "C55", "title": "A deadline handler runs exactly when the deadline is missed", "statement": "A reaction with a deadline runs its body if and only if it starts within the deadline, otherwise its handler, and exactly one of the two is run; downstream reactions are triggered from whichever ran.", "quantifier": "all clock readings and deadlines", "why_tests_cant": "clock readings at the boundary", "anchors": ["core/reactor_common.c", "core/reactor.c:_lf_do_step", "core/threaded/reactor_threaded.c:_lf_worker_handle_deadline_violation_for_reaction"]}
{"id": "C56", "title": "Enclaves wait for exactly the tags they may reach", "statement": "The local coordinator lets an enclave advance to a tag only if no upstream enclave can still send it an event at or before this tag.", "quantifier": "all enclave topologies and histories", "why_tests_cant": "interleavings", "anchors": ["core/federated/RTI/rti_local.c"]}
{"id": "C57", "title": "A promised next-event tag is below every later output of a physical action", "statement": "When a federate with physical actions reports a bounded next-event tag, every output it later produces because of a physical action has a strictly later tag.", "quantifier": "all clock values and minimum delays", "why_tests_cant": "clock readings", "anchors": ["core/federated/federate.c:bounded_NET"]}
{"id": "C58", "title": "Command-line time arguments are interpreted exactly", "statement": "A timeout given on the command line as number and unit is converted to exactly that many nanoseconds, and unknown units are rejected.", "quantifier": "all numbers and units", "why_tests_cant": "overflow", "anchors": ["core/reactor_common.c:process_args"]}
{"id": "C59", "title": "The adaptive scheduler never leaves work behind", "statement": "Under the adaptive scheduler every reaction put into a level's worker buffers is taken by exactly one worker before the level is left, whichever worker takes it.", "quantifier": "all interleavings and hash values", "why_tests_cant": "work stealing interleavings", "anchors": ["core/threaded/scheduler_adaptive.c"]}
{"id": "C60", "title": "Joining workers and worker counts stay in range", "statement": "The number of workers chosen per level is always between one and the maximum for that level, and only numbers of the prepared list are chosen.", "quantifier": "all measured times and jitter values", "why_tests_cant": "random jitter", "anchors": ["core/threaded/scheduler_adaptive.c"]}
{"id": "C61", "title": "Commit to a tag without waiting only when settled", "statement": "With decentralized coordination, a federate that commits to a tag other than the start tag without waiting for its safe-to-advance offset knows the status of every network input for every earlier tag.", "quantifier": "for every tag, offset and status of the input ports", "why_tests_cant": "the interesting cases depend on the exact microstep up to which each port is known", "anchors": ["core/federated/federate.c: lf_wait_until_time, inputs_known_to"]}
{"id": "C62", "title": "Inputs become known only by what arrived", "statement": "The status of a network input becomes known up to a tag only because of a message, an absence, a grant, the end of a connection or an expired wait that says so about that tag.", "quantifier": "for every state of the ports and every message, absence, grant, end of connection or expired wait", "why_tests_cant": "the violation needs an absence message to race with an expired wait at the same tag", "anchors": ["core/federated/federate.c: update_last_known_status_on_input_port, update_ports_from_staa_offsets"]}
{"id": "C63", "title": "Results do not depend on scheduler, worker count or interleaving", "statement": "Two executions of one program with the same initial state and the same triggered reactions, by any of the threaded schedulers with any numbers of workers, execute the same reactions, each once, and leave the same contents of ports and reactor state at the end of every tag that both reach, provided that reactions of one level share no state.", "quantifier": "all programs (arbitrary reaction bodies), all pairs of schedulers, numbers of workers, interleavings of workers and of their single memory accesses, all numbers of tags", "why_tests_cant": "a test observes a few interleavings; determinism is a statement about all pairs of executions", "anchors": ["core/threaded/scheduler_NP.c", "core/threaded/scheduler_adaptive.c", "core/threaded/scheduler_GEDF_NP.c", "core/reactor_common.c: _lf_invoke_reaction, schedule_output_reactions"]}
{"id": "C64", "title": "Timers fire exactly at start + offset + k * period", "statement": "In every execution a timer fires exactly once at each of the tags start + offset + k * period (microstep 0; only the first if the period is zero) up to the tag the execution has reached, and at no other tag, whatever reactions and other threads schedule in between.", "quantifier": "all programs, offsets, periods, durations, reactions and threads scheduling other triggers at any time, all numbers of steps", "why_tests_cant": "a drift or a lost firing may need a certain combination of period, stop tag and other pending events; a test sees finitely many periods", "anchors": ["core/reactor_common.c: _lf_initialize_timer, _lf_pop_events", "core/schedule.c: lf_schedule_trigger", "core/reactor.c: next"]}
{"id": "C65", "title": "A scheduled value arrives unchanged at its tag", "statement": "The value given to lf_schedule_value, lf_schedule_int or lf_schedule_copy is pending, unchanged, until the execution enters the tag of the event; there the action has exactly this value, and it keeps it for all reactions at that tag, whatever is done with other actions, ports, tokens and messages in between (unless the policy of the action is to replace pending values).", "quantifier": "all programs, values, sequences of schedule calls, messages, token operations, stop requests and tags after the call", "why_tests_cant": "values are shared, counted, recycled and reused in place; corruption needs a certain history of other tokens", "anchors": ["lib/schedule.c: lf_schedule_value, lf_schedule_int, lf_schedule_copy", "core/lf_token.c", "core/reactor_common.c: _lf_pop_events, _lf_schedule_at_tag", "lib/schedule.c: lf_schedule_trigger"]}
{"id": "C66", "title": "Startup, reset and shutdown reactions of modes run exactly when they are due", "statement": "A startup reaction of a mode runs exactly once, at the first tag at which its mode is active. A reset reaction runs at the first tag at which its mode is active after being entered by a reset, and at no other. At the last tag the shutdown reactions of exactly those modes run that have been active, even if they are not active then.", "quantifier": "all mode hierarchies, all sequences of mode changes, events, tags and stop requests", "why_tests_cant": "depends on how and in which order nested modes are entered and left, and on the tag at which the program stops", "anchors": ["core/modal_models/modes.c: _lf_handle_mode_startup_reset_reactions, _lf_handle_mode_shutdown_reactions, _lf_initialize_mode_states", "core/reactor_common.c: _lf_trigger_startup_reactions, _lf_trigger_shutdown_reactions, _lf_pop_events"]}
{"id": "C67", "title": "The threaded main loop executes like the single-threaded one, whatever other threads do while it waits", "statement": "In a threaded program (one environment, no federation) the thread that advances the tag gives up the mutex while it waits for physical time; meanwhile other threads may schedule events and request stops, the wait may be interrupted at any time, and reactions act in any order. Nevertheless: the program never ends with the error of advancing to a wrong tag; tags are entered in strictly increasing order from the start tag, each with exactly its own events; no event is lost, including one scheduled during the wait, which is handled at its own tag even if that is earlier than the tag waited for; shutdown happens exactly once, at the stop tag, which is the last tag, and then the workers end; every such execution is one the single-threaded runtime could have gone through. Unless -fast is given, a tag is entered at most 10 microseconds (the shortest wait) before physical time reaches it; and a wait that has timed out always leads to the earliest pending tag.", "quantifier": "all programs, start times, timeouts, with and without keepalive and -fast, and all interleavings of reactions' actions, actions of other threads, interruptions of the wait and (non-decreasing) clock readings", "why_tests_cant": "The outcome depends on when another thread gets the mutex between releasing it for the wait and looking at the queue again; a test sees a few interleavings, the property is about all of them.", "anchors": ["core/threaded/reactor_threaded.c: wait_until, get_next_event_tag, _lf_next_locked, lf_request_stop, _lf_initialize_start_tag", "core/threaded/scheduler_sync_tag_advance.c: should_stop_locked, _lf_sched_advance_tag_locked", "include/core/reactor_common.h: MIN_SLEEP_DURATION"]}
{"id": "C68", "title": "The platform clock follows physical time and does not go back", "statement": "On the bare-metal platforms the reading of the clock lies between the true times at the beginning and the end of the call, up to the resolution of the hardware counter, and later readings are not smaller than earlier ones, however often the hardware counter overflows. Times are converted to the system's seconds and nanoseconds and back without loss.", "quantifier": "all histories of readings, elapsed time, counter overflows and critical sections; all counter frequencies and widths; all times", "why_tests_cant": "Counters overflow after milliseconds to 71 minutes of real time and the window for a race between a reading and an overflow is a few instructions wide.", "anchors": ["low_level_platform/impl/src/lf_nrf52_support.c: _lf_clock_gettime, lf_time_lo/hi, timer overflow handler", "low_level_platform/impl/src/lf_arduino_support.c: _lf_clock_gettime", "low_level_platform/impl/src/lf_zephyr_clock_counter.c: _lf_clock_gettime, counter_overflow_callback", "low_level_platform/impl/src/lf_zephyr_clock_kernel.c: _lf_clock_gettime", "low_level_platform/impl/src/lf_unix_clock_support.c: convert_ns_to_timespec, convert_timespec_to_ns"]}
{"id": "C69", "title": "Critical sections nest, and atomic operations built on them are atomic", "statement": "On platforms that use disabled interrupts as critical sections: between entering and the matching exit no interrupt service routine runs, however deeply sections are nested; after the outermost exit interrupts are as before; an exit without an entry is reported. An atomic operation happens in one step with respect to interrupt service routines (and other cores): before it, or after it, but not in the middle.", "quantifier": "all sequences of entries and exits (up to 2^31-1 deep), all interrupt arrivals during an operation, all memory contents and arguments", "why_tests_cant": "An interrupt would have to arrive between two particular instructions.", "anchors": ["low_level_platform/impl/src/lf_{patmos,zephyr,rp2040,flexpret,nrf52,arduino}_support.c: lf_enable_interrupts_nested, lf_disable_interrupts_nested", "low_level_platform/impl/src/lf_atomic_irq.c: lf_atomic_fetch_add32, lf_atomic_add_fetch32, lf_atomic_bool_compare_and_swap32, lf_atomic_val_compare_and_swap32"]}
{"id": "C70", "title": "The interruptible sleep ends at its time or as soon as an event is notified, and says which", "statement": "The sleep of the single-threaded runtime on bare-metal platforms returns 0 only when the wake-up time has come, and -1 only if an interrupt service routine has notified an event since it was called; once an event is notified it waits no longer; and it does return when an event has been notified or the wake-up time has passed, up to the resolution of the clock.", "quantifier": "all wake-up times and all histories of elapsing time, spurious wake-ups and notifications during the sleep", "why_tests_cant": "Depends on when exactly an interrupt comes relative to the instructions of the sleep, and on sleeps longer than the range of a hardware counter.", "anchors": ["low_level_platform/impl/src/lf_{patmos,arduino,rp2040,nrf52,flexpret}_support.c: _lf_interruptable_sleep_until_locked, _lf_single_threaded_notify_of_event", "low_level_platform/impl/src/lf_zephyr_clock_counter.c, lf_zephyr_clock_kernel.c: _lf_interruptable_sleep_until_locked", "low_level_platform/api/platform/lf_zephyr_board_support.h"]}
{"id": "C71", "title": "Thread priorities keep their order; thread ids and thread structures are never shared", "statement": "The priorities 0 to 99 of a program are mapped into the range of the platform in order, the lowest to the lowest and the highest to the highest; setting a priority or policy either succeeds and has that effect or fails and changes nothing. No two threads have the same id, and ids are the numbers from 0 on in the order in which threads ask for them. On Zephyr no two threads share a stack, as many threads as configured can be created, and a further request is refused.", "quantifier": "all priorities and ranges of the platform (as far as int arithmetic goes), all answers of the operating system, all sequences of calls by any threads", "why_tests_cant": "The existing test tries two priorities and does not look at what the system was told; errors leave state behind that only later calls show.", "anchors": ["low_level_platform/impl/src/lf_platform_util.c: map_priorities, lf_thread_id, initialize_lf_thread_id", "low_level_platform/impl/src/lf_linux_support.c: lf_thread_set_priority, lf_thread_set_scheduling_policy", "low_level_platform/impl/src/lf_zephyr_support.c: lf_thread_create, lf_thread_set_priority"]}
{"id": "C72", "title": "Condition variables lose no notification and give up the mutex while waiting", "statement": "A thread that waits for a condition variable does not hold the mutex meanwhile and holds it when the wait returns; a notification after the mutex was released is not lost, wherever the waiting thread then is; no thread is woken more often than someone has notified; a timed wait does the same and ends at its time at the latest.", "quantifier": "all interleavings of the two cores and their interrupt routines of the RP2040, where condition variables are built from semaphores", "why_tests_cant": "A lost notification needs the other core to notify between two instructions of the waiting one.", "anchors": ["low_level_platform/impl/src/lf_rp2040_support.c: lf_cond_init, lf_cond_broadcast, lf_cond_signal, lf_cond_wait, _lf_cond_timedwait, lf_mutex_lock, lf_mutex_unlock"]}
{"id": "C73", "title": "Centralized coordination does not deadlock", "statement": "In a federation without zero-delay cycles, whenever all messages have arrived, every federate has announced its next event and some federate still has an event, some federate may start the tag of its next event: the coordinator never leaves every federate waiting for another one.", "quantifier": "any number of federates, any connections and delays, all events, all interleavings of federates, channels and coordinator, with federates leaving at any time", "why_tests_cant": "A deadlock needs a particular combination of announcements, confirmations and departures; tests end before a starving federate is noticed.", "anchors": ["core/federated/RTI/rti_common.c: tag_advance_grant_if_safe, notify_advance_grant_if_safe, notify_downstream_advance_grant_if_safe, update_scheduling_node_next_event_tag_locked, _logical_tag_complete", "core/federated/RTI/rti_remote.c: notify_tag_advance_grant, handle_timed_message, handle_next_event_tag, handle_federate_resign", "core/federated/federate.c: lf_send_next_event_tag, lf_latest_tag_complete"]}
{"id": "C74", "title": "Federated execution is deterministic", "statement": "In a federation of deterministic federates under centralized coordination, every execution gives the same result: each federate executes the same tags with the same inputs, whatever the interleaving, the message delays and the arrival order. Of two executions, the history of a federate in one is a beginning of its history in the other; when both are at the end, all states and outputs are equal; and at every tag passed a federate has seen exactly what was sent to it or scheduled for that tag.", "quantifier": "any number of federates, any connections and delays without zero-delay cycles, any deterministic programs and data, all pairs of interleavings of federates, channels and coordinator", "why_tests_cant": "Nondeterminism shows up only for particular races between messages, grants and local events; two equal test runs say nothing about the other schedules.", "anchors": ["core/federated/federate.c: lf_send_tagged_message, handle_tagged_message, lf_send_next_event_tag, lf_latest_tag_complete", "core/federated/RTI/rti_remote.c: handle_timed_message, notify_tag_advance_grant", "core/federated/RTI/rti_common.c: tag_advance_grant_if_safe", "core/reactor_common.c: _lf_pop_events"]}
{"id": "C75", "title": "Trace files are read back as they were written", "statement": "Reading a trace file gives the start time, the table of traced objects and exactly the records that were traced, in order, each with the fields that were given to the tracepoint. A file that was cut off at any point is read up to its last complete buffer, without an access out of bounds. An object that cannot be registered is reported to the caller.", "quantifier": "all start times, tables of objects, records and contents of padding bytes; all splittings into buffers; all points at which the file is cut off; both byte orders", "why_tests_cant": "The file format is an agreement between two programs over all values, lengths and truncation points; a test compares a few traces on one machine.", "anchors": ["trace/impl/src/trace_impl.c: write_trace_header, flush_trace_locked, lf_tracing_register_trace_event", "core/tracepoint.c: call_tracepoint, _lf_register_trace_event", "util/tracing/trace_util.c: read_header, read_trace"]}
{"id": "C76", "title": "Converting a trace to a table loses and invents nothing", "statement": "Converting a trace to comma-separated values gives one row per record in the requested time window, in order, with the names of the reactor and the trigger; and a summary that says for each event type how often it occurs, for each reaction, worker, trigger and user event how often and with which total, average, largest and smallest time or value. The conversion of any trace that the runtime writes is free of overflows and accesses out of bounds.", "quantifier": "all object tables, all traces of any length, all time windows", "why_tests_cant": "The statistics are accumulated over traces of millions of records with any interleaving of reactors and workers; tests compare a few short traces.", "anchors": ["util/tracing/trace_to_csv.c: read_and_write_trace, write_summary_file", "util/tracing/trace_util.c: get_object_description, get_trigger_name", "core/tracepoint.c: tracepoint_schedule, tracepoint_user_value, tracepoint_federate_to_rti"]}
{"id": "C77", "title": "Provisional grants in zero-delay cycles are safe", "statement": "In a federation with cycles of connections without delay, a federate never ends with an error because of a message that comes too late or a provisional grant (PTAG) after a grant: every message it is sent after a TAG has a later tag, every message it is sent after a PTAG has no earlier tag, and one with the tag it is executing arrives while its input is still awaited. Everything that is announced is eventually granted: no federate waits for another one that waits for a grant.", "quantifier": "any number of federates, any connections, delays and cycles, all events, all interleavings of federates, channels and coordinator, with federates leaving at any time", "why_tests_cant": "Grants, provisional grants, absences and messages cross each other on the way; the orders in which something goes wrong need particular combinations of next events and delays.", "anchors": ["core/federated/RTI/rti_common.c: tag_advance_grant_if_safe, eimt_strict, earliest_future_incoming_message_tag, is_in_zero_delay_cycle", "core/federated/RTI/rti_remote.c: notify_provisional_tag_advance_grant, handle_port_absent_message, handle_timed_message", "core/federated/federate.c: handle_provisional_tag_advance_grant, handle_port_absent_message, handle_tagged_message, handle_message_now, update_last_known_status_on_input_port, lf_send_port_absent_to_federate"]}
{"id": "C78", "title": "Decentralized coordination: messages that arrive in time are executed at their tag", "statement": "A federate with decentralized coordination executes every message that arrives before its safe-to-advance (STA) or safe-to-assume-absent (STAA) offset has expired at exactly the message's tag, before any reaction that depends on it, and once. A message that arrives later is not lost: it is executed at a later tag, and then and only then flagged as a safe-to-process violation. The federate does not wait for ever: when the offsets have expired the reactions at the current tag go ahead.", "quantifier": "any inputs with any delays, levels and offsets, all messages and absences, all interleavings of listeners, the thread that assumes absence and the main loop, all clock readings", "why_tests_cant": "Whether a message is in time depends on races between threads within microseconds of the expiry of an offset.", "anchors": ["core/federated/federate.c: handle_tagged_message, handle_port_absent_message, schedule_message_received_from_network_locked, update_ports_from_staa_offsets, lf_wait_until_time, lf_update_max_level", "core/threaded/reactor_threaded.c: wait_until, _lf_next_locked, _lf_initialize_start_tag, _lf_increment_tag_barrier_locked, _lf_wait_on_tag_barrier", "core/reactor_common.c: _lf_pop_events, _lf_schedule_at_tag"]}
{"id": "C79", "title": "Tardiness handlers are invoked exactly where a tardy message leads", "statement": "In a federate with decentralized coordination, the tardiness (STP violation) handler of a reaction is invoked instead of the reaction exactly at the tags at which a tardy message has led to the reaction, directly or through the outputs of other reactions, unless the handler of a reaction on the way has already dealt with it. A violation at one tag never causes a handler to be invoked at a later tag.", "quantifier": "any reactions, handlers, connections and outputs set by reactions and handlers, all sequences of tardy and in-time messages, any order of execution, any missed deadlines", "why_tests_cant": "Flags are passed along chains of reactions, some of which are executed without going through the queue; which chains and handlers interfere depends on the program and the order of execution.", "anchors": ["core/reactor_common.c: schedule_output_reactions, _lf_pop_events, _lf_insert_reactions_for_trigger", "core/threaded/reactor_threaded.c: _lf_worker_handle_STP_violation_for_reaction, _lf_worker_handle_deadline_violation_for_reaction, _lf_worker_handle_violations, _lf_worker_invoke_reaction"]}
{"id": "C80", "title": "Python code sees ports and tags as they are", "statement": "A Python reaction finds each channel of a multiport under its index and by iterating over the multiport, each exactly once and in order; an index that is not a channel raises an exception. A port is present if and only if it has been set at the current tag, with the value it was set to last, and has the value None when absent. len() is the width. A Python tag has the time and microstep it was created with or an exception is raised, and comparisons follow the order of tags. The arguments of start() reach the runtime, and a reaction is found exactly if it is a callable attribute of its reactor.", "quantifier": "all widths, indices and kinds of keys, all sequences of setting channels over all tags, all loops including nested and abandoned ones, all times and microsteps including those out of range, sizes of long and byte orders, all argument lists", "why_tests_cant": "Tests use valid indices, one loop at a time and small microsteps on one platform; stale values, shared positions and conversions without range checks only show for particular histories, numbers and platforms.", "anchors": ["python/lib/python_port.c: py_port_set, py_port_iter, py_port_iter_next, py_port_capsule_get_item, py_port_length", "python/lib/python_tag.c: Tag_init, Tag_richcompare, py_tag_compare", "python/lib/pythontarget.c: convert_C_port_to_py, _lf_py_parse_argv_impl, py_main, get_python_function"]}
{"id": "C81", "title": "Python objects live as long as anything refers to them", "statement": "A Python object that is sent through ports, actions and delayed connections stays alive as long as Python code, a port, an action or a pending event refers to it, and is released when nothing refers to it anymore. The same holds for the port and action objects that reactions get. A value given to an action is the value the action shows when the event is handled.", "quantifier": "all sequences of creating, keeping and dropping references, setting ports, scheduling actions with and without values, handling events and reading values, in any order and over any number of tags", "why_tests_cant": "A missing or surplus reference shows as a leak or as a crash only for particular orders of keeping, setting and dropping, and often only much later.", "anchors": ["python/lib/python_port.c: py_port_set, py_port_capsule_dealloc, py_port_iter_next, py_port_capsule_get_item, python_count_decrement", "python/lib/python_action.c: py_action_capsule_dealloc, py_action_capsule_t", "python/lib/pythontarget.c: py_schedule, convert_C_port_to_py, convert_C_action_to_py", "core/lf_token.c: _lf_free_token_value, _lf_get_token, _lf_replace_template_token, _lf_done_using"]}
{"id": "C82", "title": "The coordinator runs with the options on its command line", "statement": "Started with documented options, in any order and with short or long names, the coordinator runs with exactly the federation name, number of federates, port, clock synchronization, authentication and tracing that were written; of an option given twice the last one counts. A command line with an unknown option, a missing argument or a number out of range is rejected with exit status -1, without undefined behaviour. For every accepted number of federates one record is created and later freed.", "quantifier": "all command lines made of the documented options with any strings and numbers, and all wrong command lines after any such beginning", "why_tests_cant": "Command lines are unbounded combinations of options and numbers; the order of options and the size of numbers decide which code path is taken.", "anchors": ["core/federated/RTI/main.c: process_args, process_clock_sync_args, termination, main", "core/federated/RTI/rti_remote.c: initialize_RTI, free_scheduling_nodes"]}
{"id": "C83", "title": "Termination releases what the runtime allocated, once", "statement": "When a program terminates normally, every block that the runtime allocated for reactors, environments, schedulers, events, modes and watchdogs is released, no block is released twice, and none is used after its release; memory that the program itself holds is not touched. The number of events allocated for an environment is the largest number pending at any one time, however long the program runs.", "quantifier": "all configurations of environments, all three schedulers, all sequences of creations, allocations, scheduled, handled, suspended and resumed events, and all initial heaps", "why_tests_cant": "Which blocks exist at termination depends on the whole history of the program; a leak or a double free shows only for particular configurations and does not change the outputs.", "anchors": ["core/reactor_common.c: lf_allocate, lf_free, lf_new_reactor, lf_free_reactor, lf_free_all_reactors, lf_get_new_event, termination", "core/environment.c: environment_init, environment_free", "core/threaded/scheduler_NP.c, scheduler_GEDF_NP.c, scheduler_adaptive.c: lf_sched_init, lf_sched_free", "core/modal_models/modes.c: _lf_terminate_modal_reactors", "core/threaded/watchdog.c: _lf_initialize_watchdogs"]}
{"id": "C84", "title": "Direct connections join the right federates", "statement": "When federates set up direct connections, each federate that completes its connections holds, for every peer, a connection that it made to the server of that peer and that the peer holds as the one from this federate; a server whose thread ends holds one connection from each federate that connects to it; the address used is that of the peer asked for; and attempts to reach a peer that does not answer end after a bounded time.", "quantifier": "all federations, topologies, ports and hosts, all interleavings of the steps of federates, coordinator and network, all messages of other programs, all durations", "why_tests_cant": "Which server is up, known or busy when a federate asks depends on the order in which independent processes start, and a wrong link only shows for some combination of hosts, ports and start orders.", "anchors": ["core/federated/federate.c: lf_connect_to_federate, lf_create_server, lf_handle_p2p_connections_from_federates", "core/federated/RTI/rti_remote.c: handle_address_query, handle_address_ad, lf_connect_to_federates, initialize_federate"]}
{"id": "C85", "title": "A federate joins its federation whatever the timing", "statement": "A federate that reaches the coordinator of its federation is admitted, after which the coordinator knows its neighbors and delays exactly as the federate has them and both have made the same clock-synchronization exchanges; a federate that may not join learns the reason; and the search over ports reaches the port that the coordinator bound. The outcome does not depend on the order in which the two programs read and write.", "quantifier": "all federates, coordinators, ids, topologies, clock-synchronization settings and clock readings, all interleavings of the two programs, all sets of free ports", "why_tests_cant": "The two programs are started and configured independently, so the number of combinations of settings and interleavings is unbounded, and a disagreement shows as a program that waits for ever.", "anchors": ["core/federated/federate.c: lf_connect_to_rti", "core/federated/clock-sync.c: setup_clock_synchronization_with_rti, synchronize_initial_physical_clock_with_rti, handle_T1_clock_sync_message, handle_T4_clock_sync_message", "core/federated/RTI/rti_remote.c: create_rti_server, receive_and_check_fed_id_message, receive_connection_information, receive_udp_message_and_set_up_clock_sync"]}
{"id": "C86", "title": "Authentication lets in federates of the federation and nobody else", "statement": "With authentication on both sides a federate of the federation joins as it would without; a program is admitted only if it proves, for a fresh nonce, that it knows the federation id; a federate tells its federation id only to a coordinator that proves the same; and a program that fails to authenticate is turned away while the coordinator goes on.", "quantifier": "all hash functions of 32 bytes, nonces, federation ids, federates and coordinators, all behaviours of the other program, all interleavings", "why_tests_cant": "The claim is about every program an attacker may run against the coordinator and every schedule; tests can only try a few.", "anchors": ["core/federated/federate.c: perform_hmac_authentication, lf_connect_to_rti", "core/federated/RTI/rti_remote.c: authenticate_federate, lf_connect_to_federates"]}
{"id": "C87", "title": "Clock synchronization goes on at runtime", "statement": "While a federate takes part, the coordinator keeps going round: each federate that takes part has one exchange in every round, a federate computes with the times of one and the same exchange, and a lost datagram, a datagram of another program or a federate that leaves costs at most the exchanges it belongs to.", "quantifier": "all numbers of federates and choices of those that take part, all times, all interleavings of the coordinator and the federates, all losses, strays and departures", "why_tests_cant": "What breaks is a single datagram lost or inserted at one of many places in an endless exchange among many threads; tests run over a loopback that loses nothing.", "anchors": ["core/federated/RTI/rti_remote.c: clock_synchronization_thread, send_physical_clock, handle_physical_clock_sync_message", "core/federated/clock-sync.c: listen_to_rti_UDP_thread, handle_T1_clock_sync_message, handle_T4_clock_sync_message"]}
{"id": "C88", "title": "A federate that leaves does not hold up the others", "statement": "Whoever waits for federates that have all left - by resigning, by reporting a failure or by dying - is granted every tag, and a federate that has left is not waited for.", "quantifier": "all topologies, all histories of messages to the coordinator, all moments at which federates leave", "why_tests_cant": "A federate may leave in any state of the others and of the coordinator's tables; tests kill few federates at few moments.", "anchors": ["core/federated/RTI/rti_remote.c: handle_federate_resign, handle_federate_failed, federate_info_thread_TCP", "core/federated/RTI/rti_common.c: notify_downstream_advance_grant_if_safe, tag_advance_grant_if_safe"]}
{"id": "C89", "title": "A federation ends", "statement": "Whichever federates terminate, in whatever order, normally or not, they and the coordinator finish with it in a bounded number of steps and nobody waits for ever; what a federate sent before it terminated normally is read; meanwhile the coordinator goes on serving the others, and a bad message on one connection disturbs only that connection.", "quantifier": "all numbers of federates, all connections between them, all orders and kinds of termination, all schedules of the threads of the federates and of the coordinator", "why_tests_cant": "A deadlock between half-closed connections, joined threads and the coordinator's mutex shows only in particular interleavings of three threads per federate and one per federate in the coordinator.", "anchors": ["core/federated/federate.c: lf_terminate_execution, close_inbound_socket, close_outbound_socket, listen_to_federates, listen_to_rti_TCP", "core/federated/RTI/rti_remote.c: handle_federate_resign, handle_federate_failed, federate_info_thread_TCP"]}
{"id": "C90", "title": "A federate with physical actions keeps and renews its promises", "statement": "Once a federate has announced its next tag to the coordinator, it produces no output with an earlier tag that does not go back to a message, whenever its physical actions happen; and while it has nothing to do it announces later tags as physical time passes, at the configured interval, so that downstream federates are not held up.", "quantifier": "all programs, all moments of physical actions, all ends of waits (timeouts, interruptions, spurious wake-ups), all minimum delays and intervals", "why_tests_cant": "A broken promise needs a physical action at a particular nanosecond relative to the announcement; tests do not control the physical clock.", "anchors": ["core/federated/federate.c: bounded_NET, lf_send_next_event_tag", "lib/schedule.c: lf_schedule_trigger", "core/threaded/reactor_threaded.c: _lf_next_locked", "core/reactor_common.c: _lf_create_dummy_events, _lf_advance_tag"]}
{"id": "C91", "title": "The start of a federation is orderly for every schedule of the coordinator's threads", "statement": "Nothing reaches a federate before its start time, which it is sent exactly once; grants that become possible while a federate waits for its start time are held back and then sent, in increasing order, and are safe when they are sent; and when every federate proposes a start time, every federate is sent one.", "quantifier": "all federations, all interleavings of the coordinator's threads (one per federate) at the points at which they release its mutex, all completed tags, federates that die at any point", "why_tests_cant": "The order in which waiting threads wake up is up to the operating system, and the window in which one federate runs while another has not been sent its start time is a few microseconds in tests.", "anchors": ["core/federated/RTI/rti_remote.c: handle_timestamp, notify_tag_advance_grant, federate_info_thread_TCP", "core/federated/RTI/rti_common.c: tag_advance_grant_if_safe, _logical_tag_complete"]}
{"id": "C92", "title": "Wave files are read back as they were written", "statement": "Reading a wave file in the supported format gives the number of samples, the number of channels and all samples that were written, whatever other chunks the file has; for every other file the reader comes to an end and reports failure instead of returning undefined data.", "quantifier": "all sequences of samples, channels, further chunks and trailing bytes; for the second part all sequences of bytes", "why_tests_cant": "There are unboundedly many layouts of chunks and damaged files; undefined behaviour such as reading bytes that were never written usually goes unnoticed in a test.", "anchors": ["util/wave_file_reader.c: read_wave_file", "util/wave_file_reader.h: lf_waveform_t"]}
{"id": "C93", "title": "The sensor simulator shows what is printed and schedules what is typed", "statement": "Between the start and the end of the sensor simulator every message and every tick is shown exactly once, unchanged, in the order of the calls and inside its window; registering a key gives the documented result; and a key that is typed schedules the action registered for it and the one for any key, with the key as payload. Starting it again and ending it twice do no harm.", "quantifier": "all sequences of calls, all moments at which the output thread runs, all texts, keys, actions and sizes of windows", "why_tests_cant": "The moments at which the output thread runs and the texts that are printed are unbounded; using a text as a format is undefined only for some texts.", "anchors": ["util/sensor_simulator.c: start_sensor_simulator, end_sensor_simulator, show_tick, register_sensor_key, _lf_sensor_post_message, _lf_sensor_simulator_thread, _lf_sensor_read_input, _lf_print_message_function", "util/sensor_simulator.h"]}
{"id": "C94", "title": "Messages on physical connections arrive unchanged, once and in order", "statement": "Of the messages that federates send to another federate on physical connections, those that arrive are the first of those sent with success, each unchanged, at its port, exactly once and in the order of sending. A message whose send reports a failure never arrives, and none is sent after it. When no send and no read fails all messages arrive. The receiver uses no memory beyond the messages.", "quantifier": "all sequences of messages from any threads, all contents and lengths, all ways in which the operating systems split, delay and break the transfer, both byte orders", "why_tests_cant": "The points at which reads and writes are split or fail are unbounded, and the faults appear only for messages of gigabytes or for contents without a null byte.", "anchors": ["core/federated/federate.c: lf_send_message, handle_message, listen_to_federates, action_for_port", "lib/schedule.c: lf_schedule_value", "core/federated/network/net_util.c"]}
{"id": "C95", "title": "Messages are printed whole, at their level and with their identification", "statement": "A message is printed exactly when its level is at most the larger of the logging level of the program and the level registered last. It is printed in one piece: identification of the federate or of the RTI, prefix of its kind, the text that its format and arguments ask for, and a newline, by the function registered last or on the standard output. Errors are always printed; a fatal error ends the program with a failure after it has been printed and nothing else does.", "quantifier": "all sequences of messages and registrations, all formats, arguments, levels, names and identities of federates, all conversions of the C library", "why_tests_cant": "Formats and names have any length, so that a buffer which is too short may only show for one of them; the interplay of levels and registrations is unbounded; the race with a registration needs one interleaving.", "anchors": ["core/utils/util.c: _lf_message_print, lf_print, lf_print_error_and_exit, lf_print_error_system_failure, lf_register_print_function", "logging/api/logging.h", "logging/api/logging_macros.h"]}
{"id": "C96", "title": "A threaded program starts its threads once and has room for all of them", "statement": "The number of workers is the one given on the command line, else the one fixed in the program, else the smaller of the number of cores and the breadth of the reaction graph, and at least one. Every worker of every environment is started exactly once and awaited exactly once, the first one on the main thread; if a thread cannot be made the program exits. Every worker has its own number below the number of workers, and exactly the last one to leave tells the coordination that the environment is done. Each thread of the program and of the RTI has its own place in the trace, whatever the order in which the threads begin: no event is lost, written out of bounds, or ends the program.", "quantifier": "all programs (numbers of environments, workers, watchdogs, federates), all orders in which threads begin and leave, all sequences of traced events, all failures of thread creation", "why_tests_cant": "Identifiers are given in the order in which threads happen to begin, so that only some schedules reach the first identifier without room; the number of threads is unbounded.", "anchors": ["core/threaded/reactor_threaded.c: worker, determine_number_of_workers, lf_reactor_c_main", "core/reactor_common.c: initialize_global", "core/threaded/watchdog.c: _lf_initialize_watchdogs", "low_level_platform/impl/src/lf_platform_util.c: initialize_lf_thread_id", "core/federated/RTI/main.c: main"]}
{"id": "C97", "title": "A trace is shown faithfully in the viewer of the Chrome browser", "statement": "What trace_to_chrome writes for a trace is a JSON text. On the line of every worker the viewer shows exactly the beginnings and ends of reactions, waits and time advances that the trace has for that worker, in order and at their physical times; every call to schedule is shown with the name of its trigger at the logical time it asks for, every user event and value with its name and value, every missed deadline as such, and every reaction at its logical time with its own number. Every process and line has a name.", "quantifier": "all object tables and names, all traces (kinds of events, workers, reactions, times, microsteps), with and without the option -p", "why_tests_cant": "Whether the text is well formed and the picture complete depends on every name, number and time in the trace.", "anchors": ["util/tracing/trace_to_chrome.c: read_and_write_trace, write_metadata_events, main", "util/tracing/trace_util.c: get_object_description, get_trigger_name", "trace/api/types/trace_types.h: trace_event_names", "include/core/tracepoint.h: tracepoint_scheduler_advancing_time_starts"]}
{"id": "C98", "title": "Sounds are heard whole, at their time and without distortion", "statement": "A program may play sounds and ticks at given times. Every sound is heard from the sample of its time on, added to the others, whole, also if it goes on after the buffer in which it begins; a sound for a time that has passed is heard at once and the caller is told; a call for a time after the buffer being filled waits, and is not late when it goes on. No amplitude exceeds the largest one, eight sounds can be heard at once, and no call reads outside of a sound.", "quantifier": "all sounds, volumes and times, all interleavings of calls with the audio loop, of any length", "why_tests_cant": "What is heard depends on where each sound lies relative to the buffers and on how calls interleave with the audio thread; the sound card is not observable by a unit test.", "anchors": ["util/audio_loop_linux.c: lf_start_audio_loop, lf_play_audio_waveform, run_audio_loop, callback, add_to_sound", "util/audio_loop.h", "util/wave_file_reader.h"]}
{"id": "C99", "title": "A trace reaches the database as it is", "statement": "trace_to_influxdb sends one point for every entry of a trace that is not about federates, in the order of the trace and up to the first failure of the connection; what the database reads in the line of a point are the kind of the entry, the names of its reactor and trigger, its reaction, worker, times, microstep and delay. The request goes to the host, port, organization and bucket that were given, with the token, wherever the options stand on the command line; different entries are different points; and the number of records that is printed is the number sent.", "quantifier": "all traces, object tables and names, all settings and orders of options, all results of the connection", "why_tests_cant": "Whether a line is read back as it was meant depends on every name and on the length of every line; limits are met only by particular lengths of names, tokens and addresses.", "anchors": ["util/tracing/trace_to_influxdb.c: read_and_write_trace, main", "util/tracing/influxdb.h: post_curl, _format_line2, _escaped_append", "util/tracing/trace_util.c: get_object_description, get_trigger_name"]}
{"id": "C100", "title": "On macOS too, sounds are heard at their times and without gaps", "statement": "On macOS a sound that lf_play_audio_waveform is asked to play is heard from its time on, all of it and added to the other sounds, also where one buffer ends and the next begins; a call waits exactly when its time is after the buffer being filled and returns 1 exactly when its time has passed; no amplitude leaves the range of the sound card.", "quantifier": "all sounds, volumes and times, all orders of calls and of the callbacks of the audio queue", "why_tests_cant": "What is heard depends on where every sound begins in a buffer, on how many others still go on and on when the callback comes.", "anchors": ["util/audio_loop_mac.c: callback, lf_start_audio_loop, lf_play_audio_waveform, add_to_sound"]}
{"id": "C101", "title": "A program that traces runs only with a plugin that was built for it", "statement": "When a program with tracing starts, it goes on exactly if the tracing plugin was built for the same number of threads (one or many), the same build type, the same log level and the same version of the runtime, or the plugin declares that this does not matter; otherwise it stops and says rightly what does not fit. The plugin of this repository, built like the program, is always accepted.", "quantifier": "all builds of a program and all versions that a plugin declares", "why_tests_cant": "A test runs one build of the program against one build of the plugin; the check must hold for every pair of builds, also for those where the checks themselves are compiled out.", "anchors": ["core/reactor_common.c: check_version, initialize_global", "trace/impl/src/trace_impl.c: version, lf_version_tracing", "version/api/lf_core_version.h", "logging/api/logging_macros.h: LF_ASSERT"]}
{"id": "C102", "title": "Absent outputs are reported once at every tag", "statement": "At a tag of a federate, every reaction that tells other federates about an absent output and is not yet queued or running is queued exactly once, however often the table of these reactions names it; all other reactions and the order of what is queued already are left alone; calling this several times at a tag queues nothing twice; and a federate under centralized coordination that no other depends on queues none.", "quantifier": "all tables of reactions (with empty places and repetitions), all states of reactions and contents of the queue, any number of calls", "why_tests_cant": "It must hold for every table and for every mixture of reactions that are idle, queued or running when the tag begins.", "anchors": ["core/federated/federate.c: lf_enqueue_port_absent_reactions", "core/threaded/scheduler_NP.c, scheduler_GEDF_NP.c, scheduler_adaptive.c: lf_scheduler_trigger_reaction"]}
{"id": "C103", "title": "On Windows, time and waits are as on other platforms", "statement": "On Windows the physical clock counts nanoseconds for every frequency of the performance counter, does not go back, and a failure to read it is reported; a sleep lasts as long as asked and returns 0 if it went well; a single-threaded program never handles an event before its time; a timed wait on a condition returns LF_TIMEOUT exactly when the time has come; and joining a thread gives its exit status.", "quantifier": "all frequencies, counter values and dates; all durations; all delays, failures and wake-ups of timers and condition variables", "why_tests_cant": "Frequencies differ from machine to machine, and failures of timers, waits of weeks and remainders of less than 100 ns do not occur in tests.", "anchors": ["low_level_platform/impl/src/lf_windows_support.c: _lf_initialize_clock, _lf_clock_gettime, lf_sleep, _lf_interruptable_sleep_until_locked, _lf_cond_timedwait, lf_thread_join", "core/reactor.c: wait_until, next"]}
{"id": "C104", "title": "On Arduino boards, threaded programs do not go on before their time", "statement": "On Arduino boards with mbed, a timed wait of a threaded program on a condition reports a timeout only when the time has come, for every length of the wait; a wait for a time that has passed ends at once; and a program that is notified while it waits looks at its events again.", "quantifier": "all times and readings of the clock, all ends of a wait", "why_tests_cant": "Waits that do not last whole milliseconds, last weeks or begin after their time depend on the readings of the clock and on when the thread is held up.", "anchors": ["low_level_platform/impl/src/lf_arduino_support.c: _lf_cond_timedwait", "low_level_platform/impl/src/arduino_mbed/ConditionWrapper.cpp: condition_wait_for", "core/threaded/reactor_threaded.c: wait_until"]}
