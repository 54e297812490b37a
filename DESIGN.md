# A Rocq model of lf-lang/reactor-c

Source modelled: `/repo` at the pinned commit (read as text, never built or run).
Toolchain: Coq 8.16.1, standard library and std++ only (no plugins, no axioms of our own).

## 1. Layout

`rocq/theories/`

* `X.v` — *model* of one source module: total, computable functions, every definition
  cites the file and lines it models and says what it simplifies.  No proofs.
* `XProofs.v` — lemmas about it.
* `XProps.v` — the property theorems.  Each is stated against a small
  specification (in the same file or in `XSpec.v`), is proved by `exact lemma`, and is followed by an
  `Example` showing that a concrete non-trivial case meets its hypotheses, and by
  `Print Assumptions`.

`properties.jsonl` lists the English properties, `MANIFEST.json` maps them to
theorems, `seeded/LOG.jsonl` logs the seeded-bug experiments.

## 2. Modelling conventions

* Machine integers are `Z`/`N` with explicit range predicates; wrap-around is
  written explicitly (`mod 2^32`, `mod 2^64`) where the C type is unsigned.
  Signed overflow, out-of-bounds access, use of uninitialised or freed memory,
  invalid shifts are *distinct outcomes* (`UB`), never silently totalised.
* Heap data structures are modelled as stores (finite maps/functions from ids to records) when
  aliasing matters (token reference counts, element positions), as lists otherwise.
* Threads: small-step transition systems, one step per critical section or per
  atomic instruction; theorems quantify over every interleaving
  (reflexive-transitive closure of the step relation).
* Distributed behaviour: transition system with FIFO channels and arbitrary
  interleaving of sends, deliveries and local steps.
* A property which the faithful model violates is proved as `…_refuted` with a
  witness run, recorded in section 5, and the strongest true variant is proved next to it.

## 3. Plan per property

"Files" names the model; specification, proofs and theorems are in the files with the
suffixes of section 1.  The status is the one of `MANIFEST.json`.

| id | files | what is modelled and how it is proved |
|----|-------|-------|
| C01 | `Tag.v` | `lf_tag_compare`; case analysis against the lexicographic order |
| C02 | `Tag.v` | `lf_time_add`, both with overflow as undefined behaviour and with two's-complement wrap; equality with an independent saturating sum, ISO reading refuted |
| C03 | `Tag.v` | `lf_tag_add`; algebraic laws, monotonicity refuted at microstep overflow |
| C04 | `Tag.v` | `lf_delay_tag` with 32-bit microstep wrap; laws below the wrap, refutation at it |
| C05 | `Tag.v` | `lf_delay_strict`; the bound the coordinator needs, documentation refuted |
| C06 | `TimeText.v` | the two formatters on character lists with the clause array and its bounds; an independent parser reads the number back, length bound, negative input refuted |
| C07-C09 | `Pqueue.v` | array of element ids with a position map, any comparison; heap invariant, permutation, completeness of the pruned search, `pqueue_print` refuted |
| C10 | `PqueueTag.v` | refinement to a sorted multiset of tags |
| C11 | `Vector.v` | buffer with uninitialised cells explicit; refinement to a list |
| C12 | `Deque.v` | node store with prev/next; refinement to a list |
| C13, C14 | `Hashset.v` | probing, growth, iterator; refinement to a finite set, every slot is probed |
| C15 | `Hashmap.v` | refinement to a finite map for any hash function |
| C16 | `MixedRadix.v` | value arithmetic with int overflow as undefined behaviour |
| C17 | `Semaphore.v` | any interleaving of threads; conservation invariant |
| C18-C20 | `Token.v` | token store with counts, recycling bins, allocator; invariant "count = holders" over all disciplined histories |
| C21-C24 | `Schedule.v` | `lf_schedule_trigger`, `_lf_schedule_at_tag` over event queue and token store; invariants over call sequences, three policies |
| C25, C27, C28 | `Runtime.v` | the single-threaded main loop with arbitrary reactions; invariants over runs |
| C26 | `Reactions.v` | reaction queue, `schedule_output_reactions`, immediate execution; invariants over one tag |
| C29, C30 | `Multiport.v` | sparse record and iterator, writers interleaved atomic step by atomic step |
| C31 | `SchedNP.v` | workers' program counters, one step per atomic operation; simulation by the automaton of `SchedSpec.v` |
| C32 | `SchedGEDF.v` | same, automaton of `SchedGEDFSpec.v` |
| C33, C55 | `Deadline.v` | index arithmetic; the three places that choose between body, deadline handler and STP handler |
| C34 | `TagBarrier.v` | advancement barrier and threads that wait for it; invariant over interleavings |
| C35 | `RequestStop.v` | `lf_request_stop` of threaded programs with several environments; interleavings |
| C36 | `Watchdog.v` | watchdog thread, starters, stoppers; interleavings |
| C37, C38 | `Modes.v` | `_lf_process_mode_changes` over nested modes and the event queue; invariants over histories |
| C39 | `RtiDelays.v` | the recursion that computes minimum delays equals shortest paths |
| C40 | `Federation.v` | coordinator, federates and FIFO channels; global inductive invariant |
| C41, C42 | `Rti.v` | the coordinator's handlers for NET, LTC, messages, resignation; invariants over histories |
| C43 | `RtiStop.v` | stop negotiation of coordinator and federates; invariant over histories, liveness refuted |
| C44-C47 | `Net.v` | encoders, start-time agreement, read/write loops against an arbitrary operating system, forwarding of messages |
| C48 | `Admission.v` | identification handshakes on byte buffers |
| C49 | `Regex.v`, `Address.v` | the regular expressions with an independent matcher; address parsing |
| C50 | `Clock.v` | the compare-and-swap loop, any interleaving |
| C51 | `ClockSync.v` | the clock synchronisation handlers over message histories |
| C52, C53, C57, C61, C62 | `PortStatus.v` | status of network input ports, maximum level allowed to advance, bound on NET; folds and invariants |
| C54 | `Trace.v` | trace buffers against an arbitrary file system |
| C56 | `RtiLocal.v` | enclaves' main loops over `Rti.v`'s coordinator with both mutexes; global invariant |
| C58 | `CText.v`, `Args.v` | `process_args` with `atoll`, `atoi`, `strncmp` on C strings |
| C59 | `SchedAdaptive.v` | the adaptive scheduler, one step per atomic operation; invariant |
| C60 | `AdaptiveData.v` | its worker-number optimisation over all clock readings and random numbers |
| C63 | `Determinism.v` | reaction bodies as trees of reads, writes and triggers, run by the events of the schedulers of C31, C32, C59; accepted schedules are equivalent to executing by levels |
| C64 | `Timers.v` (with `Runtime.v`) | the executions of C25; the invariant says which firing of the timer is queued or past the stop tag, by induction over the steps |
| C65 | `Values.v` (with `Token.v`, `Schedule.v`, `Runtime.v`) | the calls, messages, token operations and tags on one state; invariant: every pending event holds a reference to its token (C18's invariant with the queue among the holders), contents of held tokens are kept by every operation; induction over the operations after the call |
| C66 | `ModeReactions.v` (with `Modes.v`) | the arrays of startup, reset and shutdown reactions on top of the mode changes; the flags of a mode are characterised by the history of entered and active modes, invariant over the tags |
| C67 | `ThreadedLoop.v` (with `Runtime.v`) | the threaded main loop as operations that each hold the mutex (action, reactions finished, wake-up); refinement to the single-threaded loop of C25/C27, invariant over operations for physical time |
| C68 | `PlatformClock.v` | a hardware counter with elapsing ticks and pending overflow interrupts, and the reading code of each platform as steps between which time passes; invariant over histories; conversions as 64-bit arithmetic with overflow as an outcome |
| C69 | `CriticalSection.v` | nesting counter and interrupt flag per platform, induction over entries and exits; atomic operations as programs between whose steps interrupts arrive; two cores as interleavings |
| C70 | `PlatformSleep.v` | each platform's loop over a script of moments (time elapses, maybe a notification); induction over the script, against a two-clause specification |
| C71 | `PlatformThreads.v` | int arithmetic with overflow as an outcome; lemmas on truncating division; the id counter and the Zephyr pool as transition systems, invariant over the calls |
| C72 | `CondVar.v` | two cores whose actions interleave; forward simulation to a POSIX monitor with spurious wake-ups; invariants over actions for notifications and for the timed wait |
| C73 | `Progress.v` | the federation of C40 with the code's conditions for NET and LTC; invariant "what the coordinator knows is settled" over every step, then a minimal next event in the order of tags and zero-delay paths |
| C74 | `FedData.v` | the federation of C40 with programs and payloads; conservation invariant (everything sent is consumed at its tag or still on the way), histories replay the programs, and two executions compared by induction over tags and zero-delay paths |
| C75 | `TraceFile.v` | writer and reader as functions on byte lists; round trip by induction over the table and the buffers, truncation by the same induction with a cut in every field; joined with C54 for the whole way from the tracepoint to the reader |
| C76 | `TraceCsv.v` | the converter with its array of statistics as a fold over records, undefined behaviour as an outcome; each slot is a fold over the records that concern it, and the summary equals one computed directly from the records; definedness by induction over prefixes |
| C77 | `Provisional.v` | the coordinator of C41, the input ports of C52 and channels with absences as one transition system; invariant over every step: everything that may still reach a port (messages under way, what its source may still send, transitively) is later than the grants, the port status and the absences before it |
| C78 | `Decentralized.v` | the input ports of C52, the tag barrier, listeners, STAA thread and main loop of one federate as one transition system with a clock; invariant per input: whatever the input is taken to be known at beyond what has been announced lies so far back that its offset has expired; permutation of arrived and executed messages; progress by the number of inputs still awaited |
| C79 | `Tardy.v` | flags, queue and outputs of arbitrary reactions with the recursive scheduling of outputs; the log of a tag defines which reactions a tardy message leads to; invariants through the recursion: flags are sound, and exact for reactions with one source |
| C80 | `PyPort.v` | channels of a port and the Python objects for them, for loops with arbitrary bodies, tags with the conversions of Python's argument parser; the specification recalls what has been set since the last tag; induction over histories and loops |
| C81 | `PyRef.v` | reference counts of objects, tokens with their holders, port and action objects; invariant: every count is the sum of tokens with that value, references of Python code and lost references; the specification says what refers to an object without mentioning counts |
| C82 | `RtiArgs.v` | the loops over the arguments as functions of the list of remaining arguments; the specification says how options are written and, per setting, which value was given last; induction over the options |
| C83 | `Memory.v` | the heap as the list of live blocks with their kinds; allocation, free and reads in a monad in which a wrong free or read is undefined; separation-style triples with a frame, an invariant that every live block has one owner, induction over the history; the table `leaked` of the specification says exactly what remains |
| C84 | `Peers.v` | federates, coordinator and network as one transition system with queues for messages and pending connections, in which other programs connect too; an invariant over all operation lists ties sockets, queries, replies and ports together; the two retry loops are also modelled on their own against any behaviour of the others |
| C85 | `Duet.v`, `Join.v` | the two programs as processes that send and receive bytes over two streams; the diamond property of their steps, proved once, makes every end independent of the schedule, so that one run settles all; the port search by modular arithmetic |
| C86 | `Auth.v` | the two programs of `Join.v` with the authentication in front, over an arbitrary hash; the bytes that a program has read and sent determine where it is, which gives statements about arbitrary opponents and schedules |
| C87 | `ClockRounds.v` | the thread of the coordinator, the threads of the federates and the datagrams between them as a transition system; an invariant for the network without losses, with a measure that bounds the actions of a round; witness runs for what losses, strays and departures do |
| C88 | `Departure.v` | the coordinator of `Rti.v` with connections that close without a message; an invariant over histories, with the marks of the recursion over downstream federates |
| C89 | `Shutdown.v` | the terminating thread and the listening threads of every federate and the coordinator's threads under any schedule; a measure that every step lowers, and invariants that exclude circular waiting |
| C90 | `PhysicalNet.v` | one federate with a monotone clock, a queue of events with lower bounds of the delay to an output, and the loop that announces tags; invariant over all operations: events lead to outputs at or after everything announced, and announcements are within the minimum delay of the clock |
| C91 | `StartGrants.v` | one thread of the coordinator per federate, an operation being what it does between taking and releasing the mutex; invariant relating threads, states and what has been sent; a measure for the threads' own operations |
| C92 | `WaveFile.v` | the reader as a function of the bytes of a file, with undefined outcomes; round trip with an encoder of the format by induction over the chunks |
| C93 | `Sensor.v` | the calls of the interface and the output thread as operations on the queue, the cursors and the tables of keys; induction over the operations against the list of calls |
| C94 | `PhysMessage.v` | sender, wire and listener over the socket loops of `Net.v` with arbitrary behaviour of the operating system; the wire is the accepted messages and a proper part of one more, induction over the rounds of the listener for any beginning of the wire |
| C95 | `Logging.v` | composition of the text with the cut of `snprintf`, a model of `vfprintf` whose conversions are a parameter, the two variables with the values of each read; induction over formats and over the sequence of calls |
| C96 | `ThreadStart.v` | the threads of a program as a list, histories in which they begin in any order and record events in the trace of `Trace.v`; invariant over histories (own buffer, own records), exact count of threads against buffers; actions of the main function as a list; counter of workers by induction over histories |
| C97 | `Chrome.v` | the converter as a function from entries to events and their text; a separate recognizer for JSON (an automaton with a stack) in `ChromeSpec.v`; every fragment of text leads the automaton from state to state, lists by induction; spans of workers by induction over the trace |
| C98 | `Audio.v` | the audio loop as steps on buffers, notes and positions; in `AudioSpec.v` a player in terms of lists of frames, as it is and as it should be; simulation of the code by the player for all histories, equality of the two players for sounds that fit into their buffers; amplitudes by an invariant of all histories |
| C99 | `Influx.v` | the growing block of memory of a line, byte by byte; a separate reader of the line protocol in `InfluxSpec.v`; lines that fit into the first block are read back (induction over names), blocks of the trace and codes of the connection by induction, options by induction over the settings |
| C100 | `AudioMac.v` | the callback of macOS with the note functions of `Audio.v`; the same ideal player as C98; simulation over all histories, then a relation that lets slots differ by a last silent frame |
| C101 | `Version.v` | the check with its assertions as they are compiled with and without NDEBUG; cases over all builds and versions |
| C102 | `PortAbsent.v` | the loop over the table and the compare-and-swap of the schedulers; induction over the table for states and counts in the queue, then over the calls |
| C103 | `Windows.v` | clock, timers, timed waits and joins with every answer of Windows as an input; doubles are exact fractions; the wait loop of single-threaded programs by induction over the answers |
| C104 | `ArduinoWait.v` | the conversion of nanoseconds to 32-bit milliseconds and the two readings of the clock; mbed's wait as a relation in `ArduinoWaitSpec.v`; arithmetic for all times |

## 4. Trusted base

* Coq 8.16.1's kernel, including its virtual machine (`vm_compute` is used in some
  proofs about concrete runs; the checker re-checks them without it).
* `Print Assumptions` stands under every theorem.  It prints
  "Closed under the global context" for every one of them: no theorem rests on an axiom,
  of the standard library or other.  (Loading `Lia` and ssreflect-based libraries brings
  the modules `Coq.ssr.ssrunder.Under_rel.*` of the standard library into the
  environment, whose sealed items the checker lists; no theorem uses them.)
* The reading of the C source that each definition documents with file and lines.  The
  C code itself was neither compiled nor run.
* Assumptions about the platform, made by the models:
  atomics and mutexes are sequentially consistent; `malloc` succeeds unless a model
  says otherwise; TCP delivers bytes in order without loss; an `int` has 32 bits, a
  `long long` and a pointer 64.

## 5. Findings

Every row is a theorem with a concrete run of the model that violates the property as
first stated, or the documentation of the function.  The strongest variant that holds is
proved next to it.

| theorem | source | what the code does |
|---|---|---|
| `C02_saturation_refuted` | core/tag.c lf_time_add | The documented "saturating on overflow and underflow" does not hold in ISO C: the overflow test comes after an addition that is undefined on overflow. |
| `C03_monotone_refuted` | core/tag.c lf_tag_add | Without the microstep bound monotonicity is false: on microstep overflow the code jumps to FOREVER_TAG, beyond the sums of later tags. |
| `C04_doc_example_refuted` | core/tag.c lf_delay_tag | The documented example "tag = (FOREVER, 0), interval = 10 gives (FOREVER, 0)" (tag.h:141) is not what the code does. |
| `C04_strictly_later_refuted` | core/tag.c lf_delay_tag | At the last microstep a zero delay goes back to microstep 0. |
| `C05_below_every_later_message_refuted` | core/tag.c lf_delay_strict | At microstep overflow a later message can fall at or below the strict bound. |
| `C05_negative_interval_doc_refuted` | core/tag.c lf_delay_strict | Same documentation: only NEVER, not every negative interval, returns the unmodified tag. |
| `C05_zero_interval_doc_refuted` | core/tag.c lf_delay_strict | Documentation of lf_delay_strict (tag.h:147-161): for interval 0 it promises the unmodified tag (the latest tag below the sum), and for every negative interval the unmodified tag. |
| `C06_negative_refuted` | core/tag.c lf_comma_separated_time, lf_readable_time | Not for all 64-bit times: a negative number makes `lf_comma_separated_time` read before its array, and `lf_readable_time` prints "0" for it. |
| `C06_readable_negative_refuted` | core/tag.c lf_comma_separated_time, lf_readable_time | Lf_readable_time prints "0" for a negative time. |
| `C08_print_preserves_queue_refuted` | core/utils/pqueue_base.c pqueue_print | Printing a queue spoils the recorded positions: afterwards removing element 2 leaves element 2 in the queue and drops another one. |
| `C10_remove_up_to_forever_refuted` | core/utils/pqueue_tag.c pqueue_tag_remove_up_to | "Removes exactly the entries at most t" is false for FOREVER_TAG entries, which are never removed. |
| `C11_at_exposes_null_refuted` | core/utils/vector.c | The documentation of vector_at (vector.c:93-96) says slots beyond the end read as NULL. They hold indeterminate memory, or what an earlier pop left there. |
| `C11_zero_capacity_refuted` | core/utils/vector.c | A vector created with capacity 0 breaks: the first push writes out of bounds and vector_at never terminates (whatever number of loop iterations is allowed). |
| `C13_reserved_value_refuted` | core/utils/hashset/hashset.c | The value 1 marks deleted slots but remove and is_member do not reject it: after a removal, 1 can be reported as a member, and removing it makes the count wrong. |
| `C15_absent_key_crashes_refuted` | include/core/utils/hashmap.h | A get of an absent key does not crash as the comment on hashmap.h:136 says: in a map with room it returns an entry's never-written value. |
| `C16_to_int_overflow_refuted` | core/mixed_radix.c | the bound is needed: the running factor overflows although the value fits. |
| `C18_release_reports_refuted` | core/lf_token.c, lib/schedule.c, core/reactor_common.c | The value returned by the release functions never says that anything was freed: line 199 of lf_token.c combines with `&=` where the documentation calls for `\|=`. |
| `C18_schedule_value_frees_current_refuted` | core/lf_token.c, lib/schedule.c, core/reactor_common.c | Lf_schedule_value on an action whose template token is reused frees the action's present value while reactions still read it. |
| `C18_schedule_value_leak_refuted` | core/lf_token.c, lib/schedule.c, core/reactor_common.c | Lf_schedule_value while an event of the same action is pending loses a token: its count never reaches zero. |
| `C65_current_value_overwritten_refuted` | core/lf_token.c, lib/schedule.c | In an execution: a reaction that schedules the action it was triggered by with a new value changes the value that later reactions read at the same tag. |
| `C18_set_after_forward_leak_refuted` | core/lf_token.c, lib/schedule.c, core/reactor_common.c | Lf_set on a port that forwarded a token before loses the reference to the forwarded one. |
| `C19_end_of_tag_use_after_free_refuted` | core/lf_token.c _lf_free_token_copies, bin | With a full recycling bin the list of copies is walked through a token that was just freed. |
| `C21_physical_in_the_past_refuted` | core/reactor_common.c _lf_schedule_at_tag, lib/schedule.c lf_schedule_trigger | Without the clock condition the property fails: a physical action scheduled at a tag whose microstep is not zero, with the clock at or behind the current logical time, is put before the current tag (both in debug and in release builds). |
| `C21_release_after_stop_refuted` | core/reactor_common.c _lf_schedule_at_tag, lib/schedule.c lf_schedule_trigger | Called when the current tag is already past the stop tag, it gives back a reference it never took: here the one held by the port, whose token is recycled under it. |
| `C21_stop_leak_refuted` | core/reactor_common.c _lf_schedule_at_tag, lib/schedule.c lf_schedule_trigger | When the pile-up at successive microsteps runs past the stop tag, the call keeps the reference it took although no event holds it: the token is never given back. |
| `C23_handle_refuted` | lib/schedule.c lf_schedule_trigger | Piling an event up behind a pending one inserts it and returns handle 0 ("not scheduled"). |
| `C23_physical_duplicate_refuted` | lib/schedule.c lf_schedule_trigger | Refuted outside the discipline: two schedule calls on a physical action while the clock still shows the current logical time both land on the next microstep. |
| `C24_third_message_refuted` | core/reactor_common.c _lf_schedule_at_tag | Three messages for the same tag: the second and third get the same tag, so the action holds two events at one tag and only one of the two values can be delivered. |
| `C26_level_order_refuted` | core/reactor_common.c schedule_output_reactions | With immediate execution the order of levels is not kept: here reaction 2 (upstream of nothing relevant, level 2) runs before reaction 1 (level 1), which was already queued. |
| `C26_runs_twice_refuted` | core/reactor_common.c schedule_output_reactions | The code runs the candidate without looking at its status, so the promise of `last_ok` matters: if reaction 2 has last enabling reaction 1 but is also triggered by reaction 0 (itself upstream of 1), it runs twice. |
| `C27_stop_wrap_refuted` | core/reactor.c lf_request_stop | At the last microstep of a time the request wraps around: the stop tag becomes earlier than the current tag. |
| `C28_timer_status_refuted` | core/reactor_common.c _lf_pop_events | The status of a periodic timer is never recorded, so it is still present at a later tag at which the timer does not fire. |
| `C29_set_twice_refuted` | include/core/lf_types.h sparse record, core/port.c | With a sparse record a channel that is set twice in the same tag is reported twice. |
| `C31_empty_level_refuted` | core/threaded/scheduler_NP.c:114 | A level without reactions makes the scheduler read the first element of an array without elements (scheduler_NP.c:114; the array is allocated on line 271 with the number of reactions of the level). |
| `C32_twice_refuted` | core/threaded/scheduler_GEDF_NP.c | Without inheritance of deadlines the scheduler neither keeps the order of levels nor runs a reaction once per tag. Reactions 0 (level 0), 1 (level 1) and 2 (level 2), where 0 and 1 may trigger 2: 2 is triggered by 1, is more urgent than 0 and is executed before 0 is; then 0 triggers it again. |
| `C33_defined_refuted` | index = deadline<<16 \| level | A deadline in [2^47, 2^48) makes the signed shift by 16 undefined. |
| `C34_forever_refuted` | core/threaded/reactor_threaded.c:151, 173- | The time FOREVER is not held back (line 151). A thread without events and without a stop tag advances to it although a barrier is held. |
| `C34_unfederated_refuted` | core/threaded/reactor_threaded.c:151, 173- | In a program that is not federated nothing waits for barriers, although lf_request_stop raises them in order to keep the environments from advancing. |
| `C35_enclave_refuted` | core/threaded/reactor_threaded.c lf_request_stop | Another enclave advances past the stop tag between the two loops of lf_request_stop; it ends without its shutdown reactions. |
| `C35_microstep_refuted` | core/threaded/reactor_threaded.c lf_request_stop | At microstep 2^32-1 the stop tag wraps to one that is past. |
| `C35_thread_refuted` | core/threaded/reactor_threaded.c lf_request_stop | The same race in the only environment when the caller is a thread outside of reactions. |
| `C35_woken_refuted` | core/threaded/reactor_threaded.c lf_request_stop | Only the first environment is signalled (line 526): another one that sleeps stays asleep although its stop tag was lowered. |
| `C36_earlier_refuted` | core/threaded/watchdog.c | A restart with an earlier expiration while the watchdog sleeps is not signalled: the handler runs late. |
| `C36_handler_refuted` | core/threaded/watchdog.c | A start made by the handler itself is lost (line 128). |
| `C36_terminates_refuted` | core/threaded/watchdog.c | Lf_watchdog_start after the termination request cancels it (line 145): joining the thread never returns. |
| `C38_delay_refuted` | core/modal_models/modes.c | An event suspended in an inner mode is resumed with another delay than the one it had left, when the outer mode was left and entered meanwhile. |
| `C38_history_drops_refuted` | core/modal_models/modes.c | A history transition of the inner reactor to its present mode drops events that were suspended by the outer one. |
| `C38_nested_refuted` | core/modal_models/modes.c | Events of an inner mode stay suspended when the outer mode is entered again by history. |
| `C38_oneshot_refuted` | core/modal_models/modes.c | A one-shot timer that is still suspended is started twice when its mode is entered by reset. |
| `C38_order_refuted` | core/modal_models/modes.c | Two events at (t,0) and (t,1) are resumed in the opposite order. |
| `C38_self_reset_refuted` | core/modal_models/modes.c | A reset transition of a mode to itself does not restart its periodic timers. |
| `C66_startup_refuted` | core/modal_models/modes.c | When a mode is entered by history for the first time, the startup reactions in the initial modes of the modal reactors inside of it never run: `_lf_initialize_mode_states` requests startup only for modes that are active from the beginning. |
| `C66_shutdown_nested_refuted` | core/modal_models/modes.c | For the same reason the shutdown reactions of such a mode do not run although it was active. |
| `C66_shutdown_last_refuted` | core/reactor.c, core/threaded/reactor_threaded.c | At the last tag shutdown reactions are triggered before startup reactions: a mode that gets active there runs its startup reactions, but not its shutdown reactions. |
| `C67_early_refuted` | core/threaded/reactor_threaded.c | `wait_until` does not wait at all if the time to wait is shorter than 10 µs (`MIN_SLEEP_DURATION`), so a tag can be entered before physical time reaches it, without `-fast`. |
| `C68_nrf52_masked_refuted` | low_level_platform/impl/src/lf_nrf52_support.c | If the 32-bit timer overflows while interrupts are disabled, the clock goes back by 71 minutes until they are enabled again. |
| `C68_arduino_refuted` | low_level_platform/impl/src/lf_arduino_support.c | The last low word is compared but never stored (`_lf_time_us_low_last` keeps its initial value), so the overflow of `micros()` is never noticed and the clock goes back to 0 after 71 minutes. |
| `C68_arduino_stands_still_refuted` | core/clock.c with low_level_platform/impl/src/lf_arduino_support.c | `lf_clock_gettime` hides this from the program: for the next 71 minutes every reading is 1 ns after the one before. |
| `C68_zephyr_drift_refuted` | low_level_platform/impl/src/lf_zephyr_clock_counter.c | The epoch is taken as the top value of the counter, not the top value plus one: a tick is lost at each overflow (a second per 18 hours with a 16-bit counter at 1 MHz). |
| `C68_zephyr_race_refuted` | low_level_platform/impl/src/lf_zephyr_clock_counter.c | The counter is read before the epoch: if it overflows in between, the reading is an epoch too late, and the clock then stands still for an epoch. |
| `C68_kernel_drift_refuted` | low_level_platform/impl/src/lf_zephyr_clock_kernel.c | Nanoseconds per tick are rounded down: with a 32768 Hz timer the clock loses 68 ms per hour. |
| `C68_timespec_negative_refuted` | low_level_platform/impl/src/lf_unix_clock_support.c | A negative time gives a negative `tv_nsec`, which the system calls reject. |
| `C69_patmos_off_refuted` | low_level_platform/impl/src/lf_patmos_support.c | A critical section entered with interrupts already disabled (in an interrupt service routine) enables them at its end. |
| `C69_nrf52_refuted` | low_level_platform/impl/src/lf_nrf52_support.c | The exit from an inner section calls `sd_nvic_critical_region_exit(0)`: interrupts are enabled inside of the outer section. (Assumes that the call ends the region, as Nordic documents.) The runtime nests: atomics are used inside of `lf_schedule` and of the main loop. |
| `C69_arduino_refuted` | low_level_platform/impl/src/lf_arduino_support.c | The bodies of the two functions are swapped: disabling fails with -1 and leaves interrupts enabled, enabling disables them. |
| `C69_rp2040_cores_refuted` | low_level_platform/impl/src/lf_rp2040_support.c | The nesting counter is shared by both cores and tested before the lock is taken: both cores can be in a critical section, and two atomic increments count one. |
| `C69_flexpret_harts_refuted` | low_level_platform/impl/src/lf_flexpret_support.c | Only the interrupts of the own hardware thread are disabled: atomic operations of two hardware threads interfere. |
| `C70_rp2040_early_refuted` | low_level_platform/impl/src/lf_rp2040_support.c | The wake-up time is rounded down to a microsecond: the sleep may end before it. (The runtime advances to the tag nevertheless.) |
| `C70_nrf52_oversleep_refuted` | low_level_platform/impl/src/lf_nrf52_support.c | For sleeps longer than 2^32 - 1 µs: after the first part the timer is set to a value that may just have gone by; the sleep then lasts 71 minutes too long. |
| `C70_counter_early_refuted` | low_level_platform/impl/src/lf_zephyr_clock_counter.c | The sleep ends before its time by the "runtime overhead" of the board, 19 µs on nRF boards (deliberate, but physical time then is behind logical time). |
| `C70_counter_alarm_refuted` | low_level_platform/impl/src/lf_zephyr_clock_counter.c | Sleeps of an epoch or more set an alarm of 2^32 - 1 ticks, which a counter with fewer bits refuses: the program exits with an error. |
| `C70_flexpret_refuted` | low_level_platform/impl/src/lf_flexpret_support.c | Interrupts are enabled before the flag is cleared: an event notified in between is lost and the sleep goes on to the wake-up time. |
| `C71_linux_distinct_refuted` | low_level_platform/impl/src/lf_linux_support.c | The real-time priorities of Linux are 1 to 99, so the priorities 0 and 1 of a program are the same. |
| `C71_linux_policy_refuted` | low_level_platform/impl/src/lf_linux_support.c | A call with an invalid priority returns -1 after the thread has been given the real-time policy with the highest priority of the system. |
| `C71_zephyr_create_refuted` | low_level_platform/impl/src/lf_zephyr_support.c | When there are too many threads `lf_thread_create` returns without unlocking `thread_mutex`: the next call by another thread blocks forever. |
| `C72_timedwait_refuted` | low_level_platform/impl/src/lf_rp2040_support.c | `_lf_cond_timedwait` does not release the mutex: while a thread waits for physical time nobody else can lock the environment's mutex to schedule an event. |
| `C72_nested_wait_refuted` | low_level_platform/impl/src/lf_rp2040_support.c | A wait with the recursive mutex locked twice releases it once only and keeps it (the comment in lf_POSIX_threads_support.c says the same of POSIX). |
| `C73_progress_refuted` | core/federated/federate.c, RTI/rti_common.c | When all upstream federates of a federate have left it is granted FOREVER; from then on it announces no next event, so the coordinator's record of it stays at its last NET (or the start) and its downstream federates are never granted another tag, although nothing can reach them. |
| `C75_big_endian_refuted` | trace/impl/src/trace_impl.c:54, 107 | The numbers of objects and of records are written as the first four bytes of a `size_t`; on a big-endian 64-bit host these are zero, and the reader finds no object and no record. |
| `C75_description_refuted` | util/tracing/trace_util.c:251 | A description of 1024 or more characters is cut, but its rest stays in the file and is taken for the next object: everything after it is unreadable. |
| `C75_register_refuted` | core/tracepoint.c:50-54 | `_lf_register_trace_event` is documented to return 0 if the table is full, but always returns 1; the object is dropped silently. |
| `C76_no_tag_refuted` | util/tracing/trace_to_csv.c:121, core/tracepoint.c:165-274 | Messages without a tag are traced with the time NEVER, from which the converter subtracts the start time: a signed overflow in every federated trace that contains one. |
| `C76_workers_refuted` | util/tracing/trace_to_csv.c:219-240 | The check against too many workers forgets the entries for event types, and each entry has room for 64 waits only: worker 32 already writes out of bounds. |
| `C76_unregistered_refuted` | util/tracing/trace_util.c:150, 175 | For an object that is not in the table the index is 0 instead of the documented -1: its events are counted for, and rename, the first object of the table; the check `trigger_instance < 0` never fires. |
| `C76_minimum_refuted` | util/tracing/trace_to_csv.c:176, 208, 251 | A smallest time or value of zero stands for "none yet" and is overwritten. |
| `C76_negative_refuted` | util/tracing/trace_to_csv.c:205 | The largest value starts with 0: if all values of a user event are negative, 0 is reported. |
| `C76_waiting_refuted` | util/tracing/trace_to_csv.c:353 | All waits of a worker are left out if its last record in the trace is the beginning of a wait. |
| `C77_safe_refuted` | core/federated/federate.c:264-265, 371-381 | A further PTAG ends the wait for an input at the current tag. An absence for that tag which arrives after the next tag has been started is taken for one at the new tag; a message at that tag then ends the federate with an error. |
| `C77_cycles_refuted` | core/federated/RTI/rti_common.c:130-132 | When it decides whether a PTAG is safe the coordinator ignores all upstream federates that are on a cycle, also those on another cycle that is connected with a delay: the PTAG is too early, and a message that arrives afterwards ends the federate with an error. |
| `C77_stuck_refuted` | core/federated/RTI/rti_remote.c:252-272, rti_common.c:203-233 | A PTAG is passed on upstream only once. If at that moment the upstream federate may still get an earlier message from outside the cycle it gets no PTAG, and none later either unless it has an event at that tag: deadlock. |
| `C78_min_sleep_refuted` | core/threaded/reactor_threaded.c:197-205 | wait_until returns up to MIN_SLEEP_DURATION (10 microseconds) early: a message that arrives by t + STA, but less than 10 microseconds before, is tardy. |
| `C78_startup_refuted` | core/threaded/reactor_threaded.c:616-660, core/federated/federate.c:263-275, 660-676 | A message with the start tag that is handled between the start time and the beginning of the execution makes its input known at microstep 1, too: a message at (start, 1) is tardy although its offset has not expired. |
| `C78_absence_refuted` | core/federated/federate.c:263-275, 700-732 | An absence that arrives after the federate has advanced beyond its tag is recorded for the current tag; a message for the current tag that arrives within its STAA offset is then tardy. |
| `C78_lost_refuted` | core/reactor_common.c:483-556, core/federated/federate.c:352-400 | A message for a future microstep that is taken by a tardy message is put off by one microstep without looking whether that one is free: two messages of one input at the same tag, the value of the first is overwritten. |
| `C79_overwritten_refuted` | core/reactor_common.c:743-748 | A reaction that is triggered by a tardy reaction and then by one that is in time has its flag overwritten: its tardiness handler is not invoked. |
| `C79_inline_refuted` | core/reactor_common.c:805-824 | A tardiness handler of a reaction that is executed at once schedules its outputs before the flag is reset, unlike in reactor_threaded.c:748-755: the handlers of downstream reactions are invoked although the violation has been dealt with. |
| `C79_stale_refuted` | core/threaded/reactor_threaded.c:786-790 | If a tardy reaction misses its deadline the tardiness handler is not invoked (contrary to the note at lines 732-735) and the flag is not reset: the handler is invoked at a later tag without a tardy message. |
| `C79_twice_refuted` | core/reactor_common.c:805-850 | If a reaction that is executed at once is tardy and misses its deadline both handlers are invoked and its outputs are scheduled twice: a downstream reaction is executed twice at the same tag. |
| `C80_item_refuted` | python/lib/python_port.c:244-264 | An index out of range is not checked: every negative index other than -3 and every index beyond the width, including integers that do not fit in a long, accesses memory outside the array of channels. Python's negative indices are thus undefined behaviour. |
| `C80_set_refuted` | python/lib/python_port.c:90-101 | `set` on a multiport as a whole treats the array of pointers to channels as a port and overwrites it. |
| `C80_empty_refuted` | python/lib/python_port.c:187-190 | Iterating over a multiport of width 0 raises TypeError instead of doing nothing. |
| `C80_nested_refuted` | python/lib/python_port.c:169-195 | The position of an iteration is part of the port object: two nested loops over the same multiport never end. |
| `C80_absent_refuted` | python/lib/pythontarget.c:463-475 | "If the value is absent, it will be set to None": the value of a port that is absent is the one of the last tag at which it was present, because only is_present is reset. |
| `C80_tag_refuted` | python/lib/python_tag.c:85 | The microstep is parsed as an unsigned long without overflow check into a field of 4 bytes: numbers out of range are silently reduced, and on big-endian machines with 64-bit long the microstep is always 0. |
| `C80_args_refuted` | python/lib/pythontarget.c:210-213, 283-284 | If start() gets more than one argument an uninitialized argument count is used, with argv NULL; an argument that is not a list results in -1 arguments. |
| `C80_function_refuted` | python/lib/pythontarget.c:570-694 | "The function or NULL on error": None is returned for functions that do not exist or are not callable and for modules that cannot be loaded, so that a check for NULL does not notice. |
| `C81_stored_refuted` | python/lib/python_port.c:99-106, pythontarget.c:474-475 | Port objects keep a pointer to the value without a reference: if one is kept and its value is read after the port has been set again, a freed object is used. |
| `C81_dealloc_refuted` | python/lib/python_port.c:120-124, pythontarget.c:448 | Deallocation drops a reference to the value that was never taken, so that the value is freed while the port has it; and objects from PyObject_GC_New are freed by tp_free of a type without Py_TPFLAGS_HAVE_GC. The program only works as long as these objects are leaked. |
| `C81_item_leak_refuted` | python/lib/python_port.c:216, 276 | Each access to a channel by index or iteration leaks a port object: Py_XINCREF on a new object. |
| `C81_self_refuted` | python/lib/python_port.c:237-239 | An index on a port that is not a multiport returns the port object without a new reference. |
| `C81_action_leak_refuted` | core/lf_token.c:150-160, pythontarget.c:101-102 | Values of actions are never released: py_schedule takes a reference, actions have no destructor, and without one the Python target does nothing. |
| `C81_action_dropped_refuted` | python/lib/pythontarget.c:94, core/reactor_common.c:324 | After an event without a value the trigger has no token, and from then on the values given to schedule() are silently dropped until an event brings a token. |
| `C81_uninit_refuted` | python/lib/pythontarget.c:546-549 | The value of an action object is not initialized if the trigger has a token but the action has none. |
| `C82_dropped_refuted` | core/federated/RTI/main.c:254-255 | The word behind the clock synchronization arguments is passed over: `-c off -t` runs without tracing and without a message (`C82_ignored`: whatever the word is). |
| `C82_order_refuted` | core/federated/RTI/main.c:254-255 | For the same reason `-c init -n 3` is rejected: -n is passed over and 3 is not an option. |
| `C82_exit_refuted` | core/federated/RTI/main.c:102-106, 297-300 | An error behind -n (`-n 2 --bogus`) makes the exit handler dereference the array of federates, which is still a null pointer. |
| `C82_exit_tracing_refuted` | core/federated/RTI/main.c:110-113, trace/impl/src/trace_impl.c:272-275 | An error behind -t makes the exit handler lock the trace mutex, which does not exist yet. |
| `C82_number_refuted` | core/federated/RTI/main.c:233 | `-n 4294967298` is accepted and means 2 federates. |
| `C82_port_refuted` | core/federated/RTI/main.c:242-243 | `-p 4294967376` is accepted and means port 80: the range is checked after the conversion to 32 bits. |
| `C82_exchanges_refuted` | core/federated/RTI/main.c:194 | `exchanges-per-interval 4294967296` is accepted and means 0. |
| `C82_period_refuted` | core/federated/RTI/main.c:170-175 | A negative clock synchronization period is accepted and becomes more than 580 years. |
| `C82_junk_refuted` | core/federated/RTI/main.c:227 | `-n 3x` is accepted as 3. |
| `C82_status_refuted` | core/federated/RTI/main.c:254-255 | `-c onn` is accepted and changes nothing. |
| `C82_free_refuted` | core/federated/RTI/main.c:233, rti_remote.c:1750 | `-n 4294967295` is accepted as -1 federates: no record is created, and the release at the end (which takes a uint16_t) reads outside the array. |
| `C82_forever_refuted` | core/federated/RTI/main.c:316-325 | With 65536 federates or more the program aborts, or, with assertions compiled out, loops forever. |
| `C83_double_free_refuted` | core/reactor_common.c:1204-1208 | Two watchdogs of one reactor share `base->reactor_mutex`, which is freed for each of them: a double free at every normal termination. |
| `C83_no_reactions_refuted` | core/threaded/scheduler_NP.c (lf_sched_init, lf_sched_free) | Initialized without the number of reactions per level, the scheduler NP has no custom data, and lf_sched_free dereferences the null pointer. |
| `C83_event_refuted` | core/reactor_common.c:339-352, core/environment.c:186-187 | Events are never freed: pqueue_tag_free frees only elements marked as dynamic, and events are not. The number that remains is the largest number pending at one time. |
| `C83_scheduler_refuted` | core/threaded/scheduler_*.c, scheduler_instance.c | Every threaded environment leaves the block of its scheduler instance. |
| `C83_indexes_refuted` | core/threaded/scheduler_NP.c (lf_sched_free) | The scheduler NP also leaves its array of indexes. |
| `C83_adaptive_refuted` | core/threaded/scheduler_adaptive.c (lf_sched_free) | The adaptive scheduler leaves nine blocks per environment. |
| `C83_watchdogs_refuted` | core/environment.c:178-193, core/reactor_common.c:1204 | The arrays of watchdogs and the mutexes of watchdogs in other enclaves than the first are not freed. |
| `C84_loopback_refuted` | core/federated/RTI/rti_remote.c:741-749, 1263-1270 | The coordinator hands out the address that it saw on accept. For a federate on its own host that is 127.0.0.1, and a federate on another host with the same port connects to itself and stores that as the connection to its peer. |
| `C84_impostor_refuted` | core/federated/federate.c:2172-2240 | Any program that sends the federation id and the number of a federate takes its place: the server counts the connection, ends, and never accepts the federate itself. |
| `C84_soft_error_refuted` | core/federated/federate.c:1833-1839 | After one minute of refused connections lf_connect_to_federate just returns, and the federate runs without the connection. |
| `C84_reject_refuted` | core/federated/federate.c:1873-1881 | A rejection is retried at once, with no pause, no timeout and without closing the socket. |
| `C84_terminated_refuted` | core/federated/federate.c:1748, 1793-1795, 1808, 1846-1847, 1890 | A termination during the address queries is an assertion failure, or port 65535 without assertions; a termination or failing coordinator during connecting stores a socket that is not connected. |
| `C85_clock_off_refuted` | core/federated/RTI/rti_remote.c:1405-1440, core/federated/clock-sync.c:163-251 | A federate with initial clock synchronization that joins a coordinator without it (`-c off`) waits for ever, while the coordinator counts it as admitted. A UDP port of 65535, as the system may assign, is read as "off" with the same effect. |
| `C85_exchanges_refuted` | core/federated/RTI/rti_remote.c:1417-1440, core/federated/clock-sync.c:210-251 | The number of exchanges is an option of one side and a constant of the other. Fewer at the coordinator: the federate waits for ever. More: the coordinator takes the start-time message for an answer, rejects it and closes the connection of a federate that it marked as connected. |
| `C85_enabled_refuted` | core/federated/RTI/rti_remote.c:1442-1457 | A coordinator with clock synchronization on enables it for federates that have it off (at port 65535) or only at the start (at address zero). |
| `C85_counts_refuted` | core/federated/RTI/rti_remote.c:1330-1370 | The counts of neighbors are signed and unchecked: counts 1 and -4 give a body of two bytes of which ten are read; a large count ends the coordinator. |
| `C85_port_range_refuted` | core/federated/federate.c:1897-1906 | Ports above 32767 are replaced by the default port, which the coordinator does not do. |
| `C85_timeout_refuted` | core/federated/federate.c:1923, 2025-2033 | A federate that was turned down at its last attempt before the timeout goes on with the closed connection. |
| `C85_broken_refuted` | core/federated/RTI/rti_remote.c:1312-1317 | A connection that breaks while a federate describes its neighbors ends the coordinator. |
| `C86_secret_refuted` | core/federated/federate.c:1985-1996 | The key of the authentication is the federation id, which every authenticated federate then sends in the clear. |
| `C86_wrong_key_refuted` | core/federated/federate.c:911-921, core/federated/RTI/rti_remote.c:1510-1515 | A federate with another federation id sends a rejection of two bytes where the coordinator reads 33 and exits on the closed connection. |
| `C86_plain_federate_refuted` | core/federated/RTI/rti_remote.c:1477-1484 | A federate without authentication ends the coordinator (federation ids of seven characters or more) or blocks it for ever. |
| `C86_plain_coordinator_refuted` | core/federated/federate.c:884-899 | A federate with authentication never sees that the coordinator has none: it reads 41 bytes at once and gets two. |
| `C86_number_refuted` | core/federated/RTI/rti_remote.c:1476-1535, 1574 | The number used in the authentication is not compared with the number under which the federate then joins. |
| `C86_type_refuted` | core/federated/RTI/rti_remote.c:1513-1516 | A program whose second message in the authentication has another type ends the coordinator, which exits instead of turning it away. |
| `C87_lost_refuted` | core/federated/RTI/rti_remote.c:933-967, core/federated/network/net_util.c:91-122 | One lost T1, one lost answer or one lost probe ends clock synchronization at runtime for all federates: the coordinator reads from the UDP socket for ever (a timeout of the socket is retried without end). |
| `C87_leave_refuted` | core/federated/RTI/rti_remote.c:912-967 | A federate that leaves while the coordinator waits for its answer ends clock synchronization for all federates. |
| `C87_fifth_refuted` | core/federated/RTI/rti_remote.c:947-963 | An answer read with the last of the five attempts is not counted; a round of such answers ends the thread. |
| `C87_short_refuted` | core/federated/clock-sync.c:461-490 | A datagram of fewer than nine bytes from any program ends the thread of the federate, and with it synchronization for all. |
| `C87_forged_refuted` | core/federated/RTI/rti_remote.c:933-945 | The answer to T1 is accepted from any program that sends the number of the federate; T4 is then taken before the federate has seen T1. |
| `C87_off_refuted` | core/federated/RTI/rti_remote.c:912-932 | If clock synchronization is enabled for a federate that has it off, the coordinator waits for that federate for ever. |
| `C88_crash_refuted` | core/federated/RTI/rti_remote.c:1083-1091 | When the connection to a federate closes without a message (it crashed or was killed), its downstream federates are not looked at: one that has asked for a tag waits for ever. |
| `C88_dead_refuted` | core/federated/RTI/rti_remote.c:1083-1091, core/federated/RTI/rti_common.c:84-120 | The next event of a federate that died stays in the tables, and the cached table of delays still lists it: with another idle upstream federate its downstream federates are never granted a later tag, however often they ask. |
| `C89_deaf_refuted` | core/federated/RTI/rti_remote.c:1033-1070 | The coordinator holds its mutex from the moment it takes up a resignation until the federate has exited (it reads to the end of the connection): a federate that is slow to exit stops every grant and message of the federation. |
| `C89_bad_message_refuted` | core/federated/federate.c:806-811, 847-850 | After a message of unknown type from a peer the listening thread says that it closes the socket, and ends without closing it. When the peer resigns, it waits for the end of that connection, the coordinator waits for the peer with its mutex held, and nobody is served until the receiver terminates. |
| `C90_microstep_refuted` | core/federated/federate.c:1651 | Physical time plus the minimum delay is compared with the time of the next tag only: with a message for (t, 1) in the queue the federate announces (t, 1) at a physical time at which an action can still produce an output at (t, 0). |
| `C90_interval_refuted` | core/federated/federate.c:2465-2474 | Every interruption of the wait puts another dummy event into the queue: as many tags are announced and completed later without an interval between them, which the interval is meant to prevent. |
| `C90_zero_interval_refuted` | core/federated/federate.c:1653, 2470 | With an interval of at most 1 ns the dummy event is not after the current tag; the federate ends with an error. |
| `C90_fast_refuted` | core/federated/federate.c:1651, lib/schedule.c:170-173 | With -fast the federate enters tags up to the minimum delay ahead of physical time; an action whose own delay is smaller is then scheduled in the past and the federate ends with an error. |
| `C91_order_refuted` | core/federated/RTI/rti_remote.c:182-212 | A grant is compared with the last one before its thread waits for the federate's start time, and not again afterwards: threads that have waited may send grants in any order (7, then 5), and the record of the last grant goes back. The federate reports an error and ignores the earlier tag. |
| `C91_once_refuted` | core/federated/RTI/rti_remote.c:182-212 | For the same reason the same tag may be granted twice. |
| `C91_crash_refuted` | core/federated/RTI/rti_remote.c:805-809 | When a federate dies before it has proposed a start time, the others wait for ever; nobody is sent anything (the source has a FIXME about this). |
| `C92_unsupported_refuted` | util/wave_file_reader.c:98-112 | The documentation promises NULL for unsupported formats; the reader only prints a warning and returns samples, even for a file that is not a wave file. |
| `C92_short_refuted` | util/wave_file_reader.c:88 | The number of bytes read for the header is not checked: for a short file bytes that were never read are used. |
| `C92_padding_refuted` | util/wave_file_reader.c:116-129 | The padding after a chunk with an odd number of bytes is not skipped: the samples of a valid file are lost. |
| `C92_empty_refuted` | util/wave_file_reader.c:117 | An empty chunk, which the format allows, leads to an array of length 0 on the stack. |
| `C92_stack_refuted` | util/wave_file_reader.c:117 | The size of an array on the stack is taken from the file: a file of 52 bytes exhausts the stack. |
| `C92_cut_refuted` | util/wave_file_reader.c:145-148 | A file that ends within a sample leaves an indeterminate value in the array; only a warning is printed. |
| `C92_multiple_refuted` | util/wave_file_reader.c:141-142 | The length need not be a multiple of the number of channels, as documented. |
| `C92_leak_refuted` | util/wave_file_reader.c:68-152 | The file is never closed: after as many calls as files can be open, the reader returns NULL. |
| `C93_percent_refuted` | util/sensor_simulator.c:306, 322 | Texts are used as formats: a tick or message with a percent sign is undefined (or loses one of two). |
| `C93_log_refuted` | util/sensor_simulator.c:207-212 | With a log file the arguments of a message are used twice, which is undefined. |
| `C93_restart_refuted` | util/sensor_simulator.c:370-372 | `thread_created` is set to 0 just before it is tested: a second start, documented as harmless, initializes the condition variable that a thread waits on, drops the queue and all keys, and starts another thread. |
| `C93_end_twice_refuted` | util/sensor_simulator.c:346-357, 392 | The end is registered to be called at exit: a program that calls it by itself joins the thread twice and closes the log file twice. |
| `C93_special_refuted` | util/sensor_simulator.c:239-246 | Keys that are not characters (such as the cursor keys) schedule the action for any key with the low byte of their code. |
| `C93_border_refuted` | util/sensor_simulator.c:305-312 | A tick of several characters may be written over the border of its window. |
| `C94_large_refuted` | core/federated/federate.c:517, lib/schedule.c:70 | The length of a message becomes an `int`: every message of 2 to 4 GB is sent with success, read whole, refused as of negative length and its memory lost. |
| `C94_forged_refuted` | core/federated/federate.c:2346 | The length in the header is cut to 32 bits: the receiver takes the contents of a longer message for messages; any message can be forged within another. |
| `C94_log_refuted` | core/federated/federate.c:514 | Contents are printed with `%s` at level LOG: a message without a null byte makes the receiver read past its end. |
| `C94_leak_refuted` | core/federated/federate.c:510-512 | When the connection ends within the contents of a message the buffer is not freed. |
| `C94_crash_refuted` | core/federated/federate.c:501, 189 | A header with another federate or an unknown port ends the program of the receiver. |
| `C95_macro_refuted` | logging/api/logging_macros.h:41, 64 | LF_PRINT_LOG and LF_PRINT_DEBUG ignore the registered level, which `_lf_message_print` promises to honour. |
| `C95_levels_refuted` | core/utils/util.c:108, logging/api/logging.h:16-18 | Levels 0, 1 and 2 are documented as identical; at level 1 `lf_print` prints nothing, at level 0 warnings neither. |
| `C95_redirect_refuted` | core/utils/util.c:138-143, logging/api/logging.h:89-95 | A registered function gets every message, not only those of the level that it was registered for. |
| `C95_errno_refuted` | core/utils/util.c:207-211 | `errno` is read after a message has been printed, which may change it: the wrong error may be reported. |
| `C95_race_refuted` | core/utils/util.c:138-142 | The registered function is read twice without a lock: when it is removed in between (as `end_sensor_simulator` does) NULL is called. |
| `C96_watchdog_refuted` | core/reactor_common.c:1095, core/threaded/watchdog.c:90 | The threads of watchdogs take identifiers but are not counted for the trace: in every traced program with a watchdog (and no federation) any worker may get the first identifier without a buffer, and its first event is read and written out of bounds; with more watchdogs the program may exit instead (`C96_exact`). |
| `C96_enclaves_refuted` | core/reactor_common.c:1095 | The number of buffers is computed from the workers of the first environment only: if another one has more workers, traced events are written out of bounds. |
| `C96_breadth_refuted` | core/threaded/reactor_threaded.c:962-964 | A reaction graph of breadth 0 gives 0 workers: the program returns at once, whatever its timeout or keepalive. |
| `C96_cores_refuted` | core/threaded/reactor_threaded.c:958, low_level_platform/impl/src/lf_POSIX_threads_support.c:11 | If sysconf fails, the number of workers is 4294967295. |
| `C97_names_refuted` | util/tracing/trace_to_chrome.c:196-206, 254-408 | Names are written without escapes: a quote or backslash in the name of a reactor, trigger or user event makes the file unreadable. |
| `C97_number_refuted` | util/tracing/trace_to_chrome.c:88-91 | The number of a reaction is cut to three digits: reaction 1000 is shown as 100. |
| `C97_advancing_refuted` | util/tracing/trace_to_chrome.c:98-99 | The same constant is compared twice, so the end of a time advance is named "NO REACTOR" while its beginning is "ADVANCE TIME"; the line -1 on which both are drawn never has a name. |
| `C97_deadline_refuted` | util/tracing/trace_to_chrome.c:199-203 | Missed deadlines are not recognised and put in the process 2000000, which is never named. |
| `C97_skipped_refuted` | util/tracing/trace_to_chrome.c:121-130 | Entries before the start time are left out one by one, so that an end may be shown without its beginning. |
| `C98_early_refuted` | util/audio_loop_linux.c:84-119, 253-261 | What does not fit into a buffer is added to the front of the same buffer, because the callback is given the buffer that has just been filled: every sound that goes on after its buffer is heard 0.1 s too early from there on, over its own beginning. |
| `C98_last_refuted` | util/audio_loop_linux.c:112, 360 | The last frame of a sound is never heard. |
| `C98_empty_refuted` | util/audio_loop_linux.c:342-346 | An empty sound that takes the place of a note that still goes on keeps its position and volume; the callback then reads outside of the empty sound. |
| `C98_gap_refuted` | util/audio_loop_linux.c:253-261 | The change to the next buffer is made without the mutex after the callback: what is played in between (a waiting caller is woken just there) is written to the buffer already handed over and lost, and the caller is told that it is in time. |
| `C98_overflow_refuted` | util/audio_loop_linux.c:313, 331 | For a time more than 58 hours ahead of the audio the product overflows. |
| `C98_frames_refuted` | util/audio_loop_linux.c:351-356 | A sound whose length is not a multiple of its channels is read outside of its memory. |
| `C99_long_refuted` | util/tracing/influxdb.h:339-350 | When a line grows beyond 256 bytes, what snprintf has cut off is not written again after the realloc: the line ends there and the database cannot read it (for some lengths bytes that were never written are sent). |
| `C99_memory_refuted` | util/tracing/influxdb.h:432 | The block is doubled only once: a name of more than about 500 characters is copied beyond its end. |
| `C99_backslash_refuted` | util/tracing/influxdb.h:380-389, 427-447 | Backslashes are not escaped: a trigger whose name ends in one makes the line unreadable. |
| `C99_url_refuted` | util/tracing/influxdb.h:283-285 | The block for the URL has the length of the line, so that longer URLs are cut: the data go to another bucket or nowhere. |
| `C99_token_refuted` | util/tracing/influxdb.h:290-291 | A token of more than 98 characters is written beyond its block. |
| `C99_count_refuted` | util/tracing/trace_to_influxdb.c:271 | The number of records printed is the one of the last block instead of the sum. |
| `C99_digits_refuted` | util/tracing/trace_to_influxdb.c:165-166 | The number of a reaction is cut to three digits. |
| `C99_merge_refuted` | util/tracing/trace_to_influxdb.c:185-189 | The worker is a field and not a tag: entries of two workers for the same kind, reactor and time are one point, of which the database keeps the last. |
| `C100_last_refuted` | util/audio_loop_mac.c:101, 298 | The last frame of every sound of two or more frames is left out, as on Linux. |
| `C100_empty_refuted` | util/audio_loop_mac.c:281-285 | An empty sound that takes the place of a note that still goes on keeps its position: the callback reads outside of the sound. |
| `C101_release_refuted` | core/reactor_common.c:1056-1078, logging/api/logging_macros.h:83-84 | The checks are `LF_ASSERT`s, which NDEBUG removes: a program built for release starts with every plugin, and the message "expected release version" can never appear. |
| `C101_core_refuted` | core/reactor_common.c:1077 | The version of the runtime for which the plugin was built is not compared (a TODO in the code). |
| `C101_script_refuted` | trace/impl/build.sh:3 | The script of the repository builds the plugin for level 4, which every program with checks at another level, also at the default, refuses. |
| `C103_clock_refuted` | low_level_platform/impl/src/lf_windows_support.c:93-97 | When the counter cannot be read, `_lf_clock_gettime` returns 0, which means success, and writes no time. |
| `C103_result_refuted` | low_level_platform/impl/src/lf_windows_support.c:117-141 | `lf_sleep` returns TRUE (1) when it went well and FALSE (0) when it failed, the reverse of its description. |
| `C103_early_refuted` | low_level_platform/impl/src/lf_windows_support.c:122-134, core/reactor.c:246-260 | If a timer cannot be created or set, the 0 is taken for a finished wait: the tag is advanced at once, however far in the future it is. |
| `C103_forever_refuted` | low_level_platform/impl/src/lf_windows_support.c:304-306 | The limit for long waits is the value that means INFINITE: a wait of 50 days or more never times out. |
| `C103_passed_refuted` | low_level_platform/impl/src/lf_windows_support.c:296-299 | A timed wait for a time that has passed returns 0, as if it had been notified, and not LF_TIMEOUT. |
| `C103_join_refuted` | low_level_platform/impl/src/lf_windows_support.c:191-194 | What is stored as the exit status of a thread is the result of the wait, so a failure of a worker is lost. |
| `C104_early_refuted` | low_level_platform/impl/src/arduino_mbed/ConditionWrapper.cpp:51 | Milliseconds are rounded down, so a wait times out up to a millisecond before its time and the program handles the event early. |
| `C104_wrap_refuted` | low_level_platform/impl/src/arduino_mbed/ConditionWrapper.cpp:51 | The number of milliseconds is cut to 32 bits: a wait of 49.7 days or more times out far too early, also the wait of a program that has no events (after 24 days). |
| `C104_late_refuted` | low_level_platform/impl/src/arduino_mbed/ConditionWrapper.cpp:51, lf_arduino_support.c:225-228 | A time that has passed by a millisecond or more becomes a wait of weeks, because the negative duration is converted to an unsigned number. This needs a delay between the two readings of the clock. |
| `C41_source_refuted` | core/federated/RTI/rti_common.c, rti_remote.c | A federate without upstream connections can be sent a TAG that is lower than the one before: its own NET lowers the recorded grant. |
| `C43_enclave_refuted` | core/federated/RTI/rti_remote.c, core/federated/federate.c | A federate with several environments may answer with a tag that one of them has already passed: line 1470 of federate.c takes the current tag of the first environment. |
| `C43_resign_refuted` | core/federated/RTI/rti_remote.c, core/federated/federate.c | A federate that leaves after it has been asked and before it has answered is not counted (rti_remote.c:1031-1096): although every federate still connected has answered, the stop tag is never sent, whatever happens. |
| `C44_length_refuted` | core/federated/federate.c, net_util.c | A payload of 2^32 bytes or more is announced with its length cut to 32 bits, although all of it is sent. |
| `C45_big_endian_refuted` | core/federated/RTI/rti_remote.c handle_timestamp | On a big-endian host the coordinator swaps the start time before encoding it: no federate decodes it. |
| `C46_huge_refuted` | core/federated/network/net_util.c | A length above SSIZE_MAX is reported as a success although nothing was read. |
| `C47_destination_refuted` | core/federated/RTI/rti_remote.c handle_timed_message | The destination in the header is used as an index without a check. |
| `C48_p2p_longer_refuted` | rti_remote.c receive_and_check_fed_id_message; federate.c | A longer identifier is accepted; a shorter one that begins alike makes the federate read past its buffer; the identifier of the other federate is not checked before it indexes an array. |
| `C48_p2p_overread_refuted` | rti_remote.c receive_and_check_fed_id_message; federate.c | A shorter federation id that begins alike makes the federate compare past the end of its buffer. |
| `C48_p2p_range_refuted` | rti_remote.c receive_and_check_fed_id_message; federate.c | The id announced by a remote federate indexes an array without a range check. |
| `C48_prefix_refuted` | rti_remote.c receive_and_check_fed_id_message; federate.c | A federate of a federation whose identifier is a proper prefix of the coordinator's - even the empty one - is admitted. |
| `C48_stuck_refuted` | rti_remote.c receive_and_check_fed_id_message; federate.c | A federate that is acknowledged but whose next message is rejected keeps its identifier taken; if it tries again it is rejected for ever and the federation never starts. |
| `C49_bad_port_refuted` | core/utils/util / net_util.c extract_rti_addr_info, match_regex | A port that is not a number is ignored without an error. |
| `C49_high_port_refuted` | core/utils/util / net_util.c extract_rti_addr_info, match_regex | A valid port above 32767 is not used: the default port is. |
| `C49_host_refuted` | core/utils/util / net_util.c extract_rti_addr_info, match_regex | But also strings that are neither. |
| `C49_long_port_refuted` | core/utils/util / net_util.c extract_rti_addr_info, match_regex | A port of more than five digits is not rejected but cut off. |
| `C49_port_byte_refuted` | core/utils/util / net_util.c extract_rti_addr_info, match_regex | A byte above 127 in a port is undefined behaviour (isdigit of a negative char). |
| `C50_strict_refuted` | core/clock.c | The documentation promises strictly increasing values (clock.h:30-32): two calls that read the same time of the platform clock both return it. |
| `C51_error_bound_refuted` | core/federated/clock-sync.c | The bound kept on the clock error (clock-sync.h:104) only covers federates whose clock is behind: when it is ahead the bound stays at zero. |
| `C51_lost_probe_refuted` | core/federated/clock-sync.c | A lost UDP probe counts as an exchange in the averaging window. |
| `C52_stale_refuted` | core/federated/federate.c | A stale TAG recomputes the level with the old tag, letting reactions run whose inputs are unknown. |
| `C53_wrap_refuted` | core/federated/federate.c | C53 without these conditions is false: the end of a connection seen twice (or a message at the last microstep of a time) wraps the microstep, and the known tag decreases. |
| `C54_after_stop_refuted` | trace/impl/src/trace_impl.c | Tracepoints after stop_trace write past the buffer. |
| `C54_header_refuted` | trace/impl/src/trace_impl.c | A header that cannot be written makes the very record that caused the flush overflow the buffer. |
| `C54_no_file_refuted` | trace/impl/src/trace_impl.c | When the file cannot be opened the buffer overflows at the next full buffer. |
| `C54_tid_refuted` | trace/impl/src/trace_impl.c | The test of the thread identifier lets one identifier too many through. |
| `C55_both_refuted` | core/reactor_common.c, threaded/reactor_threaded.c | A reaction executed at once after an STP violation runs both its STP handler and its deadline handler, where one taken by a worker runs only one. |
| `C55_check_refuted` | core/reactor_common.c, threaded/reactor_threaded.c | not otherwise: without a deadline it reports a violation and calls through a null pointer, and a zero deadline, always violated for the runtime, is not reported at the logical time itself. |
| `C55_no_handler_refuted` | core/reactor_common.c, threaded/reactor_threaded.c | A reaction that misses a deadline for which it has no handler is dropped: nothing at all runs. |
| `C55_overflow_refuted` | core/reactor_common.c, threaded/reactor_threaded.c | Logical time plus deadline overflows a signed 64-bit integer. |
| `C55_stale_stp_refuted` | core/reactor_common.c, threaded/reactor_threaded.c | A worker that runs the deadline handler leaves the STP violation of that tag on record: at a later tag, triggered by an event that is not late and with its deadline met, the reaction runs its STP handler instead of its body. |
| `C56_physical_refuted` | core/federated/RTI/rti_local.c, reactor_threaded.c | A physical action below the next event that an enclave announced: what downstream enclaves were granted is overtaken. |
| `C56_race_refuted` | core/federated/RTI/rti_local.c, reactor_threaded.c | The enclave mutex is released before the RTI mutex is taken (rti_local.c:89-90): an announcement computed before an event arrived overwrites the lowered one, and a downstream enclave is granted past the pending event. |
| `C56_starvation_refuted` | core/federated/RTI/rti_local.c, reactor_threaded.c | Without keepalive an enclave without events asks for FOREVER and then executes shutdown reactions one microstep later (reactor_threaded.c:333-341), below what was promised. |
| `C57_microstep_refuted` | core/federated/federate.c | At a later microstep the promise is broken: the clock reads 100, the next event of the federate is at (105,2), it reports (105,2) unmodified, and a physical action triggered at that clock reading produces an output with tag (105,0). |
| `C57_overflow_refuted` | core/federated/federate.c | With a huge minimum delay the addition overflows. |
| `C58_overflow_refuted` | core/reactor_common.c process_args | A time-out of three hundred years is undefined behaviour. |
| `C58_signed_zero_refuted` | core/reactor_common.c process_args | A time-out of zero is rejected when it is written with a sign. |
| `C58_trailing_refuted` | core/reactor_common.c process_args | So are numbers with something after them. |
| `C58_unknown_unit_refuted` | core/reactor_common.c process_args | Units that are not units are accepted if they begin with one. |
| `C59_assert_refuted` | core/threaded/scheduler_adaptive.c | Where assert() is compiled, line 246 fails when another worker has just tried to steal from this one and found nothing. |
| `C59_spurious_refuted` | core/threaded/scheduler_adaptive.c | Num_awakened counts the calling worker, which need not be among the first ones. So a worker that is not woken up and is not counted may leave its loop at a spurious wake-up, and the level is left while a reaction is executing. |
| `C60_empty_level_refuted` | core/threaded/scheduler_adaptive.c | A level without reactions. The assertion of line 587 fails (when the number of workers is computed for the first time). |
| `C60_prepared_refuted` | core/threaded/scheduler_adaptive.c | Not every chosen number is in the prepared list: with three workers and three reactions, three are used. |
| `C60_recorded_refuted` | core/threaded/scheduler_adaptive.c | Execution times recorded for a level are not the times of that level (scheduler_adaptive.c:446). |
| `C62_ahead_refuted` | core/federated/federate.c | The exception is real: a peer says that the input is absent at (100,0) when the wait for it has already expired at (100,0). The federate then takes the input as known at (100,1) and no longer waits for it there, although the peer may still send a message with tag (100,1). |
| `C63_urgency_refuted` | core/threaded/scheduler_GEDF_NP.c | Nothing in the runtime checks that a reaction has no later deadline than one of a higher level that shares state with it; if it has one, the deadline scheduler executes them in the other order and the results differ. |

Further observations made while reading, described in comments of the models but
without a theorem:

* `lf_schedule_copy` from an action's own current value frees it before copying.
* Drop and replace policies with the same token skip a release.
* On big-endian hosts `(bool*)&status` of triggers reads the wrong byte.
* `encode_int64` shifts `0xffLL` left by 56 (undefined in ISO C).
* A program without keepalive sets its stop tag before an interruptible wait.
* Clock errors below 100 ns are never corrected (`clock-sync.c`).
* `schedule_output_reactions` overwrites `is_STP_violated` of downstream reactions.
* The trace header writes `sizeof(int)` bytes of a `size_t` (wrong on big-endian hosts),
  and stopping a trace races with workers.
* An unmeasured number of workers has score 0 and wins (`scheduler_adaptive.c`), and
  its `fast` option advances the tag without the mutex.
* `_latest_tag_completed` is a static shared by all environments.
* A physical action scheduled asynchronously for an inactive mode goes to the event queue.
* `received_stop_tag` raised for one environment carries over to the next
  (`federate.c:1364-1404`).
* The barrier is decremented without the mutex after a tagged message (`federate.c:594`).
* When the connection to the coordinator ends without `MSG_TYPE_FAILED`, the listening
  thread returns silently and a federate that waits for a grant waits for ever
  (`federate.c:1567-1571`, `2440-2450`).
* Abnormal termination takes `socket_mutex` although its comment says that no mutex
  should be acquired (`federate.c:415-430`, `1689-1695`).
* The inner loop of `lf_send_next_event_tag` sends the same next event tag again at every
  wake-up (`federate.c:2440-2460`).

## 6. What is not modelled

* The C compiler, the C memory model below sequential consistency, the operating
  system, OpenSSL (its HMAC is an ideal function in C86), the platform layers
  (`low_level_platform/impl`) except for the clocks, critical sections, atomics and
  sleeps of the bare-metal platforms (C68-C70, on hardware as their comments describe
  it), priorities, ids and creation of threads (C71) the RP2040's condition
  variables (C72) and clock, sleeps, timed waits and joins on Windows (C103) and timed waits on Arduino (C104), the Python bindings other than ports, tags,
  arguments and the lookup of reactions (C80) and reference counts (C81), the code generator
  (`lingua-franca`); where generated code matters (reaction bodies, tables of
  triggers) the models quantify over it.
* DNET
  (downstream next event tag) messages do not exist in this version, `util/` other than `deque.c`, `wave_file_reader.c`, `sensor_simulator.c`, `tracing/trace_util.c`, `tracing/trace_to_csv.c`, `tracing/trace_to_chrome.c`,
  `audio_loop_linux.c`, `tracing/trace_to_influxdb.c` and the part of `tracing/influxdb.h` it uses, without curl, `audio_loop_mac.c` without the audio queue itself and the stopping of the loop, the parts of `logging/` and `core/utils/util.c` outside C95.
* `core/federated/federate.c`: socket options and the system calls themselves; the
  messages, tags, port statuses, waits, connections (C84), joining (C85, C86), clock
  synchronization (C51, C87) and termination (C88, C89) are modelled, each in its own file.
* Threaded main loop (`core/threaded/reactor_threaded.c`): one environment without
  federation and modes is C67; the tag barrier (C34), stop requests (C35), deadlines
  (C55), enclaves (C56), decentralized coordination (C78, C79) and the schedulers (C31, C32, C59) have their own models and are
  not put together with it.
