# Formal model of klepsydra-technologies/kpsr-core in Rocq (Coq 8.16.1)

## 1. Method

The C++ code of `/repo` is read as text and transcribed, function by function,
into executable Gallina (`/verif/rocq/theories/<Component>_Model.v`).
Every definition cites the file and lines it models and says where it simplifies.
The conventions are:

* a mutating method becomes a function returning the new object state and an
  *outcome*; exceptions, undefined behaviour (UB), and "blocks forever" are
  distinct outcomes, never a default value;
* shared-memory code (lock-free stack, sequencers, safe queue, pollers,
  halting) is a small-step machine: one step = one atomic action of one thread
  (an atomic load/store/CAS, or a whole mutex-protected section); a history is an arbitrary
  list of thread choices, so a theorem over all lists covers every schedule;
* machine integers are unbounded `Z`/`nat` unless the property is about the
  wrap-around; then the wrap is written explicitly (16-bit tag of the lock-free
  stack, 32-bit truncation in the multi-producer sequencer, 32-bit availability flag);
* sequential consistency is assumed for atomics (see the trusted base).

For each component there are (up to) four kinds of files:

| file | content |
|---|---|
| `X_Model.v` | the model, no proofs |
| `X_Spec.v`  | a small independent specification of what the property says |
| `X_Proofs.v`| lemmas and proofs |
| `X_Props.v` | only the property theorems, each `exact lemma`, with `Print Assumptions`, and a satisfiability `Example` beside it |

Where the code violates the property, the full statement is kept as a
definition and its negation is proved (`..._refuted`) with a concrete
witness history; what remains true is proved next to it with the guard made
explicit (`..._partial` when the property is only partly covered). Where the
conditions under which the code keeps the promise are natural to a user, they are
part of a property of their own (proved), and the unconditional promise is a
separate property, kept in full and refuted (C119 to C148, C153 to C166, and those of C99 to C116 that are marked so).

## 2. Plan per property

| id | model | proof |
|---|---|---|
| C01 | small-step machine of `LockFreeStack` with 16-bit tags, arbitrary thread pool | invariant: the two index lists and the thread-owned indices partition the capacity; CAS success implies head unchanged because fewer than 2^16 head updates happened since the load (ghost update counter); full claim refuted with a 2^16-wrap schedule |
| C02 | the same machine run by one thread | refinement to a bounded list stack |
| C03, C04 | `SmartObjectPool` over an abstract stack of object ids | invariant over histories (partition) |
| C05 | `ObjectPoolPublisher` on the pool model with object store | invariant over histories of publish and release |
| C06, C07, C08 | `SafeEventEmitter` as ordered multimap; re-entrant emit with explicit continuation | refinement to "filter by name" spec; once refuted under re-entrancy; `SafeEmitter_Record` ties the recorded history to the calls made |
| C09, C10 | `UnsafeMultiListenerEventEmitter` with the four containers it keeps | refinement to an ordered registry; stats bound refuted |
| C11 | `UnsafeSingleListenerEventEmitter` | refinement to an optional slot |
| C12 | `EventEmitterSubscriber` over each emitter model | proved for unsafe emitters, refuted for the safe one |
| C13, C14 | `CallbackHandler` with the vector's capacity/iterator validity | refinement to first-match-removal; refutations (invalidated iterator, self deadlock) |
| C15 | lock-granularity interleaving of `MultiThreadCacheListener` | invariant |
| C16, C17, C19 | `SafeQueue`, step = critical section | invariant / trace refinement to FIFO |
| C18, C20 | `SafeQueue` with wait sets, notifications, spurious wake-ups | refutation + guarded theorem |
| C21 | `BasicPublisher` + `SafeQueuePoller` on the queue model | invariant on the trace |
| C22 | start/stop/polling-loop handshake machine | refutation + guarded theorem |
| C23 | `single_producer_sequencer` with cached gating value | invariant |
| C24, C25 | `multi_producer_sequencer` small-step, with the `int` truncation | invariant below 2^31, refutation above |
| C26, C49 | `batch_event_processor::run` driven by arbitrary barrier answers | trace equality with the interval of sequences |
| C27 | halt/run handshake machine | refutation + guarded theorem |
| C28, C29 | composition ring + sequencer + processor + emitters | invariant; C29 refuted |
| C30, C31 | data multiplexer handler and publisher with slot heap | trace property; aliasing refuted |
| C32, C33, C34 | `StateMachineImpl`, factory | refinement to relational step; C34 refuted |
| C35 | `StateMachineListener` | trace invariants; removeActions refuted |
| C36 | `ConfigFile` parser on character lists | round trip for arbitrary layout |
| C37, C38, C39, C40 | property maps | refinement to functions; collisions / short-circuit / non-overwrite refuted |
| C41, C42 | `CoreContainer` | invariants; detach by name / clear-all refuted |
| C43, C44 | socket framing with an adversarial byte stream, `close` loop | round trip for every chunking; close refuted |
| C45 | byte-list mapper | round trip; short message refuted |
| C46 | n environments with message queues | convergence; id collision refuted |
| C47 | `BasicScheduler` | machine; termination refuted |
| C48 | provider maps with type tags | refutation + guarded theorem |
| C50 | `ManagedService` | trace equality |
| C51 | process function called on pooled events (`SmartObjectPool_Model`) | trace of contents; stale content refuted without initialiser |
| C52 | removal during emits, all threads (`SafeEmitter_Model`) | invariant on frames; refuted for an emit under way |
| C53 | null statistics pointers handed to the container by the emitters (`UnsafeEmitters_Model`, `SafeEmitter_Model`) | invariant (multi), refutations (single, safe) |
| C54 | `EventEmitterSubscriber` as a registry (`Subscriber_Model`) | refinement for histories without queries for unknown names; refuted with them |
| C55 | swap/assignment of queues with their two locks, any threads (`SafeQueue_Model`, swap machine) | lock-order argument; deadlock refuted witness |
| C56, C57 | poller life with several calling threads and destruction (`Poller_Model`) | invariant for one caller / stopped first; refutations |
| C58, C191 | failing process functions in the data multiplexer (`SingleRing_Model`, `SingleRing_Fail`) | invariant: the end of every batch is a publication that succeeded; contents of the slots that were not skipped; refutation of "no trace" |
| C59 | wait strategies, one step per shared access, optional store buffer (`Halt_Model`) | ranking function over fair rounds; refutation for the lite strategy |
| C60, C61 | state machine observers with explicit call stack; listener keys (`StateMachine_Model`) | trace invariants; re-entrancy and colon refuted |
| C62 | `PropertyFileEnvironment` on the parser (`ConfigFile_Model`) | composition with C36; two clauses refuted |
| C63 | discard counters per listener (`UnsafeEmitters_Model`) | counting invariant |
| C64 | the processor's own sequence (`Halt_Model`) | invariant |
| C65, C66 | discard counters and slot data of the event loop (`EventLoop_Model`) | invariants; lost update / throw refuted |
| C67 | restarts (`EventLoopLife_Model`) | invariant + progress |
| C68, C69 | broken connections; descriptor ownership (`Socket_Model`) | invariants; truncated reception refuted |
| C70 | n environments (`ZmqEnv_Model`) | convergence for histories of turns; two sets in flight refuted |
| C71-C75 | `ZmqChannel_Model`, `ZmqLife_Model` | list refinement; registration, framing, stale bytes, type and destruction refutations |
| C76 | any number of task threads (`Scheduler_Model`) | invariants and counting |
| C77 | re-entrant calls with vector buffers (`Reentrancy_Model`) | induction on nesting fuel; iterator invalidation refuted |
| C78 | consumers that end (`Gating_Model`) | starvation proved for every history, fix condition proved |
| C79 | stop()/destructor on `Halt_Model` (`Stop_Props`) | stages of the stopping thread + the rank of C27: proved for every fair schedule; hang after a foreign exception and on a second stop proved |
| C80 | `NoOp_Model`: run, halt, alert, publish | invariants by induction; that halt() alone never ends run() proved for every schedule |
| C81 | `ConcPipe_Model`: publisher loop, poller loop, an abstract queue whose refusals are inputs | invariants by induction; progress by ranks, for an honest queue |
| C82 | `SocketOpen_Model`: constructors and their failure path, local addresses, accept | case analysis over all system answers, induction over the calls and the path; refutations for all errnos/paths/descriptors |
| C83 | `ZmqDispatch_Model`: the table, its mutex, threads, callbacks that act on the table | invariant on the log by induction; the self-deadlock proved for every schedule |
| C84 | `RingUtil_Model`: size check, slots, laps, log2, minimum, remaining capacity | number theory over Z (bit lemmas), evaluation relation for log2, histories for the capacity |
| C85 | `PhasedBackoff_Model`: one turn of the loop, readings and clock as inputs | induction over the turns and rounds; that alerts are ignored proved for any number of turns |
| C86 | `WeakMem` (happens-before, races as in C++), `WeakSingle_Model`: memory events of publisher and consumers; an atomic load reads from any earlier store | an inductive invariant on traces: what each thread has seen, and that every conflicting pair is ordered |
| C87 | `WeakMulti_Model`: the same for several producers; `m_sync` says whether the flags synchronise (in the code they are plain ints) | invariant if they did; a race for every ring size as they are; a race before the loop starts |
| C88 | `LfsWeak_Model`: the stack on a view-based model of C++ atomics; `acq` is the order of the load at line 112 | an inductive invariant with the views (who must have seen which link and element), for acquire; a concrete execution for relaxed |
| C89 | `WaitMany_Model`: any number of consumers and callers on one blocking strategy | an inductive invariant (a consumer on its way to sleep past an event or an alert has a signal on its way), then a measure that every effective step decreases, for every fair schedule |
| C90 | `SmartObjectPool_Model` (`PoolFinal_Props`) | exactly which objects are finalised, by induction over histories; refuted for objects held at destruction |
| C91, C92 | the model of C21 | clauses split from C21: exact reports with one publisher, draining without throws and spurious wake-ups; each refuted in general |
| C93 | the model of C24 | clause split from C24: the invariant below 2^31, refutation above |
| C94-C106 | the models of C35, C36, C38, C42, C45, C74, C79, C80, C82, C83, C84, C85, C55 | clauses split from those properties; C94-C98 and C106 under the conditions they need (their unconditional versions are C161-C166), the others are refuted by theorems, next to the part that holds |
| C107 | `Forward_Model`: any number of in-memory providers whose listeners publish to other providers, publishing threads, a thread that stops them | an invariant relates log, queue and pending publications per source; a measure (weighted by what an event still triggers downstream) decreases with every effective step, and without cycles some step is always effective; induction over rounds |
| C108 | the same model | refuted for every capacity by explicit schedules into a state that no step changes |
| C109 | `ElNet_Model`: any number of event loops with their batches, listeners that publish to any loop and may throw, publishing threads, a thread that stops loops | an invariant for the accounting; a measure (what an event still triggers) decreases with every effective step of every thread, and a state in which no step is effective is idle |
| C110, C111 | `LoopSched_Model`: Scheduler_Model composed with the loop that executes what its threads publish | an invariant linking the log, the queue and the scheduler's own log (C76); counting; for C111 a schedule for every m |
| C112 | the 16-bit tag of `LockFreeStack_Model` | a schedule of 65538 calls, computed by the kernel; for C01 a potential (updates of a head still to come from the calls in progress) bounds the updates during a call by the calls that overlap it (`LockFreeStack_Overlap`) |
| C113, C114 | `ContainerConc_Model`: any number of threads; each function takes its mutex, begins and ends its accesses one by one, releases it | an invariant: a vector is touched under one mutex only, and holds what the completed calls and the begun part of the call in progress leave behind; a measure for termination; schedules for C114 |
| C115, C116 | `Destroy_Model`: one program thread (start, stop, destroy) and the consumer thread; what the destructors free, in their order | an invariant: joinable exactly while started, freed only when the consumer has ended; a measure for the return; for C116 the same invariant of a program that does not stop, and schedules |
| C117 | `EventLife_Model`: threads, pool, queue, kept references; a copy takes two steps | an invariant: counts of the references to every object; contents fixed while referenced; exclusive while written |
| C118 | `SafeQueue_Live`: rounds in which every thread has a turn | a measure that every effective turn decreases, then C20 and an account of items against remaining calls |
| C119 | the model of C08 | C08 without its conditions; false of the code, refuted by `C08_once_refuted`, `C08_once_two_threads_refuted` |
| C120 | the model of C12 | C12 without its conditions; false of the code, refuted by `C12_safe_refuted` |
| C121 | the model of C13 | C13 without its conditions; false of the code, refuted by `C13_answered_twice_refuted`, `C13_throw_refuted` |
| C122 | the model of C19 | C19 without its conditions; false of the code, refuted by `C19_zero_refuted`, `C19_copy_refuted` |
| C123 | the model of C20 | C20 without its conditions; false of the code, refuted by `C20_lost_wakeup_refuted`, `C20_swap_refuted` |
| C124 | the model of C22 | C22 without its conditions; false of the code, refuted by `C22_refuted`, `C22_forever` |
| C125 | the model of C27 | C27 without its conditions; false of the code, refuted by `C27_start_stop_refuted`, `C27_halt_before_run_refuted` |
| C126 | the model of C29 | C29 without its conditions; false of the code, refuted by `C29_refuted` |
| C127 | the model of C31 | C31 without its conditions; false of the code, refuted by `C31_held_refuted`, `C31_model_event_refuted` |
| C128 | the model of C34 | C34 without its conditions; false of the code, refuted by `C34_reset_refuted` |
| C129 | the model of C39 | C39 without its conditions; false of the code, refuted by `C39_overwrite_refuted` |
| C130 | the model of C41 | C41 without its conditions; false of the code, refuted by `C41_detach_refuted` |
| C131 | the model of C51 | C51 without its conditions; false of the code, refuted by `C51_process_sees_stale_event_refuted` |
| C132 | the model of C52 | C52 without its conditions; false of the code, refuted by `C52_removed_not_invoked_refuted` |
| C133 | the model of C53 | C53 without its conditions; false of the code, refuted by `C53_single_refuted`, `C53_safe_refuted` |
| C134 | the model of C54 | C54 without its conditions; false of the code, refuted by `C54_stats_query_refuted`, `C54_single_refuted` |
| C135 | the model of C56 | C56 without its conditions; false of the code, refuted by `C56_refuted` |
| C136 | the model of C59 | C59 without its conditions; false of the code, refuted by `C59_lite_refuted` |
| C137 | the model of C60 | C60 without its conditions; false of the code, refuted by `C60_reentrant_refuted`, `C60_register_inside_refuted` |
| C138 | the model of C61 | C61 without its conditions; false of the code, refuted by `C61_colon_refuted` |
| C139 | the model of C65 | C65 without its conditions; false of the code, refuted by `C65_discards_refuted` |
| C140 | the model of C66 | C66 without its conditions; false of the code, refuted by `C66_released_refuted` |
| C141 | the model of C68 | C68 without its conditions; false of the code, refuted by `C68_truncated_refuted` |
| C142 | the model of C70 | C70 without its conditions; false of the code, refuted by `C70_refuted`, `C70_load_refuted` |
| C143 | the model of C72 | C72 without its conditions; false of the code, refuted by `C72_register_again_refuted`, `C72_framing_refuted` |
| C144 | the model of C73 | C73 without its conditions; false of the code, refuted by `C73_stale_bytes_refuted` |
| C145 | the model of C75 | C75 without its conditions; false of the code, refuted by `C75_running_refuted` |
| C146 | the model of C10 | C10 without its conditions; false of the code, refuted by `C10_stats_available_refuted`, `C10_stats_never_throws_refuted` |
| C147 | the model of C18 | C18 without its conditions; false of the code, refuted by `C18_spurious_refuted`, `C18_stolen_refuted` |
| C148 | the model of C57 | C57 without its conditions; false of the code, refuted by `C57_refuted` |
| C149, C150 | `GatingVec_Model`: the vector's buffers and three pointers; threads that register and that scan, one access per step | invariant: one registering thread and no scan, or any scans and a vector equal to the registered consumers; C150 refuted for every full vector |
| C151, C152 | `MuxPub_Model`: publishing threads, one step per access to the single-producer ring's words; consumers with batches | invariant: at most one thread inside, the words follow from what was published; C152 refuted for every ring size |
| C153 | the model of C14 | C14 without its conditions; false of the code, refuted by `C14_reentrant_request_refuted`, `C14_mt_refuted` |
| C154 | the model of C47 | C47 without its conditions; false of the code, refuted by `C47_stopped_in_time_refuted`, `C47_name_in_use_refuted`, `C47_destroyed_in_use_refuted` |
| C155 | the model of C62 | C62 without its conditions; false of the code, refuted by `C62_missing_reported_found_refuted`, `C62_set_ignored_refuted` |
| C156 | the model of C78 | C78 without its conditions; false of the code, refuted by `C78_refuted` |
| C157 | the model of C90 | C90 without its conditions; false of the code, refuted by `C90_finalized_before_deleted_refuted` |
| C158 | the model of C91 | C91 without its conditions; false of the code, refuted by `C91_report_refuted` |
| C159 | the model of C92 | C92 without its conditions; false of the code, refuted by `C92_drain_refuted`, `C92_crash_refuted` |
| C160 | the model of C93 | C93 without its conditions; false of the code, refuted by `C93_no_overrun_refuted`, `C93_overflow_refuted` |
| C161 | the model of C94 | C94 without its conditions; false of the code, refuted by `C94_remove_actions_refuted`, `C94_restart_reruns_entry_actions_refuted` |
| C162 | the model of C95 | C95 without its conditions; false of the code, refuted by `C95_blank_in_value_refuted`, `C95_tab_line_refuted`, `C95_hex_refuted` |
| C163 | the model of C96 | C96 without its conditions; false of the code, refuted by `C96_skips_other_types_refuted` |
| C164 | the model of C97 | C97 without its conditions; false of the code, refuted by `C97_stopped_refuted`, `C97_concurrent_attach_and_stop_refuted` |
| C165 | the model of C98 | C98 without its conditions; false of the code, refuted by `C98_short_message_refuted` |
| C166 | the model of C106 | C106 without its conditions; false of the code, refuted by `C106_swap_deadlock_refuted` |
| C167, C168 | `ConfigFile_Model`: number scanning of `istringstream` for int and bool (libstdc++, C locale) | evaluation of the scanner on every digit list; C168 refuted by single values |
| C169, C170 | `MuxProv_Model`: threads asking a multiplexer provider for subscribers, one step per map operation | invariant: the map holds every answered subscriber; C170 refuted for every name |
| C171 | `LfsWeak_Model` with acquiring loads (x86) | every operation writes each head at most once, so the writes are bounded by the operations and no tag goes round: then C88's invariant |
| C172 | `WeakMulti_Model` with synchronising flags (x86) | C87's invariant |
| C173 | `Socket_Model`: objects and the process's descriptors | case analysis of close() for every stale errno |
| C174, C175 | `ElDispatch_Model`: the provider's emitter (three kinds), the subscribers with their own emitters, the map of names | invariant: the provider's emitter holds one entry per name; simulation of each name's subscriber by one standing alone; refutation for every two names |
| C176-C178 | `PoolCount_Model`: publishing threads, plain counters (read, then write), outcomes of the cloner | invariant with the increments in progress; refutations for every pool size |
| C179 | `SpinWait_Model`: the loops of the three spinning strategies | induction over the turns |
| C180, C181 | `SchedDispatch_Model`: the provider's emitter, subscribers, executor, replacement of a map entry | simulation by a list of names; refutations for every name |
| C182 | `CallbackHandler_Model` | invariant: a thread holds the mutex iff its stack has one unlock pending |
| C183, C184 | `Poller_Model` | invariant on the flag and the thread's place; refutation for every continuation |
| C185 | `Poller_Model` | rank function and fair rounds; the pending destructor is cut off to reuse the invariant of one caller |
| C186 | `UnsafeEmitters_Model` | induction over the history, against a count of the discards |
| C187, C188 | `StatsLife_Model` | invariant relating what containers point to and the listeners that exist, against a bookkeeping of the user; refutations |
| C189, C190 | `ZmqLife_Model` | invariant for runs without start-up timeout, then a bound on the steps to the end of stop(); refutation by an endless run |
| C192, C193 | `LfsCtor_Model`: the constructor of the lock-free stack, write by write, with the unsigned subtraction | induction on the rounds of the loop; C193 refuted for every type and function |
| C194, C195 | `SmPair_Model`: machine and listener from one file (`StateMachine_Model` composed) | counting invariant on what the listener holds of one action; C195 refuted for every description |
| C196, C197 | `ZmqBuf_Model`: the buffers of a binary ZeroMQ channel, threads publishing | pool + in use is a permutation of the initial buffers; C197 refuted by rounds of overlapping publications |
| C198, C199 | `UnsafeEmitters_Model` with its calls on the container, replayed | the registry refinement of C09 extended by the container's list; C199 refuted by a history of five calls |
| C200, C201 | `WeakLfs_Model`: the lock-free stack on the memory model of `WeakMem` (happens-before; C88 treats the same code with thread views, `LfsWeak_Model`) | the compare-exchanges of a list form a chain of synchronisation; invariant: the holder of a node is ordered after all accesses to its element; invariant: the tag of the value last written is the number of updates of that list modulo 65536, so a value does not come back sooner; the answers of each thread fit the calls it has completed; invariant: what a node in a stack, or a thread that pops, holds was pushed or was there first; invariant: the number of times an element is on the stack, held, still to be pushed or popped stays the same; induction: a new stack is drained in order; C200 refuted by two executions |
| C202, C203 | `SocketServer_Model`: the two example programs, two streams of `Socket_Model` per connection, one process for all threads of the server | each stream is a run of the model of C43 with a subsequence of the steps (two projections), so C43 and C68 carry over; C203 refuted by two histories |
| C204, C205 | `SingleConc_Model`: the single-listener emitter, one registering and any number of emitting threads, on the memory model of `WeakMem` | two invariants: all plain writes come before the flag's store, which the emitting thread has read (no removals); all come before the hand-over (set up first); C205 refuted by three executions |

## 3. Trusted base

* Coq 8.16.1 kernel (including `vm_compute`), `coqc`. No axioms, no plugins, no flags that weaken the kernel.
* `Print Assumptions` is run under every property theorem; see section 5.
* Fidelity of the transcription (cited line by line; every simplification is named in the header of the model file or at the definition).
* Sequential consistency: the code uses C++ atomics with default or acquire/release
  orders; weak-memory reorderings are not modelled in the sequentially consistent models, but the two rings are modelled a second time on the C++ acquire/release
  memory model (C86, C87) and the lock-free stack on a view-based one (C88), and store buffers for the wait strategies (`signal_needed_`, C59).
  Data races on plain memory that the code has are treated as atomic accesses and named here:
  `available_buffer_` of the multi-producer sequencer is a plain int array (its race is C87); `gating_sequences_` is a plain vector that consumers extend while
  the producer scans it (its memory is modelled in C149, C150); `index_next` of the lock-free stack nodes; `ZMQConfigurationPoller::_running` is a plain bool;
  `ConfigurationEnvironment` is read by the program and updated by the poller thread without lock;
  discard counters of publishers are plain integers (this one IS modelled: C91, C65).
* std containers, mutexes and condition variables behave as specified by C++.
* Not in the repository, hence outside the model: the Klepsydra SDK headers
  (`klepsydra/sdk/*`: Service, statistics objects), cereal, moodycamel concurrentqueue, spdlog, libzmq. Where a model needs their behaviour it is
  a parameter (serialisers), an environment input (ZeroMQ delivery, operating system calls) or recorded as an event (statistics start/stop).

## 4. What is modelled, what is not

| code | model |
|---|---|
| core: lock_free_stack.h | LockFreeStack_Model, LfsWeak_Model, LfsCtor_Model (constructor) |
| core: smart_object_pool.h, object_pool_publisher.h, event_emitter_middleware_provider.h | SmartObjectPool_Model, EventLife_Model, PoolCount_Model |
| core: safe_event_emitter.h | SafeEmitter_Model |
| core: unsafe_multi_listener_event_emitter.h, unsafe_single_listener_event_emitter.h | UnsafeEmitters_Model, Reentrancy_Model, SingleConc_Model |
| core: event_emitter_subscriber.h, event_emitter_publisher.h, event_emitter_factory.h | Subscriber_Model |
| core: callback_handler.h | CallbackHandler_Model |
| core: cache_listener.h | CacheListener_Model |
| core: config_file.h, prop_file_convert.h, prop_file_environment.cpp | ConfigFile_Model |
| core: configuration_properties.h, property.h, configuration_environment.{h,cpp}; mem_mdlw: mem_env.cpp | Config_Model |
| core: core_container.{h,cpp} | Container_Model, ContainerConc_Model |
| high_performance: destructors and members of event_loop_middleware_provider.h, data_multiplexer_subscriber.h, data_multiplexer_middleware_provider.h | Destroy_Model |
| core: manage_service.h, system_event.h | ManagedService_Model |
| core: from/to_middleware_channel.h, non_copying_stream_buffer.h; serialization: void_caster_mapper.h, identity_mapper.h | ZmqChannel_Model, Mapper_Model |
| mem_mdlw: safe_queue.h | SafeQueue_Model |
| mem_mdlw: basic_publisher.h, safe_queue_poller.h, in_memory_queue_poller.cpp, basic_middleware_provider.h | MemPipe_Model, Poller_Model |
| core: event_forwarder.h; networks of the above, networks of event loops | Forward_Model, ElNet_Model |
| mem_mdlw: concurrent_queue_publisher.h, concurrent_queue_poller.h, concurrent_middleware_provider.h | ConcPipe_Model |
| mem_mdlw: basic_scheduler.{h,cpp}; high_performance: event_loop_scheduler.cpp | Scheduler_Model, LoopSched_Model |
| high_performance: multi_producer_sequencer.h, ring_buffer.h, sequence_barrier.h, batch_event_processor.h | MultiRing_Model |
| high_performance: single_producer_sequencer.h, data_multiplexer_*.h | SingleRing_Model, Gating_Model, GatingVec_Model, MuxPub_Model, MuxProv_Model |
| high_performance: wait_strategies/*, halt/run/start/stop | Halt_Model, WaitMany_Model, SpinWait_Model |
| high_performance: no_op_event_processor.h | NoOp_Model |
| high_performance: util.h, fixed_sequence_group.h, ring_buffer.h (sizes, slots), remaining_capacity | RingUtil_Model |
| high_performance: phased_backoff_wait_strategy.h | PhasedBackoff_Model |
| high_performance: both sequencers, sequence.h, batch_event_processor.h, on weak memory | WeakSingle_Model, WeakMulti_Model |
| core: lock_free_stack.h on weak memory | WeakLfs_Model |
| high_performance: event_loop*.h, event_loop_middleware_provider.h | EventLoop_Model, EventLoopLife_Model, Provider_Model, ElDispatch_Model, SchedDispatch_Model |
| state_machine: all of src | StateMachine_Model |
| state_machine/json_conf: kpsr_state_machine.cpp | SmPair_Model (the JSON itself is cereal's) |
| socket_mdlw: base_socket, data_socket, protocol_simple, string_resizer | Socket_Model |
| socket_mdlw: server_socket.cpp, connect_socket.cpp | SocketOpen_Model |
| core/examples/socket_mdlw: server.cpp, client.cpp | SocketServer_Model |
| zmq_mdlw: zmq_env.cpp, zmq_poller.h and its three variants, to/from_zmq_middleware_provider.h, the three to-channels | ZmqEnv_Model, ZmqChannel_Model, ZmqLife_Model, ZmqDispatch_Model, ZmqBuf_Model, ZmqStop_Model |

Not modelled: JSON mappers and loaders (cereal); the inside of the concurrent queue of moodycamel (not in the repository; abstract in ConcPipe_Model);
timing statistics; DDS middleware; yaml/csv examples; the codegen tools; performance.

## 5. Print Assumptions

Every theorem named in MANIFEST.json is followed by `Print Assumptions` in its file, and each prints `Closed under the global context`: no axiom of the
standard library is used. (A library scan also reports `Coq.ssr.ssrunder.Under_rel.*`: fields of a module type of Coq's own ssreflect library, loaded with std++; no theorem
depends on them.)

## 6. Defects of the code found by the proofs

The `_refuted` theorems are machine-checked counterexamples to what a user would rely on; each is a run of the model. In short:
lock-free stack ABA after 2^16 updates (C112) and capacities beyond 65535 (C02); finalizer not run for objects held at destruction (C90);
once listeners run twice, removed listeners run (C08, C52); listener statistics by id (C10); a name registered twice with the safe emitter (C12, C54);
request/reply answered twice, dangling iterator, self-deadlock (C13, C14); timed pop from an empty queue, maximum 0 blocks, copies lose the maximum, lost wake-ups, swap deadlock
(C18, C19, C20, C106); lost discard counts (C91, C65); stop() that never returns (C22, C27); concurrent start terminates the program (C56); destruction of running pollers (C57, C75);
late registration and lazily published claims overrun consumers (C23); 32-bit cursor (C93); events accepted while not running are lost (C29); held events modified in place (C31);
reset keeps queued events (C34); removeActions (C94); values with blanks, tab lines (C95); path collisions (C37); copyFrom stops at a clash (C96); dynamic properties keep the first value (C39);
detach by name / clears all (C41); attach racing with stop (C97); inverted test in close() (C44); short messages read out of bounds (C98); equal ids of environments created in the same millisecond (C46);
one-shot tasks run after stop, names in use terminate the program (C47); stale content handed to process functions (C51); null statistics (C53); failed publication counted as a discarded event (C191);
lite blocking strategy loses a wake-up (C59); re-entrant observers (C60); colon in names (C61); property file environment ignores sets and reports missing keys as found (C62);
data retained after a throw (C66); truncated message returned as complete (C68); divergence (C70); re-registration and framing (C72); stale bytes (C73); channels of another type (C99);
re-entrant registration/removal (C77); ended consumers starve the ring and are read after being freed (C78);
stop() of a multiplexer listener hangs after a foreign exception or a first stop (C100); halt() of the no-op processor does nothing (C101);
a failed bind/listen/connect is reported as a failed close, with a double close; long paths collide; accept overruns its fd_set (C102);
a ZeroMQ callback that changes the topic table deadlocks (C103);
ring sizes 0 and 1, negative remaining capacity (C104); phased backoff ignores the alert (C105); the availability flags of the multi-producer ring are plain ints, so flags and slots are subject to data races,
and before the loop starts two producers can write one slot at the same time (C87); the relaxed load in `_pop` of the stack lets it link a stale node: elements are lost (C88);
a listener that publishes to its own blocking provider can block it for ever, and stopping a downstream provider first makes stop() of the upstream one hang (C108).
a task stopped on an event loop's scheduler can still be executed afterwards, any number of times (C111);
containers: a service and bare service statistics attached at the same time race, as do start, stop and detach of publication statistics with attach (C114);
destroying a started event loop provider ends the program, and so does a multiplexer subscriber whose start times out; an event loop whose start timed out may hang in stop (C116).
a consumer started while events are published makes publishers read freed memory, two consumers started at once lose a registration (C150);
two threads publishing through a data multiplexer at once lose an event without counting it, or hand out a slot that was never written (C152); two threads asking it for the same new subscriber leave one of them with a destroyed object (C170);
with the single-listener emitter an event loop provider reaches only its first subscriber (C175); the counters of a pooled publisher lose updates (C177), and a cloner throwing std::out_of_range is taken for an empty pool (C178);
with the unsafe emitters the functions given to an event loop's scheduler can be lost, all of them (C181); isRunning() of a poller stays true after a listener's exception has ended its thread (C184); containers keep pointers to destroyed statistics when names are equal or setContainer is called twice (C188); stop() of a ZMQ receiver hangs after a start() that timed out (C190); a lock-free stack or pool of capacity zero writes outside its arrays (C193); a listener made from a file with an empty identifier is deaf (C195); a binary ZeroMQ channel leaks a buffer per publication that finds its pool empty (C197); statistics kept over removeAllListeners hide those of a later listener (C199); on weak memory a pop may read a stale link, and the links are raced on (C200); a client that goes away, or a second without new connections, ends the example server, and the other clients take what they have for the reply (C203); the single-listener emitter's flag is atomic, but the name and the callback it guards are not, and an event can reach the listener of another name (C205).

Seen while reading and not turned into theorems: the container uses different mutexes for the same vector in attach and detach; void_caster_mapper.h and identity_mapper.h share an include guard;
`~ZMQPoller` is not virtual;
`getScheduler` destroys an existing subscriber of the same name; a buffer size of 0 passes the power-of-two static_assert.

## 7. Tests of the theorems against wrong programs

`seeded/LOG.jsonl`: each line is an edit of a model definition the way a bug would change the program, with the theorems (or the lemmas they rest on) that then fail, and those tightened
when an edit survived.
