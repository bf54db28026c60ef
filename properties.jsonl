{"id": "C01", "title": "Lock-free stack: concurrent elements are neither lost nor duplicated", "statement": "However any number of threads interleave push and pop on one LockFreeStack, as long as no call overlaps 65536 or more other calls, every history is one of an atomic bounded stack: every successful pop returns an element that was in the stack and that no other pop has returned, every successfully pushed element stays in the stack until popped, a pop fails only when the stack is empty and a push only when it is full, and slots are never shared between two elements. (Without the bound on overlapping calls: C112.)", "quantifier": "every capacity up to 65535, every number of threads, every interleaving of the atomic steps of push and pop in which a call overlaps fewer than 65536 others", "why_tests_cant": "The failure needs a specific preemption between a load and a compare-and-swap; no test run explores these schedules.", "anchors": ["core/modules/core/include/klepsydra/core/lock_free_stack.h: LockFreeStack::push, pop, _push, _pop, head_t"]}
{"id": "C02", "title": "Lock-free stack: sequential bounded LIFO", "statement": "Used by one thread, a LockFreeStack of capacity n starts full, push returns false exactly when n elements are held, pop returns false exactly when none is held, and pop returns the most recently pushed remaining element. (Capacities from 1 to 65535, which the 16-bit indices can represent.)", "quantifier": "every capacity and every finite sequence of push/pop calls", "why_tests_cant": "Needs every operation history and capacity.", "anchors": ["core/modules/core/include/klepsydra/core/lock_free_stack.h: LockFreeStack ctor, push, pop"]}
{"id": "C03", "title": "Object pool: exclusive ownership and conservation", "statement": "An object obtained by acquire() is held by exactly one owner until its pointer is dropped; acquire() throws exactly when all pooled objects are out (and then objectPoolFails increases by one); pooled + held objects is always the configured size; no object is destroyed while the pool is alive. (For concurrent users: schedules in which no thread is suspended inside one operation while 2^16 others complete, see C01.)", "quantifier": "every pool size and every history of acquire and release", "why_tests_cant": "Needs all histories; aliasing shows up only under specific release/acquire orders.", "anchors": ["core/modules/core/include/klepsydra/core/smart_object_pool.h: SmartObjectPool::acquire, add, ReturnToPool_Deleter", "core/modules/core/include/klepsydra/core/lock_free_stack.h"]}
{"id": "C04", "title": "Object pool destruction: every object destroyed exactly once", "statement": "If the pool dies with some objects still held, each object is deleted exactly once overall: the pooled ones by the destructor, the held ones when they are released later; none while it is held.", "quantifier": "every history of acquire/release followed by pool destruction and later releases", "why_tests_cant": "Needs every crash/destruction point relative to outstanding objects.", "anchors": ["core/modules/core/include/klepsydra/core/smart_object_pool.h: ~SmartObjectPool, ReturnToPool_Deleter::operator()"]}
{"id": "C05", "title": "Pooled publisher: accounting and content", "statement": "Every publish() hands the middleware exactly one event whose content equals the published one, and the reported number of allocations equals the pool size plus the number of publications that could not be served from the pool; a pool slot is never handed to a second publication while a receiver still holds the first.", "quantifier": "every pool size, every interleaving of publications and receiver releases", "why_tests_cant": "Needs every history of releases by receivers.", "anchors": ["core/modules/core/include/klepsydra/core/object_pool_publisher.h: ObjectPoolPublisher::publish, processAndPublish", "core/modules/core/include/klepsydra/core/smart_object_pool.h"]}
{"id": "C06", "title": "Safe emitter: an emit reaches exactly the listeners of that event, in registration order", "statement": "emitEvent(name, ev) calls, exactly once each and in registration order, the callbacks of all listeners currently registered for name and no other callback; other events' listeners are unaffected.", "quantifier": "every history (any threads, nesting, throwing callbacks) of on/once/removeListener/removeAllListeners/emitEvent with arbitrary names and fewer than 2^32 registrations", "why_tests_cant": "Needs all registration histories.", "anchors": ["core/modules/core/include/klepsydra/core/safe_event_emitter.h: SafeEventEmitter::on, once, removeListener, emitEvent"]}
{"id": "C07", "title": "Safe emitter: listener ids and removal", "statement": "Ids returned by on/once are never reused; removeListener(id) removes exactly the listener with that id and nothing else, and throws exactly when no such listener is registered.", "quantifier": "every history of emitter calls (fewer than 2^32 registrations)", "why_tests_cant": "Needs all histories.", "anchors": ["core/modules/core/include/klepsydra/core/safe_event_emitter.h: addListener, removeListener"]}
{"id": "C08", "title": "Safe emitter: a once listener runs at most once if emits of its event do not overlap", "statement": "As long as no emit of an event begins while another emit of the same event is in progress (from a callback or another thread) and no callback throws, a listener registered with once() is invoked at most once, with any number of threads and fewer than 2^32 registrations.", "quantifier": "every history and nesting/interleaving of emits", "why_tests_cant": "Requires re-entrant or concurrent schedules.", "anchors": ["core/modules/core/include/klepsydra/core/safe_event_emitter.h: once, emitEvent"]}
{"id": "C09", "title": "Multi-listener emitter: name-idempotent registration and exact delivery", "statement": "Registering a listener name that is already registered returns the existing id and changes nothing; emitEvent calls exactly the callbacks of the currently registered listeners of that event in registration order; removeListener(id) unregisters exactly that listener, and never makes a later emit call a removed or null callback.", "quantifier": "every history of on/removeListener/removeAllListeners/emitEvent", "why_tests_cant": "Needs all histories.", "anchors": ["core/modules/core/include/klepsydra/core/unsafe_multi_listener_event_emitter.h: on, removeListener, emitEvent"]}
{"id": "C10", "title": "Multi-listener emitter: statistics are available while no listener was removed", "statement": "getListenerStats(id) returns the statistics of listener id (its names, and the discards since its registration) if all listeners were registered with a container and none was removed, and generally whenever the emitter keeps more statistics objects than the id.", "quantifier": "every history of on/removeListener/getListenerStats", "why_tests_cant": "Fails only after particular registration/removal orders.", "anchors": ["core/modules/core/include/klepsydra/core/unsafe_multi_listener_event_emitter.h: getListenerStats, removeListener"]}
{"id": "C11", "title": "Single-listener emitter", "statement": "At most one listener is ever active; the first registration wins until removed; emitEvent calls its callback exactly when the event name matches; removing frees the place for a new registration.", "quantifier": "every history of on/removeListener/removeAllListeners/emitEvent", "why_tests_cant": "Needs all histories.", "anchors": ["core/modules/core/include/klepsydra/core/unsafe_single_listener_event_emitter.h"]}
{"id": "C12", "title": "Subscriber: a listener removed by name receives nothing more", "statement": "After removeListener(name) on an EventEmitterSubscriber, no callback registered under that name is invoked by later publications until the name is registered again: with the multi- and single-listener emitters after any history, with the safe emitter if no name is registered while it is registered and statistics are asked only of registered names.", "quantifier": "every history of registerListener/removeListener/publish, every emitter type", "why_tests_cant": "Needs re-registration histories.", "anchors": ["core/modules/core/include/klepsydra/core/event_emitter_subscriber.h: registerListener, removeListener", "core/modules/core/include/klepsydra/core/safe_event_emitter.h"]}
{"id": "C13", "title": "Request/reply: each callback is invoked at most once, with the earliest matching pending request", "statement": "For callbacks that neither call the handler nor throw: onReplyReceived(reply) invokes the callback of the earliest still-pending request matching the reply, exactly once, and removes that request only; unmatched replies change nothing; a request is never answered twice; any threads with the thread-safe variant.", "quantifier": "every history of requests and replies and every matching relation", "why_tests_cant": "Needs all interleavings of requests and replies.", "anchors": ["core/modules/core/include/klepsydra/core/callback_handler.h: CallbackHandler::requestAndReply, onReplyReceived"]}
{"id": "C14", "title": "Request/reply: requests made by a reply callback, below the earlier peak", "statement": "A reply callback of the plain handler (asynchronous middleware) may call requestAndReply on the same handler as long as fewer requests are unanswered then, the answered one included, than there were at some earlier moment (or the handler's list has room for another reason): no undefined behaviour, every reply goes to the earliest matching pending request, the new request becomes pending, no request is answered twice.", "quantifier": "every handler state and every callback behaviour, both variants", "why_tests_cant": "Iterator invalidation is silent in most runs; deadlock depends on the publisher.", "anchors": ["core/modules/core/include/klepsydra/core/callback_handler.h: CallbackHandler::onReplyReceived, MultiThreadCallbackHandler"]}
{"id": "C15", "title": "Cache listener: counter and last event are consistent", "statement": "A reader of the thread-safe cache listener always gets a pair (n, e) such that e is the n-th received event, however reader and writers interleave.", "quantifier": "every interleaving of getCounterAndEvent and onEventReceived", "why_tests_cant": "Needs every schedule.", "anchors": ["core/modules/core/include/klepsydra/core/cache_listener.h: MultiThreadCacheListener::getCounterAndEvent, onEventReceived"]}
{"id": "C16", "title": "Safe queue: linearizable bounded FIFO", "statement": "With any number of producers and consumers, the items leave a SafeQueue in the order in which they entered, each exactly once, and the number of items never exceeds the configured maximum.", "quantifier": "every maximum > 0, every number of threads, every interleaving of push/try_push/force_move_push/pop/try_pop", "why_tests_cant": "Needs every schedule.", "anchors": ["core/modules/mem_mdlw/include/klepsydra/mem_core/safe_queue.h: SafeQueue::push, move_push, try_push, force_move_push, pop, move_pop, try_pop"]}
{"id": "C17", "title": "Safe queue: forced push accounting", "statement": "force_move_push always enqueues the new item, drops only oldest items and only as many as needed, and returns exactly the number dropped: over any history, accepted = delivered + still queued + sum of returned counts.", "quantifier": "every maximum and every history", "why_tests_cant": "Needs every history.", "anchors": ["core/modules/mem_mdlw/include/klepsydra/mem_core/safe_queue.h: force_move_push"]}
{"id": "C18", "title": "Safe queue: timed pops of a single consuming thread never read an empty queue", "statement": "If one thread only takes items out, nothing replaces the contents, and no wait wakes up spuriously, then timed pops (and all others) never read from an empty queue, whatever the producers do.", "quantifier": "every interleaving and every spurious wake-up", "why_tests_cant": "Spurious wake-ups and stolen items cannot be provoked deterministically.", "anchors": ["core/modules/mem_mdlw/include/klepsydra/mem_core/safe_queue.h: timeout_pop, timeout_move_pop"]}
{"id": "C19", "title": "Safe queue: maximum 0 means unlimited for the non-blocking pushes", "statement": "On a queue with maximum 0, try_push and its variants never refuse, and force_move_push discards nothing, whatever the threads do (no set_max_num_items).", "quantifier": "every sequence of operations on a queue and its copies", "why_tests_cant": "A test of this hangs instead of failing.", "anchors": ["core/modules/mem_mdlw/include/klepsydra/mem_core/safe_queue.h: push, move_push, copy and move constructors"]}
{"id": "C20", "title": "Safe queue: no lost wake-up between pushes and pops", "statement": "When nothing can happen by itself any more, no consumer is blocked in pop beside an available item (programs without timed pops), and no producer is blocked in push beside room (programs without swap, assignment and set_max_num_items).", "quantifier": "every interleaving of blocking operations, including swap", "why_tests_cant": "Lost wake-ups need a specific schedule.", "anchors": ["core/modules/mem_mdlw/include/klepsydra/mem_core/safe_queue.h: push, pop, swap, operator="]}
{"id": "C21", "title": "In-memory middleware: end-to-end FIFO and accounting", "statement": "Events published by any number of publishers are delivered to the subscriber of that event in publication order, each at most once, and none that was not published; at any time each accepted event is delivered, in delivery, queued or was dropped for lack of space; with the blocking policy none is dropped.", "quantifier": "every interleaving of publish and polling, both discard policies", "why_tests_cant": "Needs every schedule.", "anchors": ["core/modules/mem_mdlw/include/klepsydra/mem_core/basic_publisher.h", "core/modules/mem_mdlw/include/klepsydra/mem_core/safe_queue_poller.h", "core/modules/mem_mdlw/include/klepsydra/mem_core/safe_queue.h"]}
{"id": "C22", "title": "Pollers can be started and stopped again and again", "statement": "One thread calls start() and stop() on an in-memory poller in any order, and no start() has timed out: every start() and every stop() returns (or start() times out) in every fair schedule, within six rounds, after stop() the polling thread has ended, and after start() it runs.", "quantifier": "every interleaving of the start/stop caller and the polling thread, including a start-up timeout", "why_tests_cant": "Needs a specific preemption of the new thread.", "anchors": ["core/modules/mem_mdlw/src/in_memory_queue_poller.cpp: start, stop, pollingLoop", "core/modules/zmq_mdlw/include/klepsydra/zmq_core/zmq_poller.h"]}
{"id": "C23", "title": "Single-producer ring: no unread event is overwritten, sequences are contiguous", "statement": "A claim granted by the single-producer sequencer never covers a slot still unread by a registered consumer; successive claims are contiguous and try_next refuses exactly when there is not enough free room. (Consumers register while no claim is under way, and a claim is published before the next one is made.)", "quantifier": "every buffer size, every history of claims, publications and consumer progress", "why_tests_cant": "Needs all histories of producer/consumer positions including stale cached positions.", "anchors": ["high_performance/modules/high_performance/include/klepsydra/high_performance/disruptor4cpp/single_producer_sequencer.h: next, try_next, has_available_capacity, remaining_capacity", "high_performance/modules/high_performance/include/klepsydra/high_performance/disruptor4cpp/utils/util.h: get_minimum_sequence"]}
{"id": "C24", "title": "Multi-producer ring: claims are unique, complete, and refused only without room", "statement": "Concurrent claims on the multi-producer sequencer never overlap and leave no gap; each call gets as many sequences as it asked for; a claim is refused only if it is larger than the ring or there was no room for it at some moment of the call.", "quantifier": "every number of producers, every interleaving, every sequence value up to 2^63-1", "why_tests_cant": "Overrun needs more than 2^31 publications or a precise preemption.", "anchors": ["high_performance/modules/high_performance/include/klepsydra/high_performance/disruptor4cpp/multi_producer_sequencer.h: try_next, next, has_available_capacity"]}
{"id": "C25", "title": "Multi-producer ring: only published events become visible", "statement": "The highest published sequence reported to a consumer is never past an unpublished claim, so a consumer never reads a slot that its producer is still writing; and every published prefix eventually becomes visible. (As long as no publication overran a consumer, i.e. while fewer than 2^31 sequences were claimed, or for ever when only next() is used: see C93 for what happens beyond.)", "quantifier": "every order in which producers publish their claims", "why_tests_cant": "Out-of-order publication needs specific schedules.", "anchors": ["high_performance/modules/high_performance/include/klepsydra/high_performance/disruptor4cpp/multi_producer_sequencer.h: publish, is_available, get_highest_published_sequence, calculate_availability_flag, calculate_index"]}
{"id": "C26", "title": "Consumer loop: every event is handled exactly once, in order", "statement": "The batch processor hands every sequence after its start position to the handler exactly once and in increasing order, marks exactly the last of each batch with end_of_batch, and advances its own position only past handled events; an exception thrown by the handler only skips the event that threw. (As long as no publication overran a consumer, i.e. while fewer than 2^31 sequences were claimed, or for ever when only next() is used: see C93 for what happens beyond.)", "quantifier": "every sequence of available-sequence answers and every pattern of handler exceptions", "why_tests_cant": "Needs all batch splits.", "anchors": ["high_performance/modules/high_performance/include/klepsydra/high_performance/disruptor4cpp/batch_event_processor.h: run", "high_performance/modules/high_performance/include/klepsydra/high_performance/disruptor4cpp/sequence_barrier.h: wait_for"]}
{"id": "C27", "title": "Consumer loop: halt stops a running loop", "statement": "If halt() is called after run() has entered its loop, the processor returns from run(), in every fair schedule, with every wait strategy (with the lite blocking one: on machines without store buffers), whatever is published meanwhile.", "quantifier": "every interleaving of run() and halt()", "why_tests_cant": "The lost halt needs a preemption between two adjacent instructions.", "anchors": ["high_performance/modules/high_performance/include/klepsydra/high_performance/disruptor4cpp/batch_event_processor.h: halt, run", "high_performance/modules/high_performance/include/klepsydra/high_performance/event_loop.h: start, stop"]}
{"id": "C28", "title": "Event loop: end-to-end order and accounting", "statement": "Each event published through the running event loop is either refused at publication or accepted; accepted events are handled one at a time, in the order of acceptance (which respects each publishing thread's own order), each exactly once and with the data published. A listener is called only for events of its subscriber's event name, in order, and every listener registered when the event is taken and not removed meanwhile is called for it, exactly once if it was registered once, unless a listener throws while that event is handled. Once the publishers have returned, a loop that keeps taking steps handles everything accepted. (Fewer than 2^31 publications.)", "quantifier": "every interleaving of publishers, the loop and (un)registrations, every ring size, number of threads and listeners", "why_tests_cant": "Needs every schedule.", "anchors": ["high_performance/modules/high_performance/include/klepsydra/high_performance/event_loop_publisher.h: internalPublish", "high_performance/modules/high_performance/include/klepsydra/high_performance/event_loop_event_handler.h: on_event", "high_performance/modules/high_performance/include/klepsydra/high_performance/event_loop_subscriber.h", "high_performance/modules/high_performance/include/klepsydra/high_performance/event_loop.h"]}
{"id": "C29", "title": "Event loop: what is accepted while the loop runs is handled, the rest is not", "statement": "Over any history of start, stop, publications and restarts: an event accepted while the loop is running is handled once the loop has caught up unless it is stopped first, events are handled in order, the loop always catches up; before the first start nothing is refused; an event accepted while the loop is not running is never handled, nor one that was unhandled when the loop stopped.", "quantifier": "every placement of publications relative to start/stop", "why_tests_cant": "Needs every schedule.", "anchors": ["high_performance/modules/high_performance/include/klepsydra/high_performance/event_loop.h: start, _eventLoopTask", "high_performance/modules/high_performance/include/klepsydra/high_performance/disruptor4cpp/multi_producer_sequencer.h: add_gating_sequences"]}
{"id": "C30", "title": "Data multiplexer: newest event delivered, the rest accounted as discarded", "statement": "Every batch delivers exactly its newest event to each listener and counts every other event as discarded, so delivered + discarded = consumed for each listener, the delivered events are a subsequence in publication order, and when the consumer is idle the last accepted event has been delivered. (Listeners register while no publication is under way.)", "quantifier": "every batch splitting, any number of listeners", "why_tests_cant": "Needs all batch splits.", "anchors": ["high_performance/modules/high_performance/include/klepsydra/high_performance/data_multiplexer_event_handler.h: on_event", "high_performance/modules/high_performance/include/klepsydra/high_performance/data_multiplexer_subscriber.h"]}
{"id": "C31", "title": "Data multiplexer: publishing does not modify events not yet consumed", "statement": "An event a registered consumer has not consumed yet keeps its content, for rings of distinct objects, whatever is published and by whichever publish function, if consumers register while no claim is in progress or ahead of them; an event that a listener keeps a pointer to keeps its content if publications make a new object (publish by reference without a cloner).", "quantifier": "every history of publications and consumer progress, every construction mode", "why_tests_cant": "Aliasing shows only when the consumer lags.", "anchors": ["high_performance/modules/high_performance/include/klepsydra/high_performance/data_multiplexer_publisher.h: internalPublish, processAndPublish", "high_performance/modules/high_performance/include/klepsydra/high_performance/data_multiplexer_middleware_provider.h"]}
{"id": "C32", "title": "State machine: update semantics", "statement": "update() consumes queued events in order until the first one that triggers a transition of the current state, moves to the first matching target and notifies the observers exactly once with the resulting state; without a matching event the state is unchanged and the queue is emptied; nothing happens while stopped. start() notifies every observer once of the current state, as a change; stop() notifies nobody.", "quantifier": "every machine description, every queue, every history of calls", "why_tests_cant": "Needs every table and history.", "anchors": ["state_machine/modules/state_machine/src/state_machine_impl.cpp: update, enqueueEvent, start, stop, reset"]}
{"id": "C33", "title": "State machine: the current state is always a described state", "statement": "From the initial state of a well-formed description, every reachable current state is a state of the description, and an event never causes a transition that is not in the description.", "quantifier": "every description and every history", "why_tests_cant": "Needs all histories.", "anchors": ["state_machine/modules/state_machine/src/state_machine_impl.cpp", "state_machine/modules/state_machine/src/sm_factory_impl.cpp"]}
{"id": "C34", "title": "State machine: reset without queued events returns to a fresh machine", "statement": "If no event is queued, then after reset() the machine behaves exactly as a freshly created one with the same observers, for every configuration and every sequence of calls, re-entrant observers included; and reset() itself changes the current state and the started flag only.", "quantifier": "every history before reset", "why_tests_cant": "Needs all histories.", "anchors": ["state_machine/modules/state_machine/src/state_machine_impl.cpp: reset"]}
{"id": "C35", "title": "State machine listener: one-off actions once, entry actions on change, periodic actions on each update", "statement": "A one-off action runs at most once, at the first entry in its state after registration; a normal action runs at each reported change into its state and only then; a periodic action runs at every update that finds the machine in its state.", "quantifier": "every history of registrations and updates", "why_tests_cant": "Needs all histories.", "anchors": ["state_machine/modules/state_machine/src/state_machine_listener.cpp"]}
{"id": "C36", "title": "Property file: parsing recovers what the file says", "statement": "For every list of well-formed keys with values, written one per line as key=value with arbitrary surrounding blanks and trailing ;comments, the parsed table holds exactly these keys and values; a duplicate key, or a line without separator, without key or without value is rejected; a missing key yields the given default; a decimal integer in the range of int is read exactly and one outside is refused.", "quantifier": "every key/value list and every amount of blanks, comments and empty lines", "why_tests_cant": "Infinite input space.", "anchors": ["core/modules/core/include/klepsydra/core/config_file.h: ConfigFile::ExtractKeys, removeComment, validLine, extractKey, extractValue, getValueOfKey"]}
{"id": "C37", "title": "Configuration environment: last write wins and keys do not interfere", "statement": "getProperty returns the value of the latest setProperty on the same (type, root, key), or the given default and false when never set; writing one (root,key) never changes another. (Keys without the path separator '/'; roots may contain it.)", "quantifier": "every history of set/get with arbitrary keys and roots", "why_tests_cant": "Infinite key space; collisions need particular keys.", "anchors": ["core/modules/core/include/klepsydra/core/configuration_properties.h: getFullKey, ConfigurationProperties", "core/modules/core/src/configuration_environment.cpp"]}
{"id": "C38", "title": "Configuration environment: merging keeps existing values and reports clashes", "statement": "copyFrom(other) leaves every existing property unchanged and returns true exactly when there was no clash.", "quantifier": "every pair of environments", "why_tests_cant": "Needs all pairs of environments.", "anchors": ["core/modules/core/src/configuration_environment.cpp: copyFrom", "core/modules/core/include/klepsydra/core/configuration_properties.h: copyFrom"]}
{"id": "C39", "title": "Dynamic properties: the first write per key stays, types are respected", "statement": "DynamicConfigurationProperties: getProperty returns the first value set under its key, at its own type only; a set with another type is refused; nothing changes a stored value. copyFrom keeps what was there and adds the other's properties, each at its type under the prefix, and nothing else.", "quantifier": "every history of typed set/get", "why_tests_cant": "Needs all histories.", "anchors": ["core/modules/core/include/klepsydra/core/configuration_properties.h: DynamicConfigurationProperties"]}
{"id": "C40", "title": "In-memory environment: last write wins", "statement": "MemEnv get returns the latest value set for that key and type, or the default and false.", "quantifier": "every history of set/get", "why_tests_cant": "Needs all histories.", "anchors": ["core/modules/mem_mdlw/src/mem_env.cpp"]}
{"id": "C41", "title": "Container: detaching removes exactly the given object", "statement": "With distinct names and without detaching publication statistics or bare service statistics: after any history of attach and detach calls each vector of the container contains exactly the attached and not detached objects of its kind, in order.", "quantifier": "every history of attach/detach/start/stop", "why_tests_cant": "Tests detach one object out of one or two with different names; that nothing else is lost ranges over all histories and all namings.", "anchors": ["core/modules/core/src/core_container.cpp"]}
{"id": "C42", "title": "Container: statistics run while the container is started", "statement": "While the container runs every attached statistics object is started, including those attached after start, also if start() and the attachment run at the same time; stop() stops all that are attached; nothing is started without start().", "quantifier": "every history of attach/detach/start/stop", "why_tests_cant": "Needs all histories.", "anchors": ["core/modules/core/src/core_container.cpp: start, stop, attach"]}
{"id": "C43", "title": "Socket protocol: the receiver gets exactly the bytes sent", "statement": "Over a connection with a valid non-zero descriptor, a message sent with ProtocolSimple::sendMessage through a reliable byte stream is received by recvMessage byte for byte, whatever the way the stream splits, delays or interrupts reads and writes; neither side throws, and the reception ends as long as bytes keep moving.", "quantifier": "every message, every chunking, every pattern of retryable errors", "why_tests_cant": "A loopback test sees one or two chunkings out of unboundedly many.", "anchors": ["core/modules/socket_mdlw/src/protocol_simple.cpp", "core/modules/socket_mdlw/src/data_socket.cpp", "core/modules/socket_mdlw/include/klepsydra/socket_core/data_socket.tpp"]}
{"id": "C44", "title": "Socket: close releases the descriptor exactly once and reports success as success", "statement": "close() on a valid socket calls the operating system close exactly once on success, returns normally, and leaves the object invalid so that the destructor does not close the (possibly reused) descriptor again.", "quantifier": "every result sequence of the OS close and every stale errno value", "why_tests_cant": "Depends on stale errno and descriptor reuse.", "anchors": ["core/modules/socket_mdlw/src/base_socket.cpp: close, swap, move"]}
{"id": "C45", "title": "Trivial-copy mapper: round trip", "statement": "Mapping any value to bytes and back yields the same value (also if more bytes follow); a mapper of a type to itself changes nothing; reading through the stream buffer delivers the message in order and reads only bytes of the message.", "quantifier": "every value and every received byte vector", "why_tests_cant": "Infinite input space; over-reads are silent.", "anchors": ["serialization/modules/serialization/include/klepsydra/serialization/void_caster_mapper.h"]}
{"id": "C46", "title": "Distributed environment: an update reaches the other environments and is not echoed", "statement": "When one ZMQ environment sets a property, every other environment with the same key that was created in another millisecond and is connected to it reads the same value once its poller has received that message; an environment ignores its own updates; everything environments with another key do is ignored.", "quantifier": "every history of sets, loads, losses and polls, any number of environments", "why_tests_cant": "Tests use two environments, one set at a time.", "anchors": ["core/modules/zmq_mdlw/src/zmq_env.cpp"]}
{"id": "C47", "title": "Scheduler: a one-shot task runs at most once, and not if stopped before its thread ran", "statement": "A one-shot task is executed at most once; a task that is stopped before its thread has had a turn is never executed.", "quantifier": "every history of start/stop", "why_tests_cant": "Needs all timings.", "anchors": ["core/modules/mem_mdlw/src/basic_scheduler.cpp"]}
{"id": "C48", "title": "Event loop provider: typed access by name", "statement": "In a program that uses each event name with one type, and the scheduler's name for no subscriber, every publisher, subscriber or scheduler the provider returns is a live object of the requested type; equal names give the same object and different names different ones; there is one scheduler.", "quantifier": "every sequence of requests with arbitrary names and types", "why_tests_cant": "Type confusion and dangling pointers are silent in tests.", "anchors": ["high_performance/modules/high_performance/include/klepsydra/high_performance/event_loop_middleware_provider.h: getPublisher, getSubscriber, getScheduler", "high_performance/modules/high_performance/include/klepsydra/high_performance/event_loop_function_exec_listener.h"]}
{"id": "C49", "title": "Dependent consumers never run ahead of the consumers they depend on", "statement": "A consumer whose barrier depends on other consumers only handles a sequence after all of those have handled it. (As long as no publication overran a consumer, i.e. while fewer than 2^31 sequences were claimed, or for ever when only next() is used: see C93 for what happens beyond.)", "quantifier": "every graph of barriers and every interleaving", "why_tests_cant": "Needs every schedule.", "anchors": ["high_performance/modules/high_performance/include/klepsydra/high_performance/disruptor4cpp/sequence_barrier.h", "high_performance/modules/high_performance/include/klepsydra/high_performance/disruptor4cpp/fixed_sequence_group.h", "high_performance/modules/high_performance/include/klepsydra/high_performance/disruptor4cpp/batch_event_processor.h"]}
{"id": "C50", "title": "Managed service: system events drive the service", "statement": "As long as it is not destroyed, a managed service created with system events is started exactly for each Start event and shut down exactly for each Stop event published after its creation, in the order published; other events, and events before its creation, have no effect on it.", "quantifier": "every history of creations and destructions of services and of published events", "why_tests_cant": "Tests send one start and one stop to one service.", "anchors": ["core/modules/core/include/klepsydra/core/manage_service.h", "core/modules/core/include/klepsydra/core/system_event.h"]}
{"id": "C51", "title": "Pooled publisher with an initialiser: process functions start from a freshly initialised event", "statement": "If the pool has an initialiser that sets the whole event, processAndPublish(process) hands the process function an event in its initialised state, whatever was published before, and in an object nobody holds.", "quantifier": "every pool size, initializer, event type and history of publications and releases of published events", "why_tests_cant": "Whether a recycled object is handed out depends on the whole history of publications and releases.", "anchors": ["core/modules/core/include/klepsydra/core/object_pool_publisher.h: ObjectPoolPublisher::processAndPublish", "core/modules/core/include/klepsydra/core/smart_object_pool.h"]}
{"id": "C52", "title": "Safe emitter: a removed listener is not invoked any more once no emit is in progress", "statement": "Once a listener has been removed and no emit of its event is in progress, its callback is never invoked again, whatever happens later.", "quantifier": "every number of threads, every interleaving and every nesting of calls made from inside callbacks", "why_tests_cant": "An emit in another thread (or an outer emit of the same thread) may hold a snapshot of the listeners; only all interleavings tell.", "anchors": ["core/modules/core/include/klepsydra/core/safe_event_emitter.h: removeListener, emitEvent"]}
{"id": "C53", "title": "Unsafe emitters never detach a null statistics object", "statement": "The multi-listener emitter never passes a null statistics pointer to the container's detach, whatever calls are made; nor does the single-listener one if removals are of registered listeners created with a container.", "quantifier": "all three emitters, all histories of registrations, removals, emissions and discards, with and without container", "why_tests_cant": "The null pointer only appears for particular orders of registration and removal.", "anchors": ["core/modules/core/include/klepsydra/core/unsafe_multi_listener_event_emitter.h: removeListener, removeAllListeners", "core/modules/core/include/klepsydra/core/unsafe_single_listener_event_emitter.h: removeListener, removeAllListener", "core/modules/core/include/klepsydra/core/safe_event_emitter.h: removeAllListeners"]}
{"id": "C54", "title": "A subscriber is a registry keyed by listener name", "statement": "If statistics are asked only of registered names: registering a registered name changes nothing, removing a name affects that name only, and a publication reaches every registered listener exactly once in registration order; with the multi-listener emitter, and with the safe one if no name is registered while it is registered.", "quantifier": "all histories of registerListener, removeListener, getSubscriptionStats and publish on one subscriber, over the three emitters", "why_tests_cant": "The number of histories is unbounded and the failing ones mix statistics queries with removals.", "anchors": ["core/modules/core/include/klepsydra/core/event_emitter_subscriber.h: registerListener, removeListener, getSubscriptionStats"]}
{"id": "C55", "title": "Concurrent swaps and assignments of safe queues exclude each other and release their locks", "statement": "While threads swap or copy-assign SafeQueues, no two of them hold the mutex of one queue, all mutexes are free when they are done, and altogether they take at most three effective steps per call.", "quantifier": "any number of queues, any set of swap/assignment calls, every interleaving", "why_tests_cant": "The deadlock needs one specific interleaving.", "anchors": ["core/modules/mem_mdlw/include/klepsydra/mem_core/safe_queue.h: swap, operator="]}
{"id": "C56", "title": "A poller started and stopped by one thread never terminates the program", "statement": "One thread calls start() and stop() in any order, no start() has timed out: the program is never terminated by it.", "quantifier": "every number of calling threads, their call sequences, and every schedule", "why_tests_cant": "the failing interleaving needs two threads between the test of the started flag and its update", "anchors": ["core/modules/mem_mdlw/src/in_memory_queue_poller.cpp: InMemoryQueuePoller::start", "core/modules/zmq_mdlw/include/klepsydra/zmq_core/zmq_poller.h: start"]}
{"id": "C57", "title": "Destroying a stopped poller is safe", "statement": "After any calls of start() and stop() by one thread (start may have timed out): if stop() is called last, then destroying the poller, or the provider that owns poller and queue, never lets the polling thread use an object already destroyed, and never terminates the program, in any schedule. Nor does it as long as nobody destroys the poller, however many threads start and stop it.", "quantifier": "every point at which the destructor runs relative to the polling thread", "why_tests_cant": "the destroyed memory usually still looks valid; the outcome depends on the schedule", "anchors": ["core/modules/mem_mdlw/src/in_memory_queue_poller.cpp: ~InMemoryQueuePoller", "core/modules/mem_mdlw/include/klepsydra/mem_core/basic_middleware_provider.h"]}
{"id": "C58", "title": "Data multiplexer: a publication that fails is never delivered", "statement": "If processAndPublish lets an exception of the user's process function out, no listener is ever given an event for that call; every event given to a listener is that of a publication that succeeded, with its content (listeners register while nothing claimed is unpublished, and if the provider was built from a model event the publications make new objects).", "quantifier": "every history of publications, failing or not, and of listener progress", "why_tests_cant": "The stale slot becomes visible only after a later publication.", "anchors": ["high_performance/modules/high_performance/include/klepsydra/high_performance/data_multiplexer_publisher.h: processAndPublish, internalPublish", "high_performance/modules/high_performance/include/klepsydra/high_performance/data_multiplexer_event_handler.h: on_event", "high_performance/modules/high_performance/include/klepsydra/high_performance/disruptor4cpp/single_producer_sequencer.h: next, publish"]}
{"id": "C59", "title": "Consumers: no lost wake-up", "statement": "A consumer thread waiting for the next event is woken and given every event published, in order, in every fair schedule, with every wait strategy (the lite blocking one: on machines without store buffers), unless a listener failed.", "quantifier": "every interleaving of the consumer with any number of publishing threads, every wait strategy, spurious wake-ups, time-outs and handler exceptions", "why_tests_cant": "A lost wake-up needs one precise interleaving (or a delayed store) and shows only as a rare hang.", "anchors": ["high_performance/modules/high_performance/include/klepsydra/high_performance/disruptor4cpp/wait_strategies/blocking_wait_strategy.h: wait_for, signal_all_when_blocking", "high_performance/modules/high_performance/include/klepsydra/high_performance/disruptor4cpp/wait_strategies/lite_blocking_wait_strategy.h: wait_for, signal_all_when_blocking", "high_performance/modules/high_performance/include/klepsydra/high_performance/disruptor4cpp/wait_strategies/timeout_blocking_wait_strategy.h", "high_performance/modules/high_performance/include/klepsydra/high_performance/disruptor4cpp/batch_event_processor.h: run"]}
{"id": "C60", "title": "State machine: all observers see the same sequence of states", "statement": "Observers that do not call the machine when notified, and no observer registered later: all observers registered from the start have seen the same sequence of states whenever no notification is in progress.", "quantifier": "every description, every history, every behaviour of the observers (including calling the machine again)", "why_tests_cant": "Whether a re-entrant reaction of one observer hides a state from another depends on the order and nesting of notifications, which tests sample.", "anchors": ["state_machine/modules/state_machine/src/state_machine_impl.cpp: updateObservers, update, registerObserver"]}
{"id": "C61", "title": "State machine listener: reacts to its own machine only", "statement": "For non-empty listener identifiers and machine identifiers without a colon: a listener created for one machine runs its actions for the states of that machine only, and for the state they were registered for only.", "quantifier": "every pair of machine identifiers and state names", "why_tests_cant": "The identifiers are arbitrary strings; tests use a few.", "anchors": ["state_machine/modules/state_machine/src/state_machine_listener.cpp: getCompleteName, updateCurrentState", "state_machine/modules/state_machine/src/state_machine_impl.cpp: updateObservers"]}
{"id": "C62", "title": "Property file environment: what the file says is read", "statement": "getPropertyString of a PropertyFileEnvironment for a key of the file whose value is not empty and has no white space gives that value and reports true; so do getPropertyInt for a decimal number in the range of int and getPropertyBool for 0 and 1, whatever the root. loadFile changes nothing and reports false. A file that names a key twice is not opened.", "quantifier": "every file, every key and default value, every sequence of reads and writes", "why_tests_cant": "the environment is one of several interchangeable implementations of the same interface; a test can only compare them on chosen keys", "anchors": ["core/modules/core/src/prop_file_environment.cpp: PropertyFileEnvironment", "core/modules/core/include/klepsydra/core/prop_file_environment.h"]}
{"id": "C63", "title": "Discarded events are counted per listener", "statement": "For a repeating listener of a safe event emitter, getListenerStats(id) reports as discarded exactly the number of discardEvent calls for its event made since it was registered; a one-off, removed or unknown listener has no statistics.", "quantifier": "every history of registrations, removals, emits and discards by any number of threads, also from inside callbacks", "why_tests_cant": "the counter depends on the whole history and its interleaving", "anchors": ["core/modules/core/include/klepsydra/core/safe_event_emitter.h: discardEvent, getListenerStats, addListener"]}
{"id": "C64", "title": "A processor's sequence says exactly which events it has handled", "statement": "At every moment every event up to get_sequence() of a batch event processor has been handled, so neither a producer nor a dependent consumer gated on it can overtake it; and between two batches, in particular while it waits, the handled events are exactly those up to its sequence, whatever the handler throws.", "quantifier": "every wait strategy, schedule, number of producers, and outcome of each handler call", "why_tests_cant": "the sequence is written at batch ends and on exceptions, at moments a test cannot observe", "anchors": ["high_performance/modules/high_performance/include/klepsydra/high_performance/disruptor4cpp/batch_event_processor.h: run, get_sequence"]}
{"id": "C65", "title": "Event loop: the discard statistics of a publisher used by one thread are exact", "statement": "The number of discarded events an event loop publisher reports is never more than the number of its refused publications, and is exactly that number if one thread uses the publisher and is not just counting.", "quantifier": "every interleaving of any number of publishing threads and the loop", "why_tests_cant": "Lost updates need a particular interleaving.", "anchors": ["high_performance/modules/high_performance/include/klepsydra/high_performance/event_loop_publisher.h: internalPublish"]}
{"id": "C66", "title": "Event loop: the data of a handled event is released if no listener throws", "statement": "As long as no listener throws: the ring refers only to data of events not handled yet (a pooled object can go back to its pool), and a publisher never finds data left behind in its slot.", "quantifier": "every interleaving, every ring size", "why_tests_cant": "Needs every schedule, including listeners that throw.", "anchors": ["high_performance/modules/high_performance/include/klepsydra/high_performance/event_loop_event_handler.h: on_event", "high_performance/modules/high_performance/include/klepsydra/high_performance/event_loop_publisher.h: prePublishing"]}
{"id": "C67", "title": "Event loop: what is accepted while it runs is handled, over any number of restarts", "statement": "An event accepted between a return of start() and the next stop() is handled with its own data if the loop is then left running; whatever is handled was accepted and is handled once and in order of acceptance, over any history of starts and stops.", "quantifier": "every placement of publications, starts and stops", "why_tests_cant": "All histories of restarts.", "anchors": ["high_performance/modules/high_performance/include/klepsydra/high_performance/event_loop.h: start, stop, _eventLoopTask", "high_performance/modules/high_performance/include/klepsydra/high_performance/disruptor4cpp/multi_producer_sequencer.h: add_gating_sequences", "high_performance/modules/high_performance/include/klepsydra/high_performance/disruptor4cpp/batch_event_processor.h: run"]}
{"id": "C68", "title": "Socket protocol: what a reception returns is always a prefix of the message sent", "statement": "Whatever system calls return and whenever the connection breaks, the string recvMessage returns or leaves behind is a prefix of the message sent.", "quantifier": "every message, every chunking, every failure point", "why_tests_cant": "Failure points are any byte of any message; a test resets the connection at one of them.", "anchors": ["core/modules/socket_mdlw/src/protocol_simple.cpp", "core/modules/socket_mdlw/src/data_socket.cpp", "core/modules/socket_mdlw/include/klepsydra/socket_core/data_socket.tpp"]}
{"id": "C69", "title": "Sockets: one owner per descriptor", "statement": "As long as the program leaves closing to destructors, whatever the sequence of constructions, moves, move assignments and destructions: each descriptor belongs to exactly one live object, is closed exactly once, is closed for all of them once all objects are gone, and descriptors opened by other code are never closed.", "quantifier": "every history of socket creations, moves, assignments and destructions interleaved with other code opening files", "why_tests_cant": "Double closes show only if another file gets the same number in between.", "anchors": ["core/modules/socket_mdlw/src/base_socket.cpp", "core/modules/socket_mdlw/include/klepsydra/socket_core/base_socket.h"]}
{"id": "C70", "title": "Distributed environment: convergence if the environments take turns", "statement": "If the environments take turns (each turn's sets, any number, are received everywhere before the next turn begins), then all environments with one key have the same content, that of all sets in order.", "quantifier": "every history of sets and loads on any number of environments with the same key, every interleaving of polls", "why_tests_cant": "Divergence needs two sets in flight at the same time; a test makes one set and waits.", "anchors": ["core/modules/zmq_mdlw/src/zmq_env.cpp", "core/modules/core/src/configuration_environment.cpp: updateConfiguration, exportEnvironment, copyFrom"]}
{"id": "C71", "title": "ZMQ channels: end-to-end delivery", "statement": "Over a lossless connection, the events published on a topic through any number of to-ZMQ channels (binary, JSON, trivial copy) of one socket reach the publisher registered for that topic in publication order, once each and as the same values, for every serialisation that reads back what it wrote (for binary: without depending on what follows). JSON and trivial-copy messages are exactly the serialised event.", "quantifier": "every set of channels, every sequence of publications, every choice of pooled buffer, every interleaving of arrivals and receives", "why_tests_cant": "Tests send a few events of one size on one topic.", "anchors": ["core/modules/zmq_mdlw/include/klepsydra/zmq_core/to_zmq_middleware_provider.h", "core/modules/zmq_mdlw/include/klepsydra/zmq_core/binary_to_zmq_channel.h", "core/modules/zmq_mdlw/include/klepsydra/zmq_core/zmq_poller.h", "core/modules/zmq_mdlw/include/klepsydra/zmq_core/from_zmq_middleware_provider.h"]}
{"id": "C72", "title": "ZMQ receiver: registrations decide who gets a message", "statement": "For two-frame messages: from the first registration of a topic until unregisterFromTopic exactly the messages of this topic go to its publisher, in order; after unregisterFromTopic none does.", "quantifier": "every history of registrations, unregistrations, arrivals and receives", "why_tests_cant": "Tests register once and never unregister; a foreign message never arrives.", "anchors": ["core/modules/zmq_mdlw/include/klepsydra/zmq_core/from_zmq_middleware_provider.h: registerToTopic, unregisterFromTopic", "core/modules/zmq_mdlw/include/klepsydra/zmq_core/zmq_poller.h: executeFunction", "core/modules/zmq_mdlw/include/klepsydra/zmq_core/json_zmq_poller.h: poll"]}
{"id": "C73", "title": "ZMQ channels: a message starts with the serialised event; length on a binary channel", "statement": "Each message sent consists of the topic and a content that starts with the serialised event; on a binary channel its length is that of the longest event sent so far.", "quantifier": "every sequence of events of any sizes", "why_tests_cant": "It takes a shorter event after a longer one, and a receiver that looks at the size, to see it.", "anchors": ["core/modules/zmq_mdlw/include/klepsydra/zmq_core/to_zmq_middleware_provider.h: getBinaryToMiddlewareChannel", "core/modules/zmq_mdlw/include/klepsydra/zmq_core/binary_to_zmq_channel.h: internalPublish"]}
{"id": "C74", "title": "ZMQ provider: one channel per kind and topic", "statement": "Two calls to the provider return the same channel exactly if they ask for the same kind and topic.", "quantifier": "every sequence of calls", "why_tests_cant": "Ranges over all call sequences; tests ask for each topic once.", "anchors": ["core/modules/zmq_mdlw/include/klepsydra/zmq_core/to_zmq_middleware_provider.h"]}
{"id": "C75", "title": "ZMQ receiver: destruction after stop is safe", "statement": "A receiving channel that is stopped and then destroyed never lets its polling thread use destroyed objects, whatever happened before and whatever the schedule.", "quantifier": "every list of start/stop calls before the destruction, every schedule of the polling thread and of arriving messages", "why_tests_cant": "The race needs a message arriving during the destructor.", "anchors": ["core/modules/zmq_mdlw/include/klepsydra/zmq_core/from_zmq_middleware_provider.h: FromZmqChannel members", "core/modules/zmq_mdlw/include/klepsydra/zmq_core/zmq_poller.h: ~ZMQPoller"]}
{"id": "C76", "title": "Scheduler: stop is final, one-shot tasks run at most once, repeated ones keep running, and a disciplined program is not terminated", "statement": "After stopScheduledTask returns the task neither begins again nor is still running; after stop is called at most one more execution begins; a one-shot task is begun at most once; stop returns after finitely many steps of the task's thread; a repeated task that is not stopped is begun at least once in every three steps of its thread; a program that starts tasks only under unused names and stops all of them before destroying the scheduler is never terminated by it.", "quantifier": "every sequence of start/stop/destroy calls and every schedule of the caller and the task threads", "why_tests_cant": "Needs all interleavings of the flag test, the delay, the task and the stop.", "anchors": ["core/modules/mem_mdlw/src/basic_scheduler.cpp", "core/modules/mem_mdlw/include/klepsydra/mem_core/basic_scheduler.h", "high_performance/modules/high_performance/src/event_loop_scheduler.cpp"]}
{"id": "C77", "title": "Unsafe emitters: emitting from inside a callback", "statement": "A listener may emit events, register listeners for other events and discard from inside its callback: the outer emission still calls exactly the listeners that were registered when it began, each once, in order. (Registering or removing listeners of the event being emitted from inside is not allowed: it invalidates the iteration.)", "quantifier": "every emitter history, every set of callbacks that stay within these rules, every nesting depth", "why_tests_cant": "Needs all nestings and histories; the iterator invalidation shows only under some allocators.", "anchors": ["core/modules/mem_mdlw/include/klepsydra/mem_core/unsafe_multi_listener_event_emitter.h: emitEvent, on, once, remove_listener", "core/modules/mem_mdlw/include/klepsydra/mem_core/unsafe_single_listener_event_emitter.h"]}
{"id": "C78", "title": "Rings: consumers removed before they are destroyed do not hold up the others", "statement": "If every consumer is removed from the ring (remove_gating_sequence) before it is destroyed, memory of destroyed consumers is never read; and whenever the registered consumers have consumed everything, as many publications as the ring has slots are accepted.", "quantifier": "every history of consumers coming, consuming, ending and being destroyed, every ring size", "why_tests_cant": "The hold-up shows only after a full ring of further publications; the read of freed memory usually goes unnoticed.", "anchors": ["high_performance/modules/high_performance/include/klepsydra/high_performance/disruptor4cpp/single_producer_sequencer.h: add_gating_sequences, remove_gating_sequence, has_available_capacity, try_next", "high_performance/modules/high_performance/include/klepsydra/high_performance/data_multiplexer_subscriber.h"]}
{"id": "C79", "title": "Stopping a consumer returns", "statement": "Stopping an event loop or a data multiplexer listener for the first time, or destroying a data multiplexer subscriber, whose consumer thread is in its loop and whose listeners throw std::exceptions at most, returns in every fair schedule (with the lite blocking strategy: on machines without store buffers).", "quantifier": "every wait strategy, number of other threads publishing, moment of the stop, and fair schedule", "why_tests_cant": "It is a liveness claim over all schedules: a lost wake-up or a race of the halt with the wait shows only in rare interleavings.", "anchors": ["high_performance/modules/high_performance/include/klepsydra/high_performance/event_loop.h: stop", "high_performance/modules/high_performance/include/klepsydra/high_performance/data_multiplexer_listener.h: stop", "high_performance/modules/high_performance/include/klepsydra/high_performance/data_multiplexer_subscriber.h: ~DataMultiplexerSubscriber", "high_performance/modules/high_performance/include/klepsydra/high_performance/disruptor4cpp/batch_event_processor.h: halt, run"]}
{"id": "C80", "title": "A no-op processor follows the publisher", "statement": "The sequence of a no-op event processor never passes the publisher's cursor nor goes back, and follows the cursor while the processor runs; it is running from the start of run() until it is halted; run() returns once the processor is halted and its barrier is alerted, and forgets alerts from before.", "quantifier": "every interleaving of run, publications, halts and alerts", "why_tests_cant": "Whether run() ever returns after halt() depends on the schedule and on what others do later; no finite test shows that it never does.", "anchors": ["high_performance/modules/high_performance/include/klepsydra/high_performance/disruptor4cpp/no_op_event_processor.h: halt, run", "high_performance/modules/high_performance/include/klepsydra/high_performance/disruptor4cpp/sequence_barrier.h: alert, wait_for"]}
{"id": "C81", "title": "Concurrent-queue middleware: order, accounting and progress", "statement": "With a queue that keeps the order of its producer (the queue library is not part of the repository), one publishing thread and one poller: events are delivered in the order of publication over any number of starts and stops; each publication is exactly once delivered, held, waiting or discarded, the discarded ones being older than the waiting ones and, between publications, equal in number to the statistics; the blocking publisher loses nothing. If the queue accepts when it is empty and gives an element when it has one, a discarding publication always returns, a blocking one returns while the poller runs, and a waiting event is delivered or discarded after a bounded number of polls.", "quantifier": "every sequence of publications, refusals of the queue, starts, stops and poller steps, both modes", "why_tests_cant": "Order and accounting must hold for every interleaving of publisher, poller and refusals; progress is a liveness claim.", "anchors": ["core/modules/mem_mdlw/include/klepsydra/mem_core/concurrent_queue_publisher.h: ConcurrentQueuePublisher, internalPublish", "core/modules/mem_mdlw/include/klepsydra/mem_core/concurrent_queue_poller.h: takeEventFromQueue", "core/modules/mem_mdlw/include/klepsydra/mem_core/concurrent_middleware_provider.h", "core/modules/mem_mdlw/src/in_memory_queue_poller.cpp: start, stop, pollingLoop"]}
{"id": "C82", "title": "Sockets come into being whole or not at all", "statement": "A server or client socket is constructed exactly when all its system calls succeed, and then closes nothing; otherwise the constructor throws and the descriptor is released. Local sockets with different paths of at most 107 characters have different addresses. accept returns a new socket when a client connects in time and reports a time-out otherwise.", "quantifier": "every outcome and errno of the system calls, every path, every descriptor number", "why_tests_cant": "Failures of bind, listen, connect and select and large descriptors are hard to provoke, and a double close shows only when another thread opens a file in between.", "anchors": ["core/modules/socket_mdlw/src/server_socket.cpp: ServerSocket, accept", "core/modules/socket_mdlw/src/connect_socket.cpp: ConnectSocket", "core/modules/socket_mdlw/src/base_socket.cpp: BaseSocket, ~BaseSocket, close"]}
{"id": "C83", "title": "ZMQ poller: registrations from any thread", "statement": "Registering and unregistering topics may happen from any threads: a message goes to the function registered at that moment, after unregisterFromTopic has returned the callback neither runs nor starts again, callbacks run one at a time, and as long as callbacks do not change the registrations there is no deadlock.", "quantifier": "any number of threads and their programs, every callback behaviour, every schedule", "why_tests_cant": "A callback that is still running after its removal, or a lock taken twice, shows only in particular interleavings.", "anchors": ["core/modules/zmq_mdlw/include/klepsydra/zmq_core/zmq_poller.h: registerToTopic, unregisterFromTopic, executeFunction"]}
{"id": "C84", "title": "Rings: sizes, slots and capacity", "statement": "Every power of two from 2 on works as ring size, and of the sizes from 2 on the check accepts only these: events less than a ring apart have different slots, slot and lap identify an event, log2 gives the exponent used for the laps; the minimum of sequences is the smallest of the values read; remaining_capacity is exact and between 0 and the size when nothing changes during the call, and never more than what is free when it returns; for the producer of a single-producer ring it is always between 0 and the size.", "quantifier": "every size, sequence number, list of sequence values, and history of producers and consumers during the call", "why_tests_cant": "The claims are about all numbers and, for the capacity, all interleavings of the reads.", "anchors": ["high_performance/modules/high_performance/include/klepsydra/high_performance/disruptor4cpp/ring_buffer.h: static_assert, operator[]", "high_performance/modules/high_performance/include/klepsydra/high_performance/disruptor4cpp/utils/util.h: get_minimum_sequence, log2", "high_performance/modules/high_performance/include/klepsydra/high_performance/disruptor4cpp/fixed_sequence_group.h: get", "high_performance/modules/high_performance/include/klepsydra/high_performance/disruptor4cpp/multi_producer_sequencer.h: remaining_capacity, calculate_index, calculate_availability_flag", "high_performance/modules/high_performance/include/klepsydra/high_performance/disruptor4cpp/single_producer_sequencer.h: remaining_capacity"]}
{"id": "C85", "title": "Phased-backoff waiting ends when it should", "statement": "A phased-backoff wait returns the first available value that is at least the awaited sequence, as soon as it is there; it falls back to the second strategy once the yield time has passed.", "quantifier": "every sequence of readings of the sequences and of the clock, every number of spins and time-out", "why_tests_cant": "Depends on the clock and on what arrives between any two of thousands of spins.", "anchors": ["high_performance/modules/high_performance/include/klepsydra/high_performance/disruptor4cpp/wait_strategies/phased_backoff_wait_strategy.h: wait_for"]}
{"id": "C86", "title": "A single-producer ring has no data race under the C++ memory model", "statement": "With one publishing thread and any number of consumers registered before the first publication, on any processor that keeps the C++ acquire/release guarantees: no two accesses to the data of an event, at least one of them a write, by the publisher and a consumer are unordered; every consumer reads event 0, 1, 2, ... in order, each with the content the publisher wrote, even if some handler calls throw.", "quantifier": "every ring size, number of consumers, interleaving, and every choice of which earlier write an atomic load reads (stale values included)", "why_tests_cant": "tests run on x86 (total store order) under a few schedules; a weakly ordered processor may show stale values and reorderings never seen there", "anchors": ["high_performance/modules/high_performance/include/klepsydra/high_performance/disruptor4cpp/single_producer_sequencer.h: next, publish", "high_performance/modules/high_performance/include/klepsydra/high_performance/disruptor4cpp/sequence.h: get, set", "high_performance/modules/high_performance/include/klepsydra/high_performance/disruptor4cpp/batch_event_processor.h: run", "high_performance/modules/high_performance/include/klepsydra/high_performance/disruptor4cpp/sequence_barrier.h: wait_for"]}
{"id": "C87", "title": "A multi-producer ring has no data race under the C++ memory model", "statement": "With any number of publishing threads and consumers: no two conflicting accesses to the data of an event, or to the flags that say which events are published, are unordered; every consumer reads event 0, 1, 2, ... in order with its own content.", "quantifier": "every ring size, number of producers and consumers, interleaving and choice of which earlier write an atomic load reads; before and after the event loop starts", "why_tests_cant": "a data race need not show on the machine that runs the tests; the flags are plain ints and x86 hides that", "anchors": ["high_performance/modules/high_performance/include/klepsydra/high_performance/disruptor4cpp/multi_producer_sequencer.h: next, try_next, publish, get_highest_published_sequence, available_buffer_", "high_performance/modules/high_performance/include/klepsydra/high_performance/disruptor4cpp/sequence.h", "high_performance/modules/high_performance/include/klepsydra/high_performance/event_loop.h: _eventLoopTask", "high_performance/modules/high_performance/include/klepsydra/high_performance/event_loop_event_handler.h: on_event"]}
{"id": "C88", "title": "Lock-free stack: nothing is lost or duplicated under the C++ memory model", "statement": "However many threads push and pop, on any processor that keeps the guarantees of the C++ memory model (loads may see old values unless ordered): accesses to an element are ordered (no data race), every pop returns an element that was in the stack or pushed and that no other pop returned, and when no operation is in progress those not popped are in the stack. (As long as no 16-bit tag goes round: see C01.)", "quantifier": "every capacity, number of threads, interleaving, and every choice of which earlier write a load reads within what the memory orders of the code allow", "why_tests_cant": "the tests run on x86, which never shows the stale link that the relaxed load allows", "anchors": ["core/modules/core/include/klepsydra/core/lock_free_stack.h: _pop (line 112), _push, push, pop"]}
{"id": "C89", "title": "Consumers that share a blocking wait strategy are never left asleep", "statement": "Several consumers wait on one ring with one blocking, time-out blocking or lite blocking wait strategy while any threads publish events and halt consumers. Whenever every publish and halt call has returned, a consumer that is still asleep (not being woken) has handled every published event and has not been halted. Each consumer handles events 0, 1, 2, ... in order, each once. Once threads stop asking for more, every schedule in which every thread keeps getting turns lets every call return, ends every halted consumer, and lets every other consumer handle every published event.", "quantifier": "every number of consumers and of publishing or halting threads, every program of publishes and halts, every interleaving, spurious wake-up and time-out", "why_tests_cant": "a lost wake-up is one interleaving of the flag, the lock and the condition variable; tests of one consumer on an idle machine never meet it, and the lite strategy's flag is shared by all consumers", "anchors": ["high_performance/modules/high_performance/include/klepsydra/high_performance/disruptor4cpp/wait_strategies/blocking_wait_strategy.h: wait_for, signal_all_when_blocking", "high_performance/modules/high_performance/include/klepsydra/high_performance/disruptor4cpp/wait_strategies/timeout_blocking_wait_strategy.h", "high_performance/modules/high_performance/include/klepsydra/high_performance/disruptor4cpp/wait_strategies/lite_blocking_wait_strategy.h: signal_needed_", "high_performance/modules/high_performance/include/klepsydra/high_performance/disruptor4cpp/sequence_barrier.h: wait_for", "high_performance/modules/high_performance/include/klepsydra/high_performance/disruptor4cpp/batch_event_processor.h: run, halt"]}
{"id": "C90", "title": "Object pool: exactly the objects nobody holds are finalised when the pool is destroyed", "statement": "When a pool is destroyed, exactly the objects that nobody holds at that moment are given to the finalizer, each once, and none before; if nobody holds any, all of them are finalised and deleted.", "quantifier": "every history of acquire/release followed by pool destruction and later releases", "why_tests_cant": "Needs every crash/destruction point relative to outstanding objects.", "anchors": ["core/modules/core/include/klepsydra/core/smart_object_pool.h: ~SmartObjectPool, ReturnToPool_Deleter::operator()"]}
{"id": "C91", "title": "In-memory middleware: the reported discards of one publishing thread are exact", "statement": "When one thread publishes on a discarding queue, then between publications published = delivered + in delivery + queued + discarded, with the number of discarded events the publisher reports.", "quantifier": "every interleaving of publish and polling, both discard policies", "why_tests_cant": "Needs every schedule.", "anchors": ["core/modules/mem_mdlw/include/klepsydra/mem_core/basic_publisher.h", "core/modules/mem_mdlw/include/klepsydra/mem_core/safe_queue_poller.h", "core/modules/mem_mdlw/include/klepsydra/mem_core/safe_queue.h"]}
{"id": "C92", "title": "In-memory middleware: whatever is queued gets delivered if listeners do not throw", "statement": "If no listener throws and no wait wakes up spuriously, then whatever the publishers do and however often waits expire, after at most twice as many steps of the polling thread as events were queued, plus one, all events accepted before have left the queue (with blocking publishers: all have been handed to the listeners, in order), and the polling thread never reads from an empty queue. If nobody publishes meanwhile everything queued is handed over also with discarding publishers. No other step than the poller's own pop can do so, whatever happened before.", "quantifier": "every interleaving of publish and polling, both discard policies", "why_tests_cant": "Needs every schedule.", "anchors": ["core/modules/mem_mdlw/include/klepsydra/mem_core/basic_publisher.h", "core/modules/mem_mdlw/include/klepsydra/mem_core/safe_queue_poller.h", "core/modules/mem_mdlw/include/klepsydra/mem_core/safe_queue.h"]}
{"id": "C93", "title": "Multi-producer ring: claims never overrun the consumers with next(), or within the first 2^31 events", "statement": "Concurrent claims on the multi-producer sequencer never cover a slot still unread by a registered consumer, and no claim is larger than the ring, for ever if only next() is used, and with try_next() while fewer than 2^31 sequences were claimed.", "quantifier": "every number of producers, every interleaving, every sequence value up to 2^63-1", "why_tests_cant": "Overrun needs more than 2^31 publications or a precise preemption.", "anchors": ["high_performance/modules/high_performance/include/klepsydra/high_performance/disruptor4cpp/multi_producer_sequencer.h: try_next, next, has_available_capacity"]}
{"id": "C94", "title": "State machine listener: removeActions removes the periodic actions of a state and nothing else", "statement": "After removeActions(state), until a periodic action is registered again, no periodic action of that state is executed any more, while entering the state executes its other actions as if removeActions had not been called.", "quantifier": "every history of registrations and updates", "why_tests_cant": "Needs all histories.", "anchors": ["state_machine/modules/state_machine/src/state_machine_listener.cpp"]}
{"id": "C95", "title": "Property file: every value without white space is read back as written", "statement": "For every layout of the file (blanks, comments, empty lines), getValueOfKey returns exactly the value written for the key if it has no white space.", "quantifier": "every key/value list and every amount of blanks, comments and empty lines", "why_tests_cant": "Infinite input space.", "anchors": ["core/modules/core/include/klepsydra/core/config_file.h: ConfigFile::ExtractKeys, removeComment, validLine, extractKey, extractValue, getValueOfKey"]}
{"id": "C96", "title": "Configuration environment: merging without clashes adds every new property", "statement": "If no property name of other is present already, copyFrom(other) adds every property of other, of all four types, and changes no other one.", "quantifier": "every pair of environments", "why_tests_cant": "Needs all pairs of environments.", "anchors": ["core/modules/core/src/configuration_environment.cpp: copyFrom", "core/modules/core/include/klepsydra/core/configuration_properties.h: copyFrom"]}
{"id": "C97", "title": "Container: statistics attached once are stopped whenever the container is not running", "statement": "If no statistics object is attached more than once, and calls do not overlap: while the container is not running (never started, or stopped) no statistics object attached to it at that moment runs; without any start() none runs at all.", "quantifier": "every history of attach/detach/start/stop", "why_tests_cant": "Needs all histories.", "anchors": ["core/modules/core/src/core_container.cpp: start, stop, attach"]}
{"id": "C98", "title": "Trivial-copy mapper: messages that are long enough are read exactly", "statement": "Mapping a received message back stays within the message exactly if it is at least as long as the event, and then gives its first bytes.", "quantifier": "every value and every received byte vector", "why_tests_cant": "Infinite input space; over-reads are silent.", "anchors": ["serialization/modules/serialization/include/klepsydra/serialization/void_caster_mapper.h"]}
{"id": "C99", "title": "ZMQ provider: channels of different event types are different", "statement": "Two calls to the provider that ask for different event types do not return the same channel.", "quantifier": "every sequence of calls", "why_tests_cant": "Ranges over all call sequences; tests ask for each topic once.", "anchors": ["core/modules/zmq_mdlw/include/klepsydra/zmq_core/to_zmq_middleware_provider.h"]}
{"id": "C100", "title": "Stopping a consumer returns, whatever its listeners threw and however often it is stopped", "statement": "Stopping an event loop or a data multiplexer listener returns, also after a listener threw something that is no std::exception, and also if it is stopped twice.", "quantifier": "every wait strategy, number of other threads publishing, moment of the stop, and fair schedule", "why_tests_cant": "It is a liveness claim over all schedules: a lost wake-up or a race of the halt with the wait shows only in rare interleavings.", "anchors": ["high_performance/modules/high_performance/include/klepsydra/high_performance/event_loop.h: stop", "high_performance/modules/high_performance/include/klepsydra/high_performance/data_multiplexer_listener.h: stop", "high_performance/modules/high_performance/include/klepsydra/high_performance/data_multiplexer_subscriber.h: ~DataMultiplexerSubscriber", "high_performance/modules/high_performance/include/klepsydra/high_performance/disruptor4cpp/batch_event_processor.h: halt, run"]}
{"id": "C101", "title": "A no-op processor stops when halted", "statement": "After halt() the run() of a no-op event processor returns.", "quantifier": "every interleaving of run, publications, halts and alerts", "why_tests_cant": "Whether run() ever returns after halt() depends on the schedule and on what others do later; no finite test shows that it never does.", "anchors": ["high_performance/modules/high_performance/include/klepsydra/high_performance/disruptor4cpp/no_op_event_processor.h: halt, run", "high_performance/modules/high_performance/include/klepsydra/high_performance/disruptor4cpp/sequence_barrier.h: alert, wait_for"]}
{"id": "C102", "title": "Sockets report what failed, keep paths apart and touch no other memory", "statement": "A constructor that fails throws an exception about the call that failed and closes the descriptor once; local sockets with different paths have different addresses, however long; accept touches no other memory, whatever the descriptor.", "quantifier": "every outcome and errno of the system calls, every path, every descriptor number", "why_tests_cant": "Failures of bind, listen, connect and select and large descriptors are hard to provoke, and a double close shows only when another thread opens a file in between.", "anchors": ["core/modules/socket_mdlw/src/server_socket.cpp: ServerSocket, accept", "core/modules/socket_mdlw/src/connect_socket.cpp: ConnectSocket", "core/modules/socket_mdlw/src/base_socket.cpp: BaseSocket, ~BaseSocket, close"]}
{"id": "C103", "title": "ZMQ poller: a callback may change the registrations", "statement": "A callback of the poller may register and unregister topics; nobody blocks for ever.", "quantifier": "any number of threads and their programs, every callback behaviour, every schedule", "why_tests_cant": "A callback that is still running after its removal, or a lock taken twice, shows only in particular interleavings.", "anchors": ["core/modules/zmq_mdlw/include/klepsydra/zmq_core/zmq_poller.h: registerToTopic, unregisterFromTopic, executeFunction"]}
{"id": "C104", "title": "Rings: bad sizes are refused, the remaining capacity is never negative", "statement": "A ring size that does not work is refused; remaining_capacity is never negative.", "quantifier": "every size, sequence number, list of sequence values, and history of producers and consumers during the call", "why_tests_cant": "The claims are about all numbers and, for the capacity, all interleavings of the reads.", "anchors": ["high_performance/modules/high_performance/include/klepsydra/high_performance/disruptor4cpp/ring_buffer.h: static_assert, operator[]", "high_performance/modules/high_performance/include/klepsydra/high_performance/disruptor4cpp/utils/util.h: get_minimum_sequence, log2", "high_performance/modules/high_performance/include/klepsydra/high_performance/disruptor4cpp/fixed_sequence_group.h: get", "high_performance/modules/high_performance/include/klepsydra/high_performance/disruptor4cpp/multi_producer_sequencer.h: remaining_capacity, calculate_index, calculate_availability_flag", "high_performance/modules/high_performance/include/klepsydra/high_performance/disruptor4cpp/single_producer_sequencer.h: remaining_capacity"]}
{"id": "C105", "title": "Phased-backoff waiting ends when the consumer is halted", "statement": "A phased-backoff wait ends when the consumer is halted, in every phase.", "quantifier": "every sequence of readings of the sequences and of the clock, every number of spins and time-out", "why_tests_cant": "Depends on the clock and on what arrives between any two of thousands of spins.", "anchors": ["high_performance/modules/high_performance/include/klepsydra/high_performance/disruptor4cpp/wait_strategies/phased_backoff_wait_strategy.h: wait_for"]}
{"id": "C106", "title": "Concurrent swaps and assignments of safe queues in one order do not deadlock", "statement": "Threads that swap or copy-assign safe queues concurrently do not deadlock if all calls lock their two queues in one common order: some thread can always continue, and all calls can complete.", "quantifier": "any number of queues, any set of swap/assignment calls, every interleaving", "why_tests_cant": "The deadlock needs one specific interleaving.", "anchors": ["core/modules/mem_mdlw/include/klepsydra/mem_core/safe_queue.h: swap, operator="]}
{"id": "C107", "title": "Networks of in-memory providers: order, arrival, stopping", "statement": "Providers may be connected: listeners of one provider (event forwarders, transform forwarders, any listener) publish to other providers. At every moment, what a blocking provider has handed to its listeners and still holds from one source (one publishing thread, or one upstream provider) is exactly what that source has published to it so far, in that order; a discarding provider has a subsequence of it. Queues never exceed their capacity, and what a queue holds are the newest of the events published to it. If no event can come back to a provider it passed through, then, whatever the capacities (at least 1 for blocking queues), everything published arrives at all providers it was sent to, nobody stays blocked and all queues get empty; and stopping providers in the direction of the events always returns.", "quantifier": "every number of providers, capacities, blocking/discarding choice, connection and transformation, publishing threads with any programs, every schedule (fair ones for arrival)", "why_tests_cant": "deadlocks and reorderings in connected bounded queues depend on the interleaving, the capacities and the graph", "anchors": ["core/modules/core/include/klepsydra/core/event_forwarder.h: EventForwarder", "core/modules/mem_mdlw/include/klepsydra/mem_core/basic_publisher.h: BasicPublisher", "core/modules/mem_mdlw/include/klepsydra/mem_core/safe_queue.h: move_push, force_move_push", "core/modules/mem_mdlw/src/in_memory_queue_poller.cpp: stop, pollingLoop"]}
{"id": "C108", "title": "Listeners may publish anywhere, providers may be stopped in any order", "statement": "A listener may publish to any blocking provider, including the one it listens to, without blocking for ever, and providers connected by listeners may be stopped in any order.", "quantifier": "every capacity, connection, order of stops and schedule", "why_tests_cant": "the deadlock needs a full queue at the moment the listener publishes", "anchors": ["core/modules/mem_mdlw/include/klepsydra/mem_core/safe_queue.h: move_push", "core/modules/mem_mdlw/src/in_memory_queue_poller.cpp: stop, pollingLoop", "core/modules/core/include/klepsydra/core/event_forwarder.h: EventForwarder"]}
{"id": "C109", "title": "Event loops: listeners may publish anywhere and loops may be stopped in any order", "statement": "Listeners of event loops may publish to any running event loop, their own included. At every moment, the publications of one source (one thread, or the listeners of one loop) to a loop, accepted or refused, are exactly what that source published to it so far, in that order, and the accepted ones are exactly those handled, in order of acceptance, and then those still waiting (at most the ring size), also if listeners throw std::exceptions. A publication is refused only if ring-size many accepted events have not been released by the end of their batch. If every event triggers finitely many publications, directly and indirectly, nobody stays blocked: all publishers finish, every loop handles everything it accepted, and loops can be stopped in any order, each stop returning after the event being handled is complete.", "quantifier": "every number of loops, ring sizes, connections (cycles and the own loop included), batch sizes, throwing listeners, publishing threads, every schedule (fair ones for progress)", "why_tests_cant": "the interleavings of several loops, and the cascades of events, cannot be enumerated", "anchors": ["high_performance/modules/high_performance/include/klepsydra/high_performance/event_loop_publisher.h: internalPublish", "high_performance/modules/high_performance/include/klepsydra/high_performance/event_loop_event_handler.h: on_event", "high_performance/modules/high_performance/include/klepsydra/high_performance/event_loop.h: stop", "high_performance/modules/high_performance/include/klepsydra/high_performance/disruptor4cpp/batch_event_processor.h: run", "core/modules/core/include/klepsydra/core/event_forwarder.h: EventForwarder"]}
{"id": "C110", "title": "Tasks scheduled on an event loop run there one at a time, in order, and not again once stopped and drained", "statement": "Tasks scheduled through an event loop's scheduler are executed on the loop one at a time, in the order in which the loop accepted them, each acceptance once; a one-shot task is executed at most once; once stopScheduledTask has returned the task is not handed to the loop again, so executions after that were already waiting in the loop, and if none was waiting there is none; everything accepted is executed as long as the loop keeps running.", "quantifier": "every program of scheduler calls, every schedule of the scheduler's threads and of the loop, every pattern of refusals by a full ring", "why_tests_cant": "timing between the scheduler's threads and the loop decides; tests see a few schedules", "anchors": ["high_performance/modules/high_performance/src/event_loop_scheduler.cpp: startScheduledTask, stopScheduledTask", "high_performance/modules/high_performance/include/klepsydra/high_performance/event_loop_middleware_provider.h: getScheduler", "high_performance/modules/high_performance/include/klepsydra/high_performance/event_loop_function_exec_listener.h", "core/modules/mem_mdlw/src/basic_scheduler.cpp"]}
{"id": "C111", "title": "After stopScheduledTask of an event loop's scheduler has returned, the task is not executed any more", "statement": "When stopScheduledTask of an event loop's scheduler has returned, the task is neither running nor executed again (as with the plain scheduler, C76). REFUTED: executions already handed to the loop happen afterwards, in any number.", "quantifier": "every schedule", "why_tests_cant": "needs a schedule in which the loop is late", "anchors": ["high_performance/modules/high_performance/src/event_loop_scheduler.cpp: startScheduledTask, stopScheduledTask", "high_performance/modules/high_performance/include/klepsydra/high_performance/event_loop_middleware_provider.h: getScheduler", "high_performance/modules/high_performance/include/klepsydra/high_performance/event_loop_function_exec_listener.h", "core/modules/mem_mdlw/src/basic_scheduler.cpp"]}
{"id": "C112", "title": "Lock-free stack: correct however long a thread is suspended", "statement": "C01 holds however many calls overlap one call (a thread may be suspended for any time inside push or pop). REFUTED: 65536 calls during one pop make its compare-and-swap succeed on stale data, and an element is popped twice.", "quantifier": "every capacity, every number of threads, every interleaving, every stall length", "why_tests_cant": "needs exactly 2^16 operations between two steps of another thread", "anchors": ["core/modules/core/include/klepsydra/core/lock_free_stack.h: LockFreeStack::push, pop, _push, _pop, head_t"]}
{"id": "C113", "title": "Container: concurrent attach and detach behave like some sequential order", "statement": "Several threads may attach and detach services, function, publication and subscription statistics at the same time (no detach of publication statistics, no bare service statistics beside services, no start or stop meanwhile): there is no data race, every call returns, and afterwards the container holds exactly what the same calls leave behind when made one after the other in some order that keeps each thread's order.", "quantifier": "every number of threads, every program of such calls, every schedule (fair ones for termination)", "why_tests_cant": "interleavings of the accesses inside the calls cannot be enumerated", "anchors": ["core/modules/core/src/core_container.cpp: attach, detach, start, stop", "core/modules/core/include/klepsydra/core/core_container.h"]}
{"id": "C114", "title": "Container: attach, detach, start and stop can be called from several threads", "statement": "Any calls of attach, detach, start and stop may be made concurrently, without data races and without losing an object. REFUTED: services and bare service statistics share a vector but not a mutex; detach of publication statistics, start and stop take no mutex.", "quantifier": "every program, every schedule", "why_tests_cant": "needs two threads inside the accesses at the same moment", "anchors": ["core/modules/core/src/core_container.cpp: attach, detach, start, stop", "core/modules/core/include/klepsydra/core/core_container.h"]}
{"id": "C115", "title": "Destruction: a stopped event loop provider, and any multiplexer provider, can be destroyed", "statement": "A program starts and stops an event loop any number of times and destroys the provider at its end, when it is not started; or it destroys a data multiplexer provider whose subscribers are running. No start times out. Then no event is handled with objects that are already destroyed, the program is not terminated, every stop returns before the next call is made, nothing is handled after the destruction has returned, and the destruction does return when both threads keep running. (The program is ended exactly by the events that are said to end it.)", "quantifier": "every such sequence of calls, every schedule of the two threads (fair ones for the return)", "why_tests_cant": "the consumer thread can be anywhere when the destructor runs", "anchors": ["high_performance/modules/high_performance/include/klepsydra/high_performance/event_loop.h: start, stop", "high_performance/modules/high_performance/include/klepsydra/high_performance/event_loop_middleware_provider.h: ~EventLoopMiddlewareProvider", "high_performance/modules/high_performance/include/klepsydra/high_performance/data_multiplexer_subscriber.h: DataMultiplexerSubscriber, ~DataMultiplexerSubscriber"]}
{"id": "C116", "title": "Destruction: an event loop provider cleans up after itself, and a start that times out can be handled", "statement": "An event loop provider may be destroyed while it is started, like a multiplexer provider, and a start that times out is reported and can be followed by a stop. REFUTED: there is no destructor that stops the loop, so its destruction never returns and ends the program (std::thread destroyed while joinable), an event handled meanwhile uses destroyed subscribers; a multiplexer subscriber whose start times out ends the program instead of reporting it; after a time-out stop may never return.", "quantifier": "every sequence of calls, every schedule", "why_tests_cant": "needs a start that times out, or the end of the process", "anchors": ["high_performance/modules/high_performance/include/klepsydra/high_performance/event_loop.h: start, stop", "high_performance/modules/high_performance/include/klepsydra/high_performance/event_loop_middleware_provider.h: ~EventLoopMiddlewareProvider", "high_performance/modules/high_performance/include/klepsydra/high_performance/data_multiplexer_subscriber.h: DataMultiplexerSubscriber, ~DataMultiplexerSubscriber"]}
{"id": "C117", "title": "Published events do not change while anybody holds them, and no event object is lost", "statement": "Any number of threads publish through a pooled publisher, synchronously or through a bounded queue or ring; listeners read the events and may keep the shared pointers; copies may throw, publications may be refused, the publisher may be destroyed. Every event a listener reads, when it is called or later, is whole and equal to the value published; while an event is being written nobody else holds it; every object is either free in the pool or held by somebody, and when nobody holds any, all the pool's objects are back and everything else is freed.", "quantifier": "every pool size, capacity, number of threads, interleaving and history", "why_tests_cant": "needs the reuse of an object at the moment somebody still reads it", "anchors": ["core/modules/core/include/klepsydra/core/object_pool_publisher.h: ObjectPoolPublisher", "core/modules/core/include/klepsydra/core/smart_object_pool.h: acquire, ReturnToPool_Deleter", "core/modules/core/include/klepsydra/core/event_emitter_middleware_provider.h", "core/modules/core/include/klepsydra/core/event_emitter_subscriber.h: registerListener, registerSharedPtrListener", "high_performance/modules/high_performance/include/klepsydra/high_performance/event_loop_publisher.h: internalPublish"]}
{"id": "C118", "title": "Safe queue: under fair scheduling blocking pushes and pops return", "statement": "Threads use a safe queue and each gets its turns, with any choice of who is notified and finitely many spurious wake-ups. After a number of rounds bounded by the calls, the threads and the spurious wake-ups, every thread has returned from all its calls or is blocked. With producers that only push and consumers that only pop on a queue with a positive maximum: every push returns if the pops plus the maximum cover the pushes, and every pop returns if the pushes cover the pops.", "quantifier": "every number of threads, programs, maximum, fair schedule, choice of the notified thread", "why_tests_cant": "a missing notification shows only in particular schedules, and as a call that never returns", "anchors": ["core/modules/mem_mdlw/include/klepsydra/mem_core/safe_queue.h: push, pop, try_push, try_pop, force_move_push"]}
{"id": "C119", "title": "Safe emitter: a once listener runs at most once, whatever emits happen", "statement": "A listener registered with once() is invoked at most once, whatever emits happen, including emits of the same event made from inside a callback or from another thread. REFUTED.", "quantifier": "every history and nesting/interleaving of emits", "why_tests_cant": "Requires re-entrant or concurrent schedules.", "anchors": ["core/modules/core/include/klepsydra/core/safe_event_emitter.h: once, emitEvent"]}
{"id": "C120", "title": "Subscriber: a removed name is silent however often it was registered, with every emitter", "statement": "After removeListener(name) on an EventEmitterSubscriber, no callback registered under that name is invoked by later publications, whatever registrations preceded it and whichever emitter type is used. REFUTED for the safe emitter: a name registered twice.", "quantifier": "every history of registerListener/removeListener/publish, every emitter type", "why_tests_cant": "Needs re-registration histories.", "anchors": ["core/modules/core/include/klepsydra/core/event_emitter_subscriber.h: registerListener, removeListener", "core/modules/core/include/klepsydra/core/safe_event_emitter.h"]}
{"id": "C121", "title": "Request/reply: the same whatever the callbacks do", "statement": "onReplyReceived(reply) invokes the callback of the earliest still-pending request matching the reply, exactly once, and removes that request only; unmatched replies change nothing; a request is never answered twice. Also if callbacks call the handler or throw. REFUTED.", "quantifier": "every history of requests and replies and every matching relation", "why_tests_cant": "Needs all interleavings of requests and replies.", "anchors": ["core/modules/core/include/klepsydra/core/callback_handler.h: CallbackHandler::requestAndReply, onReplyReceived"]}
{"id": "C122", "title": "Safe queue: maximum 0 means unlimited, and copies keep the maximum", "statement": "A queue with maximum 0 accepts every push without blocking, as its documentation says, and a copied or moved queue behaves as its source. REFUTED.", "quantifier": "every sequence of operations on a queue and its copies", "why_tests_cant": "A test of this hangs instead of failing.", "anchors": ["core/modules/mem_mdlw/include/klepsydra/mem_core/safe_queue.h: push, move_push, copy and move constructors"]}
{"id": "C123", "title": "Safe queue: no lost wake-up, whatever operation made the item or the room available", "statement": "A consumer blocked in pop is woken when an item becomes available and a producer blocked in push is woken when room becomes available, whatever operation made the item or the room available. REFUTED with timed pops, swap, assignment and set_max_num_items.", "quantifier": "every interleaving of blocking operations, including swap", "why_tests_cant": "Lost wake-ups need a specific schedule.", "anchors": ["core/modules/mem_mdlw/include/klepsydra/mem_core/safe_queue.h: push, pop, swap, operator="]}
{"id": "C124", "title": "Pollers can always be stopped", "statement": "After stop() is called on a started in-memory poller its polling thread terminates, whatever the relative timing of start, the thread's first instructions and stop. REFUTED when start() has timed out before the thread's first instruction.", "quantifier": "every interleaving of the start/stop caller and the polling thread, including a start-up timeout", "why_tests_cant": "Needs a specific preemption of the new thread.", "anchors": ["core/modules/mem_mdlw/src/in_memory_queue_poller.cpp: start, stop, pollingLoop", "core/modules/zmq_mdlw/include/klepsydra/zmq_core/zmq_poller.h"]}
{"id": "C125", "title": "Consumer loop: halt always stops it, whatever its timing", "statement": "After halt() the processor returns from run(), whatever the relative timing of halt() and run(). REFUTED for a halt() before or at the start of run().", "quantifier": "every interleaving of run() and halt()", "why_tests_cant": "The lost halt needs a preemption between two adjacent instructions.", "anchors": ["high_performance/modules/high_performance/include/klepsydra/high_performance/disruptor4cpp/batch_event_processor.h: halt, run", "high_performance/modules/high_performance/include/klepsydra/high_performance/event_loop.h: start, stop"]}
{"id": "C126", "title": "Event loop: events published before start or across a restart are delivered", "statement": "Events accepted by publish() while the loop is not running are delivered once it is (re)started. REFUTED.", "quantifier": "every placement of publications relative to start/stop", "why_tests_cant": "Needs every schedule.", "anchors": ["high_performance/modules/high_performance/include/klepsydra/high_performance/event_loop.h: start, _eventLoopTask", "high_performance/modules/high_performance/include/klepsydra/high_performance/disruptor4cpp/multi_producer_sequencer.h: add_gating_sequences"]}
{"id": "C127", "title": "Data multiplexer: events held by listeners never change, for every way of publishing and of creating the provider", "statement": "Publishing an event never changes the content of an earlier event that a listener has not consumed yet or is still holding. REFUTED for publications that write into the ring's object and for providers created from a model event.", "quantifier": "every history of publications and consumer progress, every construction mode", "why_tests_cant": "Aliasing shows only when the consumer lags.", "anchors": ["high_performance/modules/high_performance/include/klepsydra/high_performance/data_multiplexer_publisher.h: internalPublish, processAndPublish", "high_performance/modules/high_performance/include/klepsydra/high_performance/data_multiplexer_middleware_provider.h"]}
{"id": "C128", "title": "State machine: reset returns to a fresh machine, whatever is queued", "statement": "After reset() and start() the machine behaves as a freshly created one: events queued before the reset have no effect. REFUTED: reset does not clear the queue.", "quantifier": "every history before reset", "why_tests_cant": "Needs all histories.", "anchors": ["state_machine/modules/state_machine/src/state_machine_impl.cpp: reset"]}
{"id": "C129", "title": "Dynamic properties: last write wins per key", "statement": "DynamicConfigurationProperties::setProperty with the same type overwrites the value; with a different type it is refused and changes nothing; getProperty returns the stored value only at its own type. REFUTED: the first value stays.", "quantifier": "every history of typed set/get", "why_tests_cant": "Needs all histories.", "anchors": ["core/modules/core/include/klepsydra/core/configuration_properties.h: DynamicConfigurationProperties"]}
{"id": "C130", "title": "Container: detaching removes exactly the given object, of every kind and with equal names", "statement": "detach(x) removes x, and x only, from the container: every other attached service, function, subscription or publication statistics stays attached. REFUTED: detaching one publication's statistics removes all of them, equal names remove the wrong object.", "quantifier": "every history of attach/detach/start/stop", "why_tests_cant": "Tests detach one object out of one or two with different names; that nothing else is lost ranges over all histories and all namings.", "anchors": ["core/modules/core/src/core_container.cpp"]}
{"id": "C131", "title": "Pooled publisher: process functions start from a fresh event, with or without initialiser", "statement": "processAndPublish(process) hands the process function an event that carries no data of earlier publications: its content is determined by the constructor/initializer only. REFUTED without an initialiser.", "quantifier": "every pool size, initializer, event type and history of publications and releases of published events", "why_tests_cant": "Whether a recycled object is handed out depends on the whole history of publications and releases.", "anchors": ["core/modules/core/include/klepsydra/core/object_pool_publisher.h: ObjectPoolPublisher::processAndPublish", "core/modules/core/include/klepsydra/core/smart_object_pool.h"]}
{"id": "C132", "title": "Safe emitter: after removeListener has returned the listener is not invoked any more", "statement": "After removeListener(id) has returned normally, the callback registered under id is never invoked again. REFUTED: an emit in progress still invokes it.", "quantifier": "every number of threads, every interleaving and every nesting of calls made from inside callbacks", "why_tests_cant": "An emit in another thread (or an outer emit of the same thread) may hold a snapshot of the listeners; only all interleavings tell.", "anchors": ["core/modules/core/include/klepsydra/core/safe_event_emitter.h: removeListener, emitEvent"]}
{"id": "C133", "title": "Emitters never detach a null statistics object, whatever calls are made", "statement": "Whatever calls are made on an event emitter, it never passes a null statistics pointer to the container's detach, which would dereference it. REFUTED for the single-listener and the safe emitter.", "quantifier": "all three emitters, all histories of registrations, removals, emissions and discards, with and without container", "why_tests_cant": "The null pointer only appears for particular orders of registration and removal.", "anchors": ["core/modules/core/include/klepsydra/core/unsafe_multi_listener_event_emitter.h: removeListener, removeAllListeners", "core/modules/core/include/klepsydra/core/unsafe_single_listener_event_emitter.h: removeListener, removeAllListener", "core/modules/core/include/klepsydra/core/safe_event_emitter.h: removeAllListeners"]}
{"id": "C134", "title": "A subscriber is a registry keyed by listener name, with every emitter and whatever is asked", "statement": "Registering a name that is registered changes nothing, removing a name affects that name only, asking for statistics affects nothing, and a publication reaches every registered listener exactly once in registration order. REFUTED after a statistics query for an unknown name, and for the single-listener emitter.", "quantifier": "all histories of registerListener, removeListener, getSubscriptionStats and publish on one subscriber, over the three emitters", "why_tests_cant": "The number of histories is unbounded and the failing ones mix statistics queries with removals.", "anchors": ["core/modules/core/include/klepsydra/core/event_emitter_subscriber.h: registerListener, removeListener, getSubscriptionStats"]}
{"id": "C135", "title": "Pollers can be started and stopped from any threads", "statement": "Whatever threads call start() and stop() on a poller, and in whatever order their steps interleave, the program is never terminated by it. REFUTED for two concurrent start() calls.", "quantifier": "every number of calling threads, their call sequences, and every schedule", "why_tests_cant": "the failing interleaving needs two threads between the test of the started flag and its update", "anchors": ["core/modules/mem_mdlw/src/in_memory_queue_poller.cpp: InMemoryQueuePoller::start", "core/modules/zmq_mdlw/include/klepsydra/zmq_core/zmq_poller.h: start"]}
{"id": "C136", "title": "Consumers: no lost wake-up, also with store buffers and the lite blocking strategy", "statement": "A consumer thread waiting for the next event is woken and given every event published, with every wait strategy: none of them can leave it asleep for ever while a published event waits. REFUTED for the lite blocking strategy on a machine with store buffers.", "quantifier": "every interleaving of the consumer with any number of publishing threads, every wait strategy, spurious wake-ups, time-outs and handler exceptions", "why_tests_cant": "A lost wake-up needs one precise interleaving (or a delayed store) and shows only as a rare hang.", "anchors": ["high_performance/modules/high_performance/include/klepsydra/high_performance/disruptor4cpp/wait_strategies/blocking_wait_strategy.h: wait_for, signal_all_when_blocking", "high_performance/modules/high_performance/include/klepsydra/high_performance/disruptor4cpp/wait_strategies/lite_blocking_wait_strategy.h: wait_for, signal_all_when_blocking", "high_performance/modules/high_performance/include/klepsydra/high_performance/disruptor4cpp/wait_strategies/timeout_blocking_wait_strategy.h", "high_performance/modules/high_performance/include/klepsydra/high_performance/disruptor4cpp/batch_event_processor.h: run"]}
{"id": "C137", "title": "State machine: all observers see the same sequence of states, whatever they do when notified", "statement": "Whatever the observers do when notified, every observer registered from the start is given every state the machine goes through, in order, the same sequence for all of them. REFUTED.", "quantifier": "every description, every history, every behaviour of the observers (including calling the machine again)", "why_tests_cant": "Whether a re-entrant reaction of one observer hides a state from another depends on the order and nesting of notifications, which tests sample.", "anchors": ["state_machine/modules/state_machine/src/state_machine_impl.cpp: updateObservers, update, registerObserver"]}
{"id": "C138", "title": "State machine listener: reacts to its own machine only, whatever the identifiers", "statement": "A listener created for one machine runs its actions for the states of that machine only, and for the state they were registered for only. REFUTED for identifiers with a colon.", "quantifier": "every pair of machine identifiers and state names", "why_tests_cant": "The identifiers are arbitrary strings; tests use a few.", "anchors": ["state_machine/modules/state_machine/src/state_machine_listener.cpp: getCompleteName, updateCurrentState", "state_machine/modules/state_machine/src/state_machine_impl.cpp: updateObservers"]}
{"id": "C139", "title": "Event loop: the discard statistics are exact, whatever threads publish", "statement": "The number of discarded events an event loop publisher reports is the number of its publications that were refused for lack of space. REFUTED: two threads lose a count.", "quantifier": "every interleaving of any number of publishing threads and the loop", "why_tests_cant": "Lost updates need a particular interleaving.", "anchors": ["high_performance/modules/high_performance/include/klepsydra/high_performance/event_loop_publisher.h: internalPublish"]}
{"id": "C140", "title": "Event loop: the data of a handled event is released, also if a listener throws", "statement": "Once an event has been handled the loop's ring no longer refers to its data (a pooled object can go back to its pool), and a publisher never finds data left behind in its slot. REFUTED after a throw.", "quantifier": "every interleaving, every ring size", "why_tests_cant": "Needs every schedule, including listeners that throw.", "anchors": ["high_performance/modules/high_performance/include/klepsydra/high_performance/event_loop_event_handler.h: on_event", "high_performance/modules/high_performance/include/klepsydra/high_performance/event_loop_publisher.h: prePublishing"]}
{"id": "C141", "title": "Socket protocol: a reception that returns normally returned a whole message", "statement": "If the connection breaks while a message is being received, recvMessage reports it; it never returns a part of a message as if it were one. REFUTED.", "quantifier": "every message, every chunking, every failure point", "why_tests_cant": "Failure points are any byte of any message; a test resets the connection at one of them.", "anchors": ["core/modules/socket_mdlw/src/protocol_simple.cpp", "core/modules/socket_mdlw/src/data_socket.cpp", "core/modules/socket_mdlw/include/klepsydra/socket_core/data_socket.tpp"]}
{"id": "C142", "title": "Distributed environment: convergence, whatever sets are in flight", "statement": "Once all messages have been received, all environments with one key have the same content, that of all sets made on any of them. REFUTED with two sets in flight, and after a partly failed loadFile.", "quantifier": "every history of sets and loads on any number of environments with the same key, every interleaving of polls", "why_tests_cant": "Divergence needs two sets in flight at the same time; a test makes one set and waits.", "anchors": ["core/modules/zmq_mdlw/src/zmq_env.cpp", "core/modules/core/src/configuration_environment.cpp: updateConfiguration, exportEnvironment, copyFrom"]}
{"id": "C143", "title": "ZMQ receiver: a topic can be registered again, and messages of other shapes do not disturb others", "statement": "While a topic is registered exactly the messages of this topic go to its publisher, in order; after unregisterFromTopic none does; registering again after that works again; messages of other shapes do not disturb others. REFUTED.", "quantifier": "every history of registrations, unregistrations, arrivals and receives", "why_tests_cant": "Tests register once and never unregister; a foreign message never arrives.", "anchors": ["core/modules/zmq_mdlw/include/klepsydra/zmq_core/from_zmq_middleware_provider.h: registerToTopic, unregisterFromTopic", "core/modules/zmq_mdlw/include/klepsydra/zmq_core/zmq_poller.h: executeFunction", "core/modules/zmq_mdlw/include/klepsydra/zmq_core/json_zmq_poller.h: poll"]}
{"id": "C144", "title": "ZMQ binary channel: a message is exactly the serialised event", "statement": "Each message sent on a binary channel consists of the serialised event and nothing else. REFUTED: old bytes follow a shorter event.", "quantifier": "every sequence of events of any sizes", "why_tests_cant": "It takes a shorter event after a longer one, and a receiver that looks at the size, to see it.", "anchors": ["core/modules/zmq_mdlw/include/klepsydra/zmq_core/to_zmq_middleware_provider.h: getBinaryToMiddlewareChannel", "core/modules/zmq_mdlw/include/klepsydra/zmq_core/binary_to_zmq_channel.h: internalPublish"]}
{"id": "C145", "title": "ZMQ receiver: destruction is safe, running or stopped", "statement": "Destroying a receiving channel, running or stopped, never lets its polling thread use destroyed objects. REFUTED for a running receiver.", "quantifier": "every list of start/stop calls before the destruction, every schedule of the polling thread and of arriving messages", "why_tests_cant": "The race needs a message arriving during the destructor.", "anchors": ["core/modules/zmq_mdlw/include/klepsydra/zmq_core/from_zmq_middleware_provider.h: FromZmqChannel members", "core/modules/zmq_mdlw/include/klepsydra/zmq_core/zmq_poller.h: ~ZMQPoller"]}
{"id": "C146", "title": "Multi-listener emitter: statistics are available for every live listener, also after removals", "statement": "getListenerStats(id) returns the statistics object of a listener created with a container for as long as it is registered, and never throws. REFUTED: the id is compared with the number of statistics objects.", "quantifier": "every history of on/removeListener/getListenerStats", "why_tests_cant": "Fails only after particular registration/removal orders.", "anchors": ["core/modules/core/include/klepsydra/core/unsafe_multi_listener_event_emitter.h: getListenerStats, removeListener"]}
{"id": "C147", "title": "Safe queue: a timed pop never returns an item that was not pushed, with any consumers and spurious wake-ups", "statement": "timeout_pop/timeout_move_pop either return false or return the oldest item; they never read from an empty queue, whatever spurious wake-ups or competing consumers there are. REFUTED.", "quantifier": "every interleaving and every spurious wake-up", "why_tests_cant": "Spurious wake-ups and stolen items cannot be provoked deterministically.", "anchors": ["core/modules/mem_mdlw/include/klepsydra/mem_core/safe_queue.h: timeout_pop, timeout_move_pop"]}
{"id": "C148", "title": "Destroying a poller or its provider is safe, running or stopped", "statement": "Destroying a poller, or the middleware provider that owns poller and queue, at any moment never lets the polling thread use an object already destroyed. REFUTED for a running poller.", "quantifier": "every point at which the destructor runs relative to the polling thread", "why_tests_cant": "the destroyed memory usually still looks valid; the outcome depends on the schedule", "anchors": ["core/modules/mem_mdlw/src/in_memory_queue_poller.cpp: ~InMemoryQueuePoller", "core/modules/mem_mdlw/include/klepsydra/mem_core/basic_middleware_provider.h"]}
{"id": "C149", "title": "Rings: consumers started one at a time while nobody publishes are all taken into account", "statement": "If each consumer of a ring (event loop, multiplexer subscriber or listener) is started, or restarted, while no thread publishes and no other one is being started, then publications by any threads only read live memory, and the room they find takes every started consumer into account: the position a claim respects is at most that of every consumer when the check returns, and at least that of some consumer when it began.", "quantifier": "every number of publishing threads and consumers, restarts, interleaving of the accesses to the vector's pointers and elements", "why_tests_cant": "freed or half-written memory is read only in particular interleavings, and mostly without visible effect", "anchors": ["high_performance/modules/high_performance/include/klepsydra/high_performance/disruptor4cpp/multi_producer_sequencer.h: add_gating_sequences, has_available_capacity", "high_performance/modules/high_performance/include/klepsydra/high_performance/disruptor4cpp/single_producer_sequencer.h: add_gating_sequences, has_available_capacity", "high_performance/modules/high_performance/include/klepsydra/high_performance/disruptor4cpp/utils/util.h: get_minimum_sequence", "high_performance/modules/high_performance/include/klepsydra/high_performance/event_loop.h: start", "high_performance/modules/high_performance/include/klepsydra/high_performance/data_multiplexer_subscriber.h", "high_performance/modules/high_performance/include/klepsydra/high_performance/data_multiplexer_listener.h: start"]}
{"id": "C150", "title": "Rings: consumers can be started at any time", "statement": "Consumers of a ring can be started at any time, whatever is published meanwhile and whatever other consumers are started: publications read live memory only and take every started consumer into account. REFUTED: the list of consumers is a plain vector without lock.", "quantifier": "every number of publishing threads and consumers, restarts, interleaving of the accesses to the vector's pointers and elements", "why_tests_cant": "freed or half-written memory is read only in particular interleavings, and mostly without visible effect", "anchors": ["high_performance/modules/high_performance/include/klepsydra/high_performance/disruptor4cpp/multi_producer_sequencer.h: add_gating_sequences, has_available_capacity", "high_performance/modules/high_performance/include/klepsydra/high_performance/disruptor4cpp/single_producer_sequencer.h: add_gating_sequences, has_available_capacity", "high_performance/modules/high_performance/include/klepsydra/high_performance/disruptor4cpp/utils/util.h: get_minimum_sequence", "high_performance/modules/high_performance/include/klepsydra/high_performance/event_loop.h: start", "high_performance/modules/high_performance/include/klepsydra/high_performance/data_multiplexer_subscriber.h", "high_performance/modules/high_performance/include/klepsydra/high_performance/data_multiplexer_listener.h: start"]}
{"id": "C151", "title": "Data multiplexer: any threads may publish as long as their calls do not overlap", "statement": "Any number of threads publish through one data multiplexer, each call beginning only while no other call is under way (for example under a common mutex). Then the calls act like those of one thread: every consumer reads the published events in the order in which the calls returned, each once and with its own content, and reads all of them when it keeps running; each thread's calls are answered in its order; a publication is refused only if some consumer has a whole ring of events still to release; every call returns after a fixed number of its own steps.", "quantifier": "every ring size, number of consumers and of publishing threads, their programs, every interleaving in which calls do not overlap", "why_tests_cant": "two calls overlap only in particular interleavings, and a lost event leaves no trace in the statistics", "anchors": ["high_performance/modules/high_performance/include/klepsydra/high_performance/data_multiplexer_publisher.h: internalPublish, processAndPublish", "high_performance/modules/high_performance/include/klepsydra/high_performance/disruptor4cpp/single_producer_sequencer.h: has_available_capacity, try_next, publish", "high_performance/modules/high_performance/include/klepsydra/high_performance/disruptor4cpp/batch_event_processor.h: run"]}
{"id": "C152", "title": "Data multiplexer: any threads may publish at the same time", "statement": "Several threads may call publish of a data multiplexer at the same time: every publication that is not counted as discarded is read by every consumer, and consumers only read events that were published. REFUTED: the ring is a single-producer one and its words are plain integers.", "quantifier": "every ring size, number of consumers, interleaving of two calls", "why_tests_cant": "two calls overlap only in particular interleavings, and a lost event leaves no trace in the statistics", "anchors": ["high_performance/modules/high_performance/include/klepsydra/high_performance/data_multiplexer_publisher.h: internalPublish, processAndPublish", "high_performance/modules/high_performance/include/klepsydra/high_performance/disruptor4cpp/single_producer_sequencer.h: has_available_capacity, try_next, publish", "high_performance/modules/high_performance/include/klepsydra/high_performance/disruptor4cpp/batch_event_processor.h: run"]}
{"id": "C153", "title": "Request/reply: issuing a request from inside a reply callback is always safe", "statement": "A reply callback may call requestAndReply on the same handler: the new request becomes pending and the answered one is removed; the thread-safe variant does not deadlock when the publisher answers synchronously. REFUTED: the list is reallocated under the iterator; the thread-safe variant deadlocks.", "quantifier": "every handler state and every callback behaviour, both variants", "why_tests_cant": "Iterator invalidation is silent in most runs; deadlock depends on the publisher.", "anchors": ["core/modules/core/include/klepsydra/core/callback_handler.h: CallbackHandler::onReplyReceived, MultiThreadCallbackHandler"]}
{"id": "C154", "title": "Scheduler: a task stopped during its delay does not run, names can be reused", "statement": "A one-shot task runs at most once and not if stopped in time; starting a task under a name in use replaces or refuses it without terminating the program. REFUTED: the delay is not interrupted by a stop before the execution, and a start under a name in use, or the destruction of the scheduler while a name is in use, terminates the program.", "quantifier": "every history of start/stop", "why_tests_cant": "Needs all timings.", "anchors": ["core/modules/mem_mdlw/src/basic_scheduler.cpp"]}
{"id": "C155", "title": "The property file environment obeys the environment contract in full", "statement": "For a PropertyFileEnvironment: getProperty of a key of the file gives its value and reports true; for a key that is not in the file it gives the default and reports false; a value written with setProperty is read back by the next getProperty of that key. REFUTED: a missing key is reported as found, setProperty has no effect.", "quantifier": "every file, every key and default value, every sequence of reads and writes", "why_tests_cant": "the environment is one of several interchangeable implementations of the same interface; a test can only compare them on chosen keys", "anchors": ["core/modules/core/src/prop_file_environment.cpp: PropertyFileEnvironment", "core/modules/core/include/klepsydra/core/prop_file_environment.h"]}
{"id": "C156", "title": "Data multiplexer: a subscriber that is gone does not hold up the others", "statement": "After a consumer of a ring has ended or has been destroyed, publications go on being accepted as the remaining consumers keep up, and the memory of the destroyed consumer is not read. REFUTED: nothing in the library removes the sequence of a subscriber that ended, so it starves all others (for every ring size and history), and its freed memory is read.", "quantifier": "every history of consumers coming, consuming, ending and being destroyed, every ring size", "why_tests_cant": "The hold-up shows only after a full ring of further publications; the read of freed memory usually goes unnoticed.", "anchors": ["high_performance/modules/high_performance/include/klepsydra/high_performance/disruptor4cpp/single_producer_sequencer.h: add_gating_sequences, remove_gating_sequence, has_available_capacity, try_next", "high_performance/modules/high_performance/include/klepsydra/high_performance/data_multiplexer_subscriber.h"]}
{"id": "C157", "title": "Object pool: every object is finalised before it is deleted", "statement": "Every object given to the initializer of a pool is given to the finalizer before it is deleted. REFUTED: not those held when the pool dies.", "quantifier": "every history of acquire/release followed by pool destruction and later releases", "why_tests_cant": "Needs every crash/destruction point relative to outstanding objects.", "anchors": ["core/modules/core/include/klepsydra/core/smart_object_pool.h: ~SmartObjectPool, ReturnToPool_Deleter::operator()"]}
{"id": "C158", "title": "In-memory middleware: the reported discards are exact with any threads", "statement": "At any time published = delivered + queued + discarded, with the number of discarded events the publisher reports. REFUTED: with two threads the plain counter loses updates.", "quantifier": "every interleaving of publish and polling, both discard policies", "why_tests_cant": "Needs every schedule.", "anchors": ["core/modules/mem_mdlw/include/klepsydra/mem_core/basic_publisher.h", "core/modules/mem_mdlw/include/klepsydra/mem_core/safe_queue_poller.h", "core/modules/mem_mdlw/include/klepsydra/mem_core/safe_queue.h"]}
{"id": "C159", "title": "In-memory middleware: whatever is queued gets delivered, whatever the listeners do", "statement": "As long as the poller runs, every queued event is delivered, whatever the listeners do and however the condition variable behaves. REFUTED: a throwing listener silently ends all delivery, a spurious wake-up pops an empty queue.", "quantifier": "every interleaving of publish and polling, both discard policies", "why_tests_cant": "Needs every schedule.", "anchors": ["core/modules/mem_mdlw/include/klepsydra/mem_core/basic_publisher.h", "core/modules/mem_mdlw/include/klepsydra/mem_core/safe_queue_poller.h", "core/modules/mem_mdlw/include/klepsydra/mem_core/safe_queue.h"]}
{"id": "C160", "title": "Multi-producer ring: claims never overrun the consumers, for as long as the ring runs", "statement": "Concurrent claims on the multi-producer sequencer never cover a slot still unread by a registered consumer, for as long as the ring runs. REFUTED: has_available_capacity takes the cursor as an int.", "quantifier": "every number of producers, every interleaving, every sequence value up to 2^63-1", "why_tests_cant": "Overrun needs more than 2^31 publications or a precise preemption.", "anchors": ["high_performance/modules/high_performance/include/klepsydra/high_performance/disruptor4cpp/multi_producer_sequencer.h: try_next, next, has_available_capacity"]}
{"id": "C161", "title": "State machine listener: removed actions stay removed, a restart runs nothing twice", "statement": "After removeActions(state) no action of that state runs any more; a restart of the machine in the same state does not run the entry actions again. REFUTED: removeActions removes the periodic actions only, and a restart runs the entry actions again.", "quantifier": "every history of registrations and updates", "why_tests_cant": "Needs all histories.", "anchors": ["state_machine/modules/state_machine/src/state_machine_listener.cpp"]}
{"id": "C162", "title": "Property file: every value is read back as written, whatever its characters", "statement": "getValueOfKey returns exactly the value written in the file, whatever characters it has; blank lines may contain tabs; a number that is written in another base or with rubbish after it is not read as a decimal number. REFUTED: a value with a blank is cut, a line of a tab is an error, hexadecimal numbers are misread, a key with a blank in it is cut, a file with CR LF line ends is refused (empty lines) or its values keep the CR.", "quantifier": "every key/value list and every amount of blanks, comments and empty lines", "why_tests_cant": "Infinite input space.", "anchors": ["core/modules/core/include/klepsydra/core/config_file.h: ConfigFile::ExtractKeys, removeComment, validLine, extractKey, extractValue, getValueOfKey"]}
{"id": "C163", "title": "Configuration environment: merging adds every new property also after a clash", "statement": "copyFrom(other) adds every property of other that is not already present, for all four types. REFUTED: after a clash in one type the later types are skipped.", "quantifier": "every pair of environments", "why_tests_cant": "Needs all pairs of environments.", "anchors": ["core/modules/core/src/configuration_environment.cpp: copyFrom", "core/modules/core/include/klepsydra/core/configuration_properties.h: copyFrom"]}
{"id": "C164", "title": "Container: statistics are stopped whenever the container is not running, whatever was attached again and from any threads", "statement": "While the container is not running (never started, or stopped) no statistics object that was ever attached to it runs, whatever was attached, detached and attached again, from any threads. REFUTED: an object detached and attached again keeps running, and so does one attached while stop is under way.", "quantifier": "every history of attach/detach/start/stop", "why_tests_cant": "Needs all histories.", "anchors": ["core/modules/core/src/core_container.cpp: start, stop, attach"]}
{"id": "C165", "title": "Trivial-copy mapper: reads only the received message, whatever its length", "statement": "Mapping a received message back reads only bytes of that message, whatever its length. REFUTED: the length is not checked.", "quantifier": "every value and every received byte vector", "why_tests_cant": "Infinite input space; over-reads are silent.", "anchors": ["serialization/modules/serialization/include/klepsydra/serialization/void_caster_mapper.h"]}
{"id": "C166", "title": "Concurrent swaps and assignments of safe queues in any direction terminate", "statement": "Threads that swap or copy-assign SafeQueues concurrently, in any direction, never deadlock. REFUTED: two swaps in opposite directions deadlock.", "quantifier": "any number of queues, any set of swap/assignment calls, every interleaving", "why_tests_cant": "The deadlock needs one specific interleaving.", "anchors": ["core/modules/mem_mdlw/include/klepsydra/mem_core/safe_queue.h: swap, operator="]}
{"id": "C167", "title": "Property file: hexadecimal numbers and 0/1 booleans", "statement": "A number written as 0x and hexadecimal digits of either case, maybe with a minus sign, is read as the integer it denotes if that is in the range of int (the nearest int otherwise); a decimal number is read as a boolean if it is 0 or 1 and refused with an exception otherwise. A value that does not begin, after white space and at most one sign, with a digit is refused with an exception, as an integer and as a boolean. What follows a decimal number in a value, from the first character on that is not a decimal digit, is ignored; a value of white space only is refused as a text.", "quantifier": "every file, key and number", "why_tests_cant": "the numbers and their spellings are unbounded", "anchors": ["core/modules/core/include/klepsydra/core/config_file.h: getValueOfKey", "core/modules/core/include/klepsydra/core/prop_file_convert.h: string_to_T", "core/modules/core/src/prop_file_environment.cpp: getPropertyInt, getPropertyBool"]}
{"id": "C168", "title": "Property file: booleans can be written as words, and numbers out of range are refused in every base", "statement": "A boolean property can be written true or false; a hexadecimal number that is out of the range of int, or has no digits, or is written with 0X, is read exactly or refused. REFUTED: the words are refused, 0x80000000 is read as 2147483647, 0xg and 0X1F as 0.", "quantifier": "every spelling of a value", "why_tests_cant": "the numbers and their spellings are unbounded", "anchors": ["core/modules/core/include/klepsydra/core/config_file.h: getValueOfKey", "core/modules/core/include/klepsydra/core/prop_file_convert.h: string_to_T", "core/modules/core/src/prop_file_environment.cpp: getPropertyInt, getPropertyBool"]}
{"id": "C169", "title": "Data multiplexer provider: one subscriber per name", "statement": "Any threads ask one data multiplexer provider for subscribers and set its container, each call beginning only while no other is under way. Then equal names give the same subscriber and different names different ones; every subscriber ever returned stays alive as long as the provider, is the one of that name, and uses the container given last; every getSubscriber returns.", "quantifier": "every number of threads, their programs, names and containers, every interleaving in which calls do not overlap", "why_tests_cant": "the requests, names and threads are unbounded, and overlapping calls meet only in particular interleavings", "anchors": ["high_performance/modules/high_performance/include/klepsydra/high_performance/data_multiplexer_middleware_provider.h: getSubscriber, setContainer"]}
{"id": "C170", "title": "Providers by name: any threads may ask for subscribers at the same time", "statement": "getSubscriber of a data multiplexer or event loop provider may be called from several threads at the same time, like publish and the listeners' registration: a returned subscriber stays alive. REFUTED: two threads that ask for the same new name get two subscribers, and the first is destroyed while its caller holds the pointer.", "quantifier": "every name, interleaving of two calls", "why_tests_cant": "the requests, names and threads are unbounded, and overlapping calls meet only in particular interleavings", "anchors": ["high_performance/modules/high_performance/include/klepsydra/high_performance/data_multiplexer_middleware_provider.h: getSubscriber, setContainer", "high_performance/modules/high_performance/include/klepsydra/high_performance/event_loop_middleware_provider.h: getSubscriber"]}
{"id": "C171", "title": "Lock-free stack: nothing is lost or duplicated on x86 within 65535 operations", "statement": "On a processor whose loads acquire (x86: the memory order the source asks for then makes no difference), however many threads push and pop, as long as at most 65535 operations are made on the stack in all: accesses to an element are ordered, every pop returns an element that was in the stack or pushed and that no other pop returned, and when no operation is in progress those not popped are in the stack.", "quantifier": "every capacity up to 65535, number of threads, interleaving, and every choice of which earlier write a load reads that acquire and release leave open; at most 65535 operations", "why_tests_cant": "the tests run on x86, which never shows the stale link that the relaxed load allows", "anchors": ["core/modules/core/include/klepsydra/core/lock_free_stack.h: _pop (line 112), _push, push, pop"]}
{"id": "C172", "title": "A multi-producer ring delivers every event in order on x86", "statement": "On a processor whose loads acquire and whose stores release (x86), with any number of publishing threads and consumers that are registered before the first publication: conflicting accesses to the data of an event are ordered, and every consumer reads event 0, 1, 2, ... in order with its own content.", "quantifier": "every ring size, number of producers and consumers, interleaving and choice of which earlier write an atomic load reads", "why_tests_cant": "the interleavings and the choices of what a load reads are unbounded", "anchors": ["high_performance/modules/high_performance/include/klepsydra/high_performance/disruptor4cpp/multi_producer_sequencer.h: next, try_next, publish, get_highest_published_sequence, available_buffer_", "high_performance/modules/high_performance/include/klepsydra/high_performance/disruptor4cpp/sequence.h"]}
{"id": "C173", "title": "Socket: close releases the descriptor whatever it reports", "statement": "close() on a socket that holds an open descriptor closes that descriptor once and no other, whether it returns or throws; on a socket that was closed or moved from it throws and closes nothing. Moving a socket leaves its descriptor in the new object and makes the old one such an object, which is then closed and destroyed without a system call.", "quantifier": "every state of the process's descriptors and objects, every stale errno value", "why_tests_cant": "Depends on stale errno and descriptor reuse.", "anchors": ["core/modules/socket_mdlw/src/base_socket.cpp: close, swap, move"]}
{"id": "C174", "title": "Event loop provider: names do not disturb each other (safe or multi-listener emitter)", "statement": "With an event loop provider created with the safe or the multi-listener emitter, the subscriber of a name answers every call, and every event of that name is delivered, exactly as by a subscriber standing alone to which only the events of that name are published, whatever is done with other names; events of a name nobody asked a subscriber for reach nobody.", "quantifier": "every history of getSubscriber, registrations, removals, statistics queries and handled events of any number of names; every emitter type of the subscribers", "why_tests_cant": "The histories and the names are unbounded; tests try one or two names.", "anchors": ["high_performance/modules/high_performance/include/klepsydra/high_performance/event_loop_middleware_provider.h: getSubscriber", "high_performance/modules/high_performance/include/klepsydra/high_performance/event_loop_subscriber.h: EventLoopSubscriber", "high_performance/modules/high_performance/include/klepsydra/high_performance/event_loop_event_handler.h: on_event", "core/modules/core/include/klepsydra/core/event_emitter_subscriber.h: registerListener, removeListener"]}
{"id": "C175", "title": "Event loop provider: names do not disturb each other, with every emitter type", "statement": "Whatever emitter type an event loop provider is created with, an event of a name reaches the listeners registered for that name. REFUTED: with the single-listener emitter only the first subscriber that was created is ever reached.", "quantifier": "every pair of names, every emitter type of the subscribers", "why_tests_cant": "The result depends on the order in which subscribers are created.", "anchors": ["high_performance/modules/high_performance/include/klepsydra/high_performance/event_loop_middleware_provider.h: EventLoopMiddlewareProvider", "core/modules/core/include/klepsydra/core/unsafe_single_listener_event_emitter.h: on"]}
{"id": "C176", "title": "Pooled publisher: the statistics never exceed the facts, and are exact with one publishing thread", "statement": "However many threads publish through a pooled publisher, and whatever its cloner throws: objectPoolFails is at most the number of publications that found the pool empty; the reported allocations are at most the pool size plus these plus the publications whose cloner threw std::out_of_range on a pooled object; with one publishing thread both are exactly that between its calls; pooled objects in the pool and with receivers are always as many as the pool has.", "quantifier": "every pool size, number of threads, interleaving, moments at which receivers release, outcome of every call of the cloner", "why_tests_cant": "The interleavings are unbounded.", "anchors": ["core/modules/core/include/klepsydra/core/object_pool_publisher.h: ObjectPoolPublisher", "core/modules/core/include/klepsydra/core/smart_object_pool.h: acquire, objectPoolFails"]}
{"id": "C177", "title": "Pooled publisher: the statistics are exact, whatever threads publish", "statement": "The reported allocations and objectPoolFails count every publication that found the pool empty. REFUTED for every pool size: with two threads the plain counters lose updates.", "quantifier": "every pool size, number of threads, interleaving", "why_tests_cant": "Lost updates need a particular interleaving.", "anchors": ["core/modules/core/include/klepsydra/core/object_pool_publisher.h: ObjectPoolPublisher", "core/modules/core/include/klepsydra/core/smart_object_pool.h: acquire, objectPoolFails"]}
{"id": "C178", "title": "Pooled publisher: new objects are allocated only when the pool is empty, whatever the cloner throws", "statement": "A publication allocates a new object, and is counted as one, only if the pool is empty. REFUTED: a cloner that throws std::out_of_range is taken for an empty pool, and called again on a new object.", "quantifier": "every pool size, number of publications", "why_tests_cant": "The cloner is user code that may throw on any input.", "anchors": ["core/modules/core/include/klepsydra/core/object_pool_publisher.h: ObjectPoolPublisher", "core/modules/core/include/klepsydra/core/smart_object_pool.h: acquire, objectPoolFails"]}
{"id": "C179", "title": "Waiting without blocking: returns what is enough, notices alerts, gives the processor away", "statement": "wait_for of the busy-spin, yielding and sleeping strategies returns with the first read that is at least the requested sequence and otherwise throws with the first check that finds the alert; until then it goes on waiting, and the yielding strategy yields at every try from the configured number on, while the sleeping one yields for the last hundred configured tries and sleeps at every later one.", "quantifier": "every sequence of values read and alerts, every non-negative configured number of tries", "why_tests_cant": "The sequences are unbounded.", "anchors": ["high_performance/modules/high_performance/include/klepsydra/high_performance/disruptor4cpp/wait_strategies/busy_spin_wait_strategy.h: wait_for", "high_performance/modules/high_performance/include/klepsydra/high_performance/disruptor4cpp/wait_strategies/yielding_wait_strategy.h: wait_for", "high_performance/modules/high_performance/include/klepsydra/high_performance/disruptor4cpp/wait_strategies/sleeping_wait_strategy.h: wait_for"]}
{"id": "C180", "title": "Event loop provider: events and scheduled functions reach what they are meant for", "statement": "With the default emitter, whatever subscribers and schedulers are asked for and in whatever order: once getScheduler has returned, every function handed to it is run once per publication; an event reaches the subscriber of its name and no other; an object replaced by the scheduler is never reached again and its destruction does not throw. With the multi-listener emitter the same holds if getScheduler is not given a name that has a subscriber.", "quantifier": "every history of getSubscriber, getScheduler, events and scheduled functions of any names, with fewer than 2^32 calls", "why_tests_cant": "The histories are unbounded; tests use one provider with one scheduler.", "anchors": ["high_performance/modules/high_performance/include/klepsydra/high_performance/event_loop_middleware_provider.h: getSubscriber, getScheduler", "high_performance/modules/high_performance/include/klepsydra/high_performance/event_loop_function_exec_listener.h: EventLoopFunctionExecutorListener", "high_performance/modules/high_performance/include/klepsydra/high_performance/event_loop_subscriber.h: EventLoopSubscriber, ~EventLoopSubscriber"]}
{"id": "C181", "title": "Event loop provider: scheduled functions run with every emitter type", "statement": "Whatever emitter type the provider is created with, a function handed to its scheduler is run. REFUTED: with the single-listener emitter no function is ever run if a subscriber was created before; with the multi-listener emitter none is if the scheduler is given the name of a subscriber. Nothing reports it.", "quantifier": "every name, every number of functions", "why_tests_cant": "It depends on the emitter type together with the order of the calls.", "anchors": ["high_performance/modules/high_performance/include/klepsydra/high_performance/event_loop_middleware_provider.h: getSubscriber, getScheduler", "high_performance/modules/high_performance/include/klepsydra/high_performance/event_loop_function_exec_listener.h: EventLoopFunctionExecutorListener", "high_performance/modules/high_performance/include/klepsydra/high_performance/event_loop_subscriber.h: EventLoopSubscriber, ~EventLoopSubscriber", "core/modules/core/include/klepsydra/core/unsafe_multi_listener_event_emitter.h: on, removeListener", "core/modules/core/include/klepsydra/core/unsafe_single_listener_event_emitter.h: on"]}
{"id": "C182", "title": "Request/reply, thread-safe handler: free again after every call, also after exceptions", "statement": "Whatever reply callbacks do (call the handler, throw) and whatever publishing does: a thread that is in none of its calls of the thread-safe handler does not hold its mutex, so when all threads are outside, a call of any of them enters.", "quantifier": "every program of every number of threads, every behaviour of callbacks and of the matching relation, every interleaving", "why_tests_cant": "Callbacks are user code and may throw anywhere; the interleavings are unbounded.", "anchors": ["core/modules/core/include/klepsydra/core/callback_handler.h: MultiThreadCallbackHandler::requestAndReply, onReplyReceived"]}
{"id": "C183", "title": "In-memory poller: isRunning() says whether events are being polled", "statement": "One thread calls start() and stop() in any order, no start() has timed out and no listener throws: between its calls isRunning() is true exactly when the polling thread is in its loop.", "quantifier": "every sequence of calls, every interleaving with the polling thread", "why_tests_cant": "The interleavings are unbounded.", "anchors": ["core/modules/mem_mdlw/src/in_memory_queue_poller.cpp: start, stop, pollingLoop, isRunning"]}
{"id": "C184", "title": "In-memory poller: isRunning() says whether events are being polled, also after a listener threw", "statement": "isRunning() is true only while events are polled. REFUTED: after a listener threw, the polling thread is gone and isRunning() stays true, whatever happens, until stop() is called; the exception is kept in a future nobody reads.", "quantifier": "every continuation without stop()", "why_tests_cant": "A test would have to look at a thread that is not there.", "anchors": ["core/modules/mem_mdlw/src/in_memory_queue_poller.cpp: start, stop, pollingLoop, isRunning"]}
{"id": "C185", "title": "Destroying a poller terminates", "statement": "One thread calls start() and stop() in any order, no start() has timed out, and finally the destructor of the poller, stopped or not: under every schedule in which both threads keep running the destructor returns (if the poller was not stopped first, the polling thread may first touch the destroyed derived object: C148; if it was, it does not).", "quantifier": "every sequence of calls, every fair schedule", "why_tests_cant": "Liveness: a test sees one schedule and cannot tell slow from never.", "anchors": ["core/modules/mem_mdlw/src/in_memory_queue_poller.cpp: ~InMemoryQueuePoller, pollingLoop"]}
{"id": "C186", "title": "Single-listener emitter: statistics", "statement": "getListenerStats(0) gives, for a listener registered with a container and not removed since, its names and exactly the number of discardEvent calls for its event since its registration; after a removal with a container there are none until the next registration with one; other identifiers never have statistics.", "quantifier": "every history of on/removeListener/removeAllListeners/emitEvent/discardEvent", "why_tests_cant": "The histories are unbounded.", "anchors": ["core/modules/core/include/klepsydra/core/unsafe_single_listener_event_emitter.h: getListenerStats, on, removeListener, discardEvent"]}
{"id": "C187", "title": "Containers never use the statistics of a listener that is gone (distinct names, one container per listener)", "statement": "Any number of safe emitters and containers. If the statistics in one container have distinct names, a listener is removed with the container its statistics were given to, and they are given to one container at most (by on() or later by setContainer()), then no container ever reads a destroyed statistics object, and each container holds exactly the statistics of the registered listeners that were given to it, each once.", "quantifier": "every history of registrations, removals, setContainer calls and container starts and stops", "why_tests_cant": "The histories are unbounded, and a dangling pointer need not crash a test.", "anchors": ["core/modules/core/include/klepsydra/core/safe_event_emitter.h: on, removeListener, removeAllListeners", "core/modules/core/src/core_container.cpp: attach, detach, start, stop", "high_performance/modules/high_performance/include/klepsydra/high_performance/event_loop_function_exec_listener.h: setContainer, ~EventLoopFunctionExecutorListener", "high_performance/modules/high_performance/include/klepsydra/high_performance/event_loop_middleware_provider.h: setContainer"]}
{"id": "C188", "title": "Containers never use the statistics of a listener that is gone, whatever the names and however often setContainer is called", "statement": "The same without the provisos. REFUTED: detach looks for the name and not for the object, so with equal names (a listener registered twice under one name; two event loop providers with the same event name and a common container, the later one destroyed first) the container keeps a pointer to the destroyed object and uses it when started or stopped; so does the first container if setContainer() is called twice, with the same or another container.", "quantifier": "every history of registrations, removals, setContainer calls and container starts and stops", "why_tests_cant": "A dangling pointer need not crash a test.", "anchors": ["core/modules/core/include/klepsydra/core/safe_event_emitter.h: on, removeListener, removeAllListeners", "core/modules/core/src/core_container.cpp: attach, detach, start, stop", "high_performance/modules/high_performance/include/klepsydra/high_performance/event_loop_function_exec_listener.h: setContainer, ~EventLoopFunctionExecutorListener", "high_performance/modules/high_performance/include/klepsydra/high_performance/event_loop_middleware_provider.h: setContainer"]}
{"id": "C189", "title": "ZMQ receiver: stop returns, and nothing is delivered after it", "statement": "If no start() has timed out, stop() and the destructor of a receiving channel return once the polling thread and the caller have made a few more steps, whatever messages keep arriving, and the polling thread is then gone. After stop() has returned, and before the first start(), no message is handed to the listeners until start() is called again. As long as the channel is not being destroyed, every message the polling thread has taken from the socket is handed over exactly once.", "quantifier": "every sequence of start/stop/destruction, every schedule, every arrival of messages", "why_tests_cant": "Liveness, and an unbounded number of schedules.", "anchors": ["core/modules/zmq_mdlw/include/klepsydra/zmq_core/zmq_poller.h: start, stop, ~ZMQPoller, pollingLoop", "core/modules/zmq_mdlw/include/klepsydra/zmq_core/from_zmq_middleware_provider.h: start, stop"]}
{"id": "C190", "title": "ZMQ receiver: stop always returns", "statement": "stop() of a receiving channel returns, also after a start() that threw because the thread did not come up in time. REFUTED: the thread sets the running flag when it gets going, after stop() has cleared it, and stop() then waits for ever.", "quantifier": "every sequence of start/stop, every schedule", "why_tests_cant": "Needs a specific preemption of the new thread; a hang cannot be told from slowness.", "anchors": ["core/modules/zmq_mdlw/include/klepsydra/zmq_core/zmq_poller.h: start, stop, ~ZMQPoller, pollingLoop", "core/modules/zmq_mdlw/include/klepsydra/zmq_core/from_zmq_middleware_provider.h: start, stop"]}
{"id": "C191", "title": "Data multiplexer: a publication that fails leaves no trace", "statement": "If processAndPublish lets an exception of the user's process function out, the call has no effect on anybody: no listener is given or counts anything for it, and it takes no room. REFUTED: nothing reaches the consumers before the next publication, but then every listener counts one more discarded event, and the slot stays taken, so that a later publication can be refused although the ring holds fewer events than its size.", "quantifier": "every history of publications, failing or not, and of listener progress", "why_tests_cant": "The stale slot becomes visible only after a later publication.", "anchors": ["high_performance/modules/high_performance/include/klepsydra/high_performance/data_multiplexer_publisher.h: processAndPublish, internalPublish", "high_performance/modules/high_performance/include/klepsydra/high_performance/data_multiplexer_event_handler.h: on_event"]}
{"id": "C192", "title": "Lock-free stack: the constructor initialises every element once", "statement": "Constructing a lock-free stack of any capacity from 1 that fits in memory touches nothing but its own arrays, gives each element to the initialisation function exactly once and in order, and chains all elements, so that the stack starts full.", "quantifier": "every capacity, element type and initialisation function", "why_tests_cant": "A test constructs stacks of a few sizes.", "anchors": ["core/modules/core/include/klepsydra/core/lock_free_stack.h: LockFreeStack::LockFreeStack", "core/modules/core/include/klepsydra/core/smart_object_pool.h: SmartObjectPool::SmartObjectPool"]}
{"id": "C193", "title": "Lock-free stack: a capacity of zero gives an empty stack", "statement": "A stack or pool constructed with capacity zero is an empty one whose pop fails. REFUTED: the constructor computes capacity - 1 in an unsigned type and writes outside its (empty) arrays at its first access, whatever the element type and the initialisation function.", "quantifier": "every element type and initialisation function", "why_tests_cant": "Undefined behaviour may go unnoticed in a test.", "anchors": ["core/modules/core/include/klepsydra/core/lock_free_stack.h: LockFreeStack::LockFreeStack", "core/modules/core/include/klepsydra/core/smart_object_pool.h: SmartObjectPool::SmartObjectPool"]}
{"id": "C194", "title": "State machine and listener from the same file: every action runs as often as its state is reported", "statement": "A machine and a listener are created from the same file (with a non-empty identifier), actions are added to the listener, and its observer function is registered with the machine. Whatever the program and the other observers do afterwards: an entry action has run exactly as often as the machine told that observer that it entered the action's state, a periodic action exactly as often as it told it to be there, and a one-off action once if it was ever told that the state was entered and not at all otherwise. Identifiers and states may contain colons.", "quantifier": "every description, sequence of calls, reaction of other observers, set of actions, point of the execution", "why_tests_cant": "The histories of machine and listener together are unbounded.", "anchors": ["state_machine/modules/json_conf/src/kpsr_state_machine.cpp: FromJson::createStateMachine, createStateMachineListener", "state_machine/modules/state_machine/src/state_machine_listener.cpp: getCompleteName, getObserverFunc", "state_machine/modules/state_machine/src/state_machine_impl.cpp: updateObservers"]}
{"id": "C195", "title": "State machine and listener from the same file: also with an empty identifier", "statement": "The same for a file whose identifier is empty. REFUTED: the machine still puts a colon before the state while the listener does not, so the listener never runs any action of states whose names do not begin with a colon.", "quantifier": "every description with an empty identifier, sequence of calls, set of actions", "why_tests_cant": "An identifier is always given in tests.", "anchors": ["state_machine/modules/json_conf/src/kpsr_state_machine.cpp: FromJson::createStateMachine, createStateMachineListener", "state_machine/modules/state_machine/src/state_machine_listener.cpp: getCompleteName, getObserverFunc", "state_machine/modules/state_machine/src/state_machine_impl.cpp: updateObservers"]}
{"id": "C196", "title": "Binary ZeroMQ channel: its serialisation buffers", "statement": "A binary channel to ZeroMQ allocates one buffer per element of its pool (at least one) and one more for each publication that finds the pool empty; destroying the channel while nobody publishes deletes exactly the pool's buffers, each once. With a single publishing thread no publication finds the pool empty: nothing is allocated after the construction, and all is deleted with the channel.", "quantifier": "every pool size, number of publishing threads, interleaving of publications", "why_tests_cant": "Interleavings of publications are unbounded in number and length.", "anchors": ["core/modules/zmq_mdlw/include/klepsydra/zmq_core/to_zmq_middleware_provider.h: getBinaryToMiddlewareChannel", "core/modules/zmq_mdlw/include/klepsydra/zmq_core/binary_to_zmq_channel.h: BinaryToZMQChannel", "core/modules/core/include/klepsydra/core/object_pool_publisher.h: processAndPublish", "core/modules/core/include/klepsydra/core/smart_object_pool.h: acquire, ~SmartObjectPool"]}
{"id": "C197", "title": "Binary ZeroMQ channel: publications do not leak buffers", "statement": "However many threads publish through a binary channel, every buffer it has allocated is deleted at the latest when the channel is destroyed. REFUTED: with one publishing thread more than the pool has elements (with the default pool size of 0: two threads), for every number m there is a use after which m buffers are never deleted.", "quantifier": "every pool size and number of buffers", "why_tests_cant": "A leak is not observable in a passing test, and needs overlapping publications.", "anchors": ["core/modules/zmq_mdlw/include/klepsydra/zmq_core/to_zmq_middleware_provider.h: getBinaryToMiddlewareChannel", "core/modules/zmq_mdlw/include/klepsydra/zmq_core/binary_to_zmq_channel.h: BinaryToZMQChannel", "core/modules/core/include/klepsydra/core/object_pool_publisher.h: processAndPublish", "core/modules/core/include/klepsydra/core/smart_object_pool.h: acquire, ~SmartObjectPool"]}
{"id": "C198", "title": "Multi-listener unsafe emitter: the container shows exactly the registered listeners", "statement": "If the container is given at every registration and removal, then after any history of registrations, removals, removals of all, emissions and discards the container holds one statistics object for each listener that is registered now, with its name and event, in the order of registration, and none of any other.", "quantifier": "every history of calls of the emitter", "why_tests_cant": "The histories are unbounded; stale statistics show only after particular orders of registration and removal.", "anchors": ["core/modules/core/include/klepsydra/core/unsafe_multi_listener_event_emitter.h: on, removeListener, removeAllListeners, discardEvent", "core/modules/core/src/core_container.cpp: attach, detach"]}
{"id": "C199", "title": "Multi-listener unsafe emitter: also when some listeners have no container", "statement": "If the container is given at every removal but only at some registrations, the container shows exactly the listeners registered with it. REFUTED: removeAllListeners() keeps the statistics under their numbers, and removing a later listener of that number, registered without container, detaches them by name, which hides the statistics of a listener that is registered.", "quantifier": "every history of calls of the emitter", "why_tests_cant": "It takes a reuse of listener numbers after removeAllListeners and a mixture of registrations.", "anchors": ["core/modules/core/include/klepsydra/core/unsafe_multi_listener_event_emitter.h: on, removeListener, removeAllListeners, discardEvent", "core/modules/core/src/core_container.cpp: attach, detach"]}
{"id": "C200", "title": "Lock-free stack on the C++ memory model: no data races, and a pop returns an element", "statement": "Under the C++ memory model push and pop have no data race, and a successful pop returns an element that was put there (in a SmartObjectPool: acquire() never gives a null pointer). REFUTED: whatever the capacity, the link of a node is read by one pop while another, which has taken the node, writes it; and the relaxed load with which a pop begins may see a pushed node without the link written before, so that a later pop returns what an earlier one left behind, even if no two calls overlap.", "quantifier": "every capacity, number of threads, execution of the C++ memory model", "why_tests_cant": "It does not happen on the strongly ordered processors tests run on; the compiler and the processor may do it.", "anchors": ["core/modules/core/include/klepsydra/core/lock_free_stack.h: push, pop, _pop, _push", "core/modules/core/include/klepsydra/core/smart_object_pool.h: acquire, ReturnToPool_Deleter"]}
{"id": "C201", "title": "Lock-free stack on the C++ memory model: what is handed over is ordered", "statement": "Whatever a thread did before one of its updates of the stack (or of the list of free nodes) happens before whatever another thread does after a later update of the same list: what was written before a push is seen after the pop. In every execution in which calls take only nodes that are on the list they take them from, any two accesses to the place of one element are ordered by happens-before: the elements themselves are free of data races. Every completed call has one answer that fits it, in the order of the thread's calls. The head of a list does not take the same value again within 65536 updates of that list, so a compare-exchange that expects an earlier value succeeds only if the list was not updated since, or at least 65536 times. In those executions a pop gives an element that was pushed or was in the stack from the beginning, never what an earlier pop left behind. No element is popped more often than it was pushed (once more if it was there from the beginning), and when all calls have returned and none found the stack full, every element was popped or is on the stack. In a new stack these are the numbers below the capacity. A new stack of n gives the elements 0 to n-1 to n pops that do not overlap and read the latest values, and is then empty.", "quantifier": "every capacity, number of threads, sequence of calls, execution of the memory model", "why_tests_cant": "The executions of a weak memory model cannot be enumerated by running the program.", "anchors": ["core/modules/core/include/klepsydra/core/lock_free_stack.h: push, pop, _pop, _push", "core/modules/core/include/klepsydra/core/smart_object_pool.h: acquire, ReturnToPool_Deleter"]}
{"id": "C202", "title": "Socket server: every client gets the reply to its own request", "statement": "A server made as in the example (accept in a loop, one thread per connection that receives with ProtocolSimple and then sends a reply) and any number of clients (send, then receive): what the server has received on a connection is a prefix of what that client sent, and what a client has received is a prefix of the reply to what the server received from it, whatever fails and whoever goes away. As long as the server's process lives, a client to whose own connection only delays, splits and interruptions happen gets the whole reply to its whole request, within a bounded number of rounds of system calls, whatever happens to the other connections; and the server's process lives as long as its own system calls do not fail for good. A client whose process has ended sends and receives nothing more.", "quantifier": "every number of clients, every request, every reply function, every interleaving of their system calls and every result of these", "why_tests_cant": "The combinations of partial reads and writes on many connections are unbounded.", "anchors": ["core/examples/socket_mdlw/src/server.cpp: main", "core/examples/socket_mdlw/src/client.cpp: main", "core/modules/socket_mdlw/src/protocol_simple.cpp: sendMessage, recvMessage", "core/modules/socket_mdlw/include/klepsydra/socket_core/server_socket.h: accept"]}
{"id": "C203", "title": "Socket server: also when another client goes away, or nobody connects for a while", "statement": "A client to whose own connection nothing happens gets the reply to its request, whatever the other clients do and however long nobody connects. REFUTED: when another client has gone away before its reply is written, the exception leaves that connection's thread and ends the server's process, and so does the time-out of accept (one second by default); the first client's recvMessage then returns normally with an empty or truncated reply.", "quantifier": "every interleaving of the clients, the server's threads and their failures", "why_tests_cant": "It takes a failure on one connection while another is in the middle of its exchange.", "anchors": ["core/examples/socket_mdlw/src/server.cpp: main", "core/examples/socket_mdlw/src/client.cpp: main", "core/modules/socket_mdlw/src/protocol_simple.cpp: sendMessage, recvMessage", "core/modules/socket_mdlw/include/klepsydra/socket_core/server_socket.h: accept"]}
{"id": "C204", "title": "Single-listener emitter and threads: registered first, or registered once", "statement": "If one thread makes all its registrations and removals before it hands the emitter over to the others (starts them, say), there is no data race under the C++ memory model, and each emission calls the registered callback exactly if its event is that of the listener. If one thread registers, without removing, at any time while others emit, neither the callback nor its wrapper has a data race, no emission fails, and one that calls a callback calls the first that was registered, for its event or the empty name. Every emission returns once, in the order of its thread's calls.", "quantifier": "every sequence of calls of the registering thread, every number of emitting threads and sequence of emissions, every interleaving", "why_tests_cant": "Whether two accesses are ordered is not visible in a run; the interleavings of any number of threads cannot be enumerated.", "anchors": ["core/modules/core/include/klepsydra/core/unsafe_single_listener_event_emitter.h: on, removeListener, emitEvent, _listenerRegistered"]}
{"id": "C205", "title": "Single-listener emitter: listeners may come and go while others emit", "statement": "Although only the flag that says whether a listener is registered is atomic: one thread may register and remove while others emit, without data race, and a callback is only called for events of the name it was registered for. REFUTED: an emission reads the event name that a registration is writing; it calls the callback that a removal is replacing; and an event whose name was compared before a removal and a new registration reaches the new listener, of another name.", "quantifier": "every sequence of calls of the registering thread, every emitting thread, every interleaving", "why_tests_cant": "It takes a registration or removal between two instructions of an emission.", "anchors": ["core/modules/core/include/klepsydra/core/unsafe_single_listener_event_emitter.h: on, removeListener, emitEvent, _listenerRegistered"]}
