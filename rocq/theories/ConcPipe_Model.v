(** * Model of the concurrent-queue middleware.
    /repo/core/modules/mem_mdlw/include/klepsydra/mem_core/concurrent_queue_publisher.h 74-112 (the two push functions, internalPublish),
    concurrent_queue_poller.h 74-83 (takeEventFromQueue), concurrent_middleware_provider.h 62-88; /repo/core/modules/mem_mdlw/src/in_memory_queue_poller.cpp 22-82 (the loop, start and stop).
    The queue itself (moodycamel::ConcurrentQueue) is not in the repository. What is assumed of it, for one producer token: try_enqueue appends or, for reasons of its own (memory),
    refuses; try_dequeue_from_producer takes the oldest element of that producer or fails. Whether they refuse is an input of the step.
    One publishing thread (a producer token must not be used by two threads at once), one poller thread, one step per queue operation, emission or flag access.
    Simplifications: the pool and the cloning of the event are left out (SmartObjectPool_Model.v, C05), an emission is one step (SafeEmitter_Model.v), the sleeps are no steps,
    events are numbered. *)
From stdpp Require Import prelude.
Local Open Scope nat_scope.
(** The publishing thread: between calls, or in the loop of the push function (78-84, 90-92) with its counter of discarded items, before try_enqueue or (after a refusal) before the dequeue, or about to add the counter to the statistics (85). *)
Inductive qpub := QIdle | QTry (e : nat) (d : nat) | QDrop (e : nat) (d : nat) | QCount (d : nat).
(** The poller thread: not started, at the loop's test, before the dequeue, with an event in its hands. *)
Inductive qpoll := QOff | QTest | QTake | QEmit (e : nat).
Record qst := Qst {
  q_pub : qpub;
  q_poll : qpoll;
  q_running : bool;           (* _running *)
  q_queue : list nat;         (* oldest first *)
  q_stat : nat;               (* publicationStats.totalDiscardedEvents *)
  q_published : list nat;     (* ghost: events whose publication has been asked for *)
  q_delivered : list nat;     (* ghost: emissions *)
  q_discarded : list nat      (* ghost: events taken out by the publisher *)
}.
Inductive qact :=
| APublish (e : nat)          (* a call of internalPublish, 106-112 *)
| APush (accept : bool)       (* one step of the publishing thread; the queue accepts, or gives an element *)
| AStart                      (* start() *)
| AStop                       (* stop() or the destructor clears _running *)
| APoll (got : bool).         (* one step of the poller thread *)
Definition q_new : qst := Qst QIdle QOff false [] 0 [] [] [].
Definition q_step (discard : bool) (s : qst) (a : qact) : qst :=
  match a with
  | APublish e =>
      match q_pub s with
      | QIdle => Qst (QTry e 0) (q_poll s) (q_running s) (q_queue s) (q_stat s) (q_published s ++ [e]) (q_delivered s) (q_discarded s)
      | _ => s
      end
  | APush accept =>
      match q_pub s with
      | QIdle => s
      | QTry e d => (* try_enqueue: 78, 90 *)
          if accept
          then Qst (if discard then QCount d else QIdle) (q_poll s) (q_running s) (q_queue s ++ [e]) (q_stat s) (q_published s) (q_delivered s) (q_discarded s)
          else Qst (if discard then QDrop e d else QTry e d) (q_poll s) (q_running s) (q_queue s) (q_stat s) (q_published s) (q_delivered s) (q_discarded s)
      | QDrop e d => (* try_dequeue_from_producer: 80-83 *)
          match q_queue s with
          | x :: rest => if accept
              then Qst (QTry e (S d)) (q_poll s) (q_running s) rest (q_stat s) (q_published s) (q_delivered s) (q_discarded s ++ [x])
              else Qst (QTry e d) (q_poll s) (q_running s) (q_queue s) (q_stat s) (q_published s) (q_delivered s) (q_discarded s)
          | [] => Qst (QTry e d) (q_poll s) (q_running s) (q_queue s) (q_stat s) (q_published s) (q_delivered s) (q_discarded s)
          end
      | QCount d => (* 85 *)
          Qst QIdle (q_poll s) (q_running s) (q_queue s) (q_stat s + d) (q_published s) (q_delivered s) (q_discarded s)
      end
  | AStart =>
      match q_poll s with
      | QOff => Qst (q_pub s) QTest true (q_queue s) (q_stat s) (q_published s) (q_delivered s) (q_discarded s)
      | _ => s
      end
  | AStop => Qst (q_pub s) (q_poll s) false (q_queue s) (q_stat s) (q_published s) (q_delivered s) (q_discarded s)
  | APoll got =>
      match q_poll s with
      | QOff => s
      | QTest => Qst (q_pub s) (if q_running s then QTake else QOff) (q_running s) (q_queue s) (q_stat s) (q_published s) (q_delivered s) (q_discarded s)
      | QTake =>
          match q_queue s with
          | x :: rest => if got
              then Qst (q_pub s) (QEmit x) (q_running s) rest (q_stat s) (q_published s) (q_delivered s) (q_discarded s)
              else Qst (q_pub s) QTest (q_running s) (q_queue s) (q_stat s) (q_published s) (q_delivered s) (q_discarded s)
          | [] => Qst (q_pub s) QTest (q_running s) (q_queue s) (q_stat s) (q_published s) (q_delivered s) (q_discarded s)
          end
      | QEmit x => Qst (q_pub s) QTest (q_running s) (q_queue s) (q_stat s) (q_published s) (q_delivered s ++ [x]) (q_discarded s)
      end
  end.
Definition q_run (discard : bool) (acts : list qact) : qst := fold_left (q_step discard) acts q_new.
