(** * Model of the in-memory middleware built on the safe queue.
    /repo/core/modules/mem_mdlw/include/klepsydra/mem_core/basic_publisher.h 56-101,
    safe_queue_poller.h 67-74, src/in_memory_queue_poller.cpp 59-65, basic_middleware_provider.h 58-81.
    One publisher object used by any number of threads, the queue, and the polling thread. The
    critical sections of the queue are those of SafeQueue_Model ([exec]). Simplifications: an
    event is a number (the shared_ptr and its time stamp); a publisher thread that finds the queue full may look again
    at any time (who is woken, and when, is the subject of C20); what emitEvent does with an event is
    the subject of C06 - C11, here it is one step, which may end by an exception of a listener. *)
From stdpp Require Import prelude.
From Verif Require Import SafeQueue_Model.

(** A publishing thread: events still to publish, and where it is in the lambda of
    lines 72-76: 0 about to push, otherwise it has pushed and is executing `totalDiscardedEvents += n`,
    a load followed by a store of a plain integer. *)
Inductive pub_pc := PubIdle | PubLoad (n : nat) | PubStore (v : nat).
Record pub := Pub { pu_pc : pub_pc; pu_todo : list nat }.

(** The polling thread (lines 67-74): about to call timeout_move_pop; asleep in it; notified or
    woken spuriously; holding an event to emit; ended by an exception that left pollingLoop (std::packaged_task keeps it). *)
Inductive poll_pc := PollIdle | PollAsleep | PollAwake | PollGot (x : nat) | PollDead.

Record mpst := Mp {
  mp_q : list nat;
  mp_pubs : list pub;
  mp_poll : poll_pc;
  mp_disc : nat;                 (* publicationStats.totalDiscardedEvents *)
  mp_ub : bool;
  mp_entered : list (nat * nat); (* ghost: (thread, event) accepted by the queue, oldest first *)
  mp_dropped : nat;              (* ghost: events removed by force_move_push *)
  mp_out : list nat              (* ghost: events given to emitEvent, oldest first *)
}.

Inductive mpact :=
| MPub (t : nat)                 (* publishing thread t does its next step *)
| MPoll (throws : bool)          (* the polling thread does its next step *)
| MTimeout                       (* its wait expires *)
| MSpurious.                     (* its wait is woken spuriously *)

Definition wake_poll (p : poll_pc) : poll_pc := match p with PollAsleep => PollAwake | _ => p end.

(** [discard]: discardItemsWhenFull; [max]: queueSize. *)
Definition mpstep (discard : bool) (max : nat) (s : mpst) (a : mpact) : mpst :=
  if mp_ub s then s else
  match a with
  | MPub t =>
      match mp_pubs s !! t with
      | Some (Pub (PubLoad n) todo) =>
          Mp (mp_q s) (<[t := Pub (PubStore (mp_disc s + n)) todo]> (mp_pubs s)) (mp_poll s) (mp_disc s) false (mp_entered s) (mp_dropped s) (mp_out s)
      | Some (Pub (PubStore v) todo) =>
          Mp (mp_q s) (<[t := Pub PubIdle todo]> (mp_pubs s)) (mp_poll s) v false (mp_entered s) (mp_dropped s) (mp_out s)
      | Some (Pub PubIdle (x :: todo)) =>
          if discard then
            match exec (ForcePush x) false max (mp_q s) with
            | Done q _ _ (EForce _ n) =>
                Mp q (<[t := Pub (PubLoad n) todo]> (mp_pubs s)) (wake_poll (mp_poll s)) (mp_disc s) false
                   (mp_entered s ++ [(t, x)]) (mp_dropped s + n) (mp_out s)
            | _ => s
            end
          else
            match exec (Push x) false max (mp_q s) with
            | Done q _ _ _ =>
                Mp q (<[t := Pub PubIdle todo]> (mp_pubs s)) (wake_poll (mp_poll s)) (mp_disc s) false
                   (mp_entered s ++ [(t, x)]) (mp_dropped s) (mp_out s)
            | _ => s
            end
      | _ => s
      end
  | MPoll throws =>
      let pop woken :=
        match exec (TimedPop false) woken max (mp_q s) with
        | Done q _ _ (ETimed _ (Some x)) => Mp q (mp_pubs s) (PollGot x) (mp_disc s) false (mp_entered s) (mp_dropped s) (mp_out s)
        | WaitNE => Mp (mp_q s) (mp_pubs s) PollAsleep (mp_disc s) false (mp_entered s) (mp_dropped s) (mp_out s)
        | Crash => Mp (mp_q s) (mp_pubs s) (mp_poll s) (mp_disc s) true (mp_entered s) (mp_dropped s) (mp_out s)
        | _ => s
        end in
      match mp_poll s with
      | PollIdle => pop false
      | PollAwake => pop true
      | PollGot x => Mp (mp_q s) (mp_pubs s) (if throws then PollDead else PollIdle) (mp_disc s) false (mp_entered s) (mp_dropped s) (mp_out s ++ [x])
      | PollAsleep | PollDead => s
      end
  | MTimeout =>
      match mp_poll s with
      | PollAsleep | PollAwake => Mp (mp_q s) (mp_pubs s) PollIdle (mp_disc s) false (mp_entered s) (mp_dropped s) (mp_out s)
      | _ => s
      end
  | MSpurious =>
      match mp_poll s with
      | PollAsleep => Mp (mp_q s) (mp_pubs s) PollAwake (mp_disc s) false (mp_entered s) (mp_dropped s) (mp_out s)
      | _ => s
      end
  end.

Definition mp_new (progs : list (list nat)) : mpst := Mp [] (Pub PubIdle <$> progs) PollIdle 0 false [] 0 [].
Definition mprun (discard : bool) (max : nat) (s : mpst) (acts : list mpact) : mpst := fold_left (mpstep discard max) acts s.
