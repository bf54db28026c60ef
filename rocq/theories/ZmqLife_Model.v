(** * Model of the life of a FromZmqChannel with its polling thread: /repo/core/modules/zmq_mdlw/include/klepsydra/zmq_core/from_zmq_middleware_provider.h 53-105 and zmq_poller.h 45-107, 145-160,
    with the poll loops (binary_zmq_poller.h 55-75, json_zmq_poller.h 52-70, void_caster_zmq_poller.h 50-72).
    One thread of the program makes a list of calls on a channel that has a topic registered; its poller thread runs beside it, under every schedule. Members are destroyed in reverse order of declaration: first _subscriberMap
    (line 104; the FromMiddlewareChannel objects die), then _zmqPoller (line 102; ~ZMQPoller, zmq_poller.h 100-107, stops the thread). The functions given to the poller hold bare pointers
    to the FromMiddlewareChannel objects (73-77). [LMsg] is a poll that finds a message for the registered topic. Memory is sequentially consistent. ~ZMQPoller is not virtual: deleting the
    derived poller through the base pointer is undefined by the standard; here it does what implementations do (the derived classes have no members). *)
From stdpp Require Import prelude.
Inductive lcall := LStart | LStop | LDestroy.
(** The calling thread: between calls; in start, waiting for the thread (71-81); in stop at join (93); in the destructor after the map (D1) and at join (D2); gone. *)
Inductive lpc := LIdle | LWait | LJoin | LD1 | LD2 | LGone.
(** The poller thread: none; created; at the loop test; message received, about to be forwarded; finished and not yet joined. *)
Inductive lthr := TNone | TBegin | TLoop | TGot | TDone.
Record lst := LSt { l_calls : list lcall; l_pc : lpc; l_thr : lthr; l_running : bool; l_started : bool; l_chan : bool; l_forwarded : nat; l_dead_use : nat }.
Definition l_new (calls : list lcall) : lst := LSt calls LIdle TNone false false true 0 0.
Inductive lact := LMain | LTimeout | LMsg | LNoMsg.
Definition l_step (s : lst) (a : lact) : lst :=
  match s with LSt calls pc thr running started chan fw dead =>
  match a with
  | LMain =>
      match pc with
      | LIdle =>
          match calls with
          | LStart :: rest => if started then LSt rest LIdle thr running started chan fw dead              (* zmq_poller.h 66-68 *)
                              else LSt rest LWait TBegin running true chan fw dead                          (* 69-70 *)
          | LStop :: rest => if started then LSt rest LJoin thr false started chan fw dead                  (* 89-92 *)
                             else LSt rest LIdle thr running started chan fw dead
          | LDestroy :: rest => LSt rest LD1 thr running started false fw dead                              (* ~FromZmqChannel: _subscriberMap *)
          | [] => s
          end
      | LWait => if running then LSt calls LIdle thr running started chan fw dead else s                     (* 72-79 *)
      | LJoin => match thr with TDone | TNone => LSt calls LIdle TNone running false chan fw dead | _ => s end (* 93-98 *)
      | LD1 => LSt calls LD2 thr false started chan fw dead                                                 (* ~ZMQPoller 102 *)
      | LD2 => match thr with TDone | TNone => LSt calls LGone TNone running started chan fw dead | _ => s end (* 103-105 *)
      | LGone => s
      end
  | LTimeout => match pc with LWait => LSt calls LIdle thr running started chan fw dead | _ => s end          (* 73-75: start throws *)
  | LMsg | LNoMsg =>
      match thr with
      | TBegin => LSt calls pc TLoop true started chan fw dead                                              (* 151 *)
      | TLoop => if running then LSt calls pc (match a with LMsg => TGot | _ => TLoop end) running started chan fw dead else LSt calls pc TDone running started chan fw dead
      | TGot => if chan then LSt calls pc TLoop running started chan (S fw) dead else LSt calls pc TLoop running started chan fw (S dead)  (* executeFunction 134-141 *)
      | _ => s
      end
  end end.
Definition l_run (calls : list lcall) (sched : list lact) : lst := fold_left l_step sched (l_new calls).
