(** * Model of the event loop's scheduler together with the loop that executes the tasks.
    /repo/high_performance/modules/high_performance/src/event_loop_scheduler.cpp 17-49 (the scheduled task publishes the user's task), event_loop_function_exec_listener.h 50-62 (the loop's listener calls it),
    event_loop_publisher.h 113-128 (refused when the ring is full), event_loop_middleware_provider.h 161-178; the threads of the scheduler: Scheduler_Model.
    The loop is running; its thread begins a task and ends it in two steps. Whether a publication is accepted depends on the ring (C28, C109) and on everybody else's events in it: [ok], arbitrary.
    Simplifications: other events of the loop are no steps of this model; tasks do not throw; the publication of a task is one step. *)
From stdpp Require Import prelude strings gmap.
From Verif Require Import Scheduler_Model.
(** Observable: what the scheduler's threads do (for them "the task" is the publication); publications, accepted or refused; executions on the loop. *)
Inductive xev := XS (e : sev) | XPub (i : nat) (ok : bool) | XRun (i : nat) | XEnd (i : nat).
Record xst := XSt { x_s : sst; x_q : list nat; x_cur : option nat; x_log : list xev }.
Inductive xact := XSched (a : sact) (ok : bool) | XLoop.
Definition x_step (s : xst) (a : xact) : xst :=
  match a with
  | XSched a ok =>
      let s' := s_step (x_s s) a in
      match drop (length (s_log (x_s s))) (s_log s') with
      | [EFinish i] => XSt s' (if ok then x_q s ++ [i] else x_q s) (x_cur s) (x_log s ++ [XPub i ok; XS (EFinish i)])     (* _publisher->publish(task) *)
      | l => XSt s' (x_q s) (x_cur s) (x_log s ++ (XS <$> l))
      end
  | XLoop =>
      match x_cur s with
      | Some i => XSt (x_s s) (x_q s) None (x_log s ++ [XEnd i])
      | None => match x_q s with i :: q => XSt (x_s s) q (Some i) (x_log s ++ [XRun i]) | [] => s end
      end
  end.
Definition x_new (calls : list scall) : xst := XSt (s_new calls) [] None [].
Definition x_run (calls : list scall) (acts : list xact) : xst := fold_left x_step acts (x_new calls).
