(** * Model of the schedulers: /repo/core/modules/mem_mdlw/src/basic_scheduler.cpp 18-101, include/klepsydra/mem_core/basic_scheduler.h 28-108; the event loop's scheduler
    (/repo/high_performance/modules/high_performance/src/event_loop_scheduler.cpp 17-49) has a BasicScheduler and only changes the task into one that publishes it.
    One thread of the program makes the calls (the map of tasks has no lock); each started task has its own thread; every schedule of them. A sleep takes an arbitrary number of steps
    of the others. A service is the task runOnce under the service's name (basic_scheduler.cpp 90-101). Not modelled: a task that throws, or that calls the scheduler itself. *)
From stdpp Require Import prelude strings gmap.
Inductive scall := SStart (name : string) (repeat : bool) | SStop (name : string) | SDestroy.
(** The thread of a task, start() 29-62: at the test of _isRunning (36, 57); asleep (38-40, 58); in the task (49, 59); finished. *)
Inductive tpc := TCheck | TSleep | TTask | TEnd.
Record sthr := SThr { th_repeat : bool; th_running : bool; th_pc : tpc }.
(** What can be observed: the i-th task started; its stop called; the stop returned; an execution begun, finished. *)
Inductive sev := EStarted (i : nat) (name : string) (repeat : bool) | EStopCall (i : nat) | EStopRet (i : nat) | EBegin (i : nat) | EFinish (i : nat).
Record sst := SSt { s_thr : list sthr; s_map : gmap string nat; s_calls : list scall; s_join : option (nat * string); s_log : list sev; s_terminated : bool }.
Definition s_new (calls : list scall) : sst := SSt [] ∅ calls None [] false.
Inductive sact := SMain | SRun (i : nat).
Definition thr_step (i : nat) (t : sthr) : sthr * list sev :=
  match th_pc t with
  | TCheck => (SThr (th_repeat t) (th_running t) (if th_running t then TSleep else TEnd), [])
  | TSleep => (SThr (th_repeat t) (th_running t) TTask, [EBegin i])
  | TTask => (SThr (th_repeat t) (th_running t) (if th_repeat t then TCheck else TEnd), [EFinish i])
  | TEnd => (t, [])
  end.
Definition s_step (s : sst) (a : sact) : sst :=
  match s with SSt thr map calls join log terminated =>
  if terminated then s else
  match a with
  | SRun i => match thr !! i with Some t => let '(t', ev) := thr_step i t in SSt (<[i := t']> thr) map calls join (log ++ ev) terminated | None => s end
  | SMain =>
      match join with
      | Some (i, name) =>                                                                                  (* ScheduledThread::stop 67-69, then 86 *)
          match thr !! i with Some (SThr _ _ TEnd) => SSt thr (delete name map) calls None (log ++ [EStopRet i]) terminated | _ => s end
      | None =>
          match calls with
          | SStart name rep :: rest =>                                                                      (* 72-80 *)
              match map !! name with
              | Some _ => SSt thr map rest join log true   (* the assignment destroys the old ScheduledThread, whose std::thread is joinable: std::terminate *)
              | None => SSt (thr ++ [SThr rep true TCheck]) (<[name := length thr]> map) rest join (log ++ [EStarted (length thr) name rep]) terminated
              end
          | SStop name :: rest =>                                                                           (* 82-88, 64-66 *)
              match map !! name with
              | Some i => SSt (alter (fun t => SThr (th_repeat t) false (th_pc t)) i thr) map rest (Some (i, name)) (log ++ [EStopCall i]) terminated
              | None => SSt thr map rest join log terminated
              end
          | SDestroy :: rest => SSt thr map rest join log (if decide (map = ∅) then terminated else true)   (* the map's destructor: again joinable threads *)
          | [] => s
          end
      end
  end end.
Definition s_run (calls : list scall) (sched : list sact) : sst := fold_left s_step sched (s_new calls).
