(** * Model of the life of a consumer thread and of the objects it uses, up to their destruction.
    /repo/high_performance/modules/high_performance/include/klepsydra/high_performance/event_loop.h 98-140 (start, stop; there is no destructor), event_loop_middleware_provider.h 88, 217-224 (the destructor and the
    members, destroyed from the last to the first: scheduler, subscribers, publishers, then the loop with its std::thread);
    data_multiplexer_subscriber.h 70-124 (the constructor starts the thread and waits for it, the destructor waits for it, halts it and joins), data_multiplexer_middleware_provider.h 121-137, 170-178 (mux = true).
    One program thread makes the calls; the consumer thread comes to life, handles events and ends. [DGiveUp]: start() has waited for longer than its time-out (at any moment: the
    operating system may not have run the consumer yet). A std::thread that is destroyed or assigned to while joinable ends the program (std::terminate).
    Simplifications: "running" and the cleared alert are one step (C27); events, subscribers and the ring are one thing, used by each handling of an event; exceptions of listeners: C100. *)
From stdpp Require Import prelude.
Inductive dcall := DStart | DStop | DDestroy.
Inductive dphase := PNone | PFresh | PLive | PGone.                        (* no thread yet; created; in run(); run() has returned *)
Inductive dpc := MIdle | MStarting | MJoining (destroy : bool) | MAwait | MFree.
Inductive dev := VStarted | VTimeout | VStopped | VDestroyed | VHandled | VFreedUse | VTerminate.
Record dst := Dst { d_ph : dphase; d_joinable : bool; d_started : bool; d_halt : bool; d_alive : bool; d_calls : list dcall; d_pc : dpc; d_term : bool; d_log : list dev }.
Inductive dact := DMain | DGiveUp | DCons (handle : bool).
Definition d_step (mux : bool) (s : dst) (a : dact) : dst :=
  match s with Dst ph jn st halt alive calls pc term log =>
  if term then s else
  match a with
  | DMain =>
      match pc with
      | MIdle =>
          match calls with
          | [] => s
          | DStart :: r => if st then Dst ph jn st halt alive r MIdle term (log ++ [VStarted])
              else if jn then Dst ph jn st halt alive calls pc true (log ++ [VTerminate])      (* assignment to a std::thread that is joinable *)
              else Dst PFresh true true halt alive r MStarting term log
          | DStop :: r =>
              if mux then Dst ph jn st halt alive r MIdle term log                              (* subscribers of a multiplexer have no stop *)
              else if st then Dst ph jn false true alive r (if jn then MJoining false else MIdle) term log
              else Dst ph jn st halt alive r MIdle term (log ++ [VStopped])
          | DDestroy :: r =>
              if mux then if st then Dst ph jn st halt alive r MAwait term log else Dst ph jn st halt false r MIdle term (log ++ [VDestroyed])
              else Dst ph jn st halt false r MFree term log                                     (* the maps with the subscribers are gone *)
          end
      | MStarting => match ph with PLive => Dst ph jn st halt alive calls MIdle term (log ++ [VStarted]) | _ => s end
      | MAwait => match ph with PLive => Dst ph jn false true alive calls (MJoining true) term log | _ => s end
      | MJoining b => match ph with PGone => Dst ph false st halt (if b then false else alive) calls MIdle term (log ++ [if b then VDestroyed else VStopped]) | _ => s end
      | MFree => if jn then Dst ph jn st halt alive calls pc true (log ++ [VTerminate]) else Dst ph jn st halt alive calls MIdle term (log ++ [VDestroyed])
      end
  | DGiveUp =>
      match pc with
      | MStarting => if mux then Dst ph jn st halt alive calls pc true (log ++ [VTerminate])    (* the constructor throws: its std::thread is destroyed *)
                     else Dst ph jn st halt alive calls MIdle term (log ++ [VTimeout])
      | _ => s
      end
  | DCons handle =>
      match ph with
      | PFresh => Dst PLive jn st false alive calls pc term log                                (* running_ = true, clear_alert *)
      | PLive => if handle then Dst ph jn st halt alive calls pc term (log ++ [if alive then VHandled else VFreedUse])
                 else if halt then Dst PGone jn st halt alive calls pc term log else s
      | _ => s
      end
  end end.
Definition d_new (calls : list dcall) : dst := Dst PNone false false false true calls MIdle false [].
Definition d_run (mux : bool) (calls : list dcall) (acts : list dact) : dst := fold_left (d_step mux) acts (d_new calls).
