(** * Model of the life of an event processor: run(), halt(), the alert flag, the wait strategies, start/stop of the event loop.
    /repo/high_performance/modules/high_performance/include/klepsydra/high_performance/
      disruptor4cpp/batch_event_processor.h 95-156, sequence_barrier.h 82-111,
      disruptor4cpp/wait_strategies/{blocking,lite_blocking,timeout_blocking,busy_spin,yielding,sleeping}_wait_strategy.h,
      event_loop.h 101-140, data_multiplexer_subscriber.h 97-122.
    One consumer thread calling run() once; any number of other threads calling halt(), publishing one event at a time,
    waiting for is_running() (event_loop.h 111, data_multiplexer_subscriber.h 101, 115) and joining the consumer thread. One step is one access to shared memory,
    or the whole of a critical section of the signalling side.
    Simplifications: publications are those of a single-producer ring (the cursor is the number of the last published event); no dependencies
    on other consumers; ring_buffer slots and gating are in SingleRing_Model.v and MultiRing_Model.v; the time-out of start() is not modelled;
    memory is sequentially consistent except, when [h_tso], for the store to signal_needed_ of the lite blocking strategy, which can be delayed
    until the thread releases the mutex (a store buffer). phased_backoff is one of the others after a delay. *)
From stdpp Require Import prelude.
Local Open Scope Z_scope.

(** Spin: busy_spin, yielding and sleeping, which differ in what they do between two reads of the cursor. *)
Inductive strategy := Blocking | LiteBlocking | TimeoutBlocking | Spin.
Record hcfg := HCfg { h_strat : strategy; h_tso : bool }.

(** The consumer thread. *)
Inductive rpc :=
| RCas                    (* batch_event_processor.h 105-107 *)
| RClear                  (* 109 *)
| RCheck                  (* sequence_barrier.h 84 *)
| RFast                   (* first read of the cursor: blocking 70, lite 74 *)
| RLock                   (* unique_lock: blocking 71, lite 75 *)
| RNeed                   (* lite 77: signal_needed_ := true *)
| RCur                    (* blocking 72, lite 78: the cursor, with the mutex *)
| RAl                     (* check_alert with the mutex, then wait: blocking 73-74, lite 81-82 *)
| RAsleep (woken : bool)  (* condition variable *)
| RRelock (timeout : bool)
| RCur2                   (* lite 83: the condition of the do-while *)
| RDep                    (* blocking 78, lite 86, busy_spin 68: dependent_sequence *)
| RDepAl
| RHandle (nx avail : Z)  (* batch_event_processor.h 118-125 *)
| RAlert                  (* 132-138 *)
| RStop                   (* 154-155 *)
| RDone
| RFail                   (* 149-152 *)
| RThrew.
(** The other threads. *)
Inductive hop := OHalt | OPub | OAwaitRunning | OJoin.
Inductive cpc :=
| CIdle
| CAlert                  (* halt(), after running_.store(false): batch_event_processor.h 98, sequence_barrier.h 101 *)
| CExch                   (* lite 94: signal_needed_.exchange(false) *)
| CSig.                   (* lock, notify_all, unlock: blocking 86-87, lite 95-96 *)
Record caller := Caller { c_pc : cpc; c_todo : list hop }.

Record hst := Hst {
  h_running : bool; h_alerted : bool; h_needed : bool;
  h_buf : bool;           (* signal_needed_ := true still in the store buffer of the consumer *)
  h_owned : bool;         (* the consumer has the mutex (the others have it only inside one step) *)
  h_cursor : Z; h_seq : Z; h_next : Z;
  h_run : rpc; h_callers : list caller;
  h_log : list Z          (* ghost: events handled *)
}.
Inductive hout := HOk | HStd | HOther.        (* how the handler ends: normally, std::exception, any other exception *)
Inductive wake := WNone | WSpurious | WTimeout.

Definition r_set (s : hst) (running alerted needed buf owned : bool) (pc : rpc) : hst :=
  Hst running alerted needed buf owned (h_cursor s) (h_seq s) (h_next s) pc (h_callers s) (h_log s).
Definition r_goto (s : hst) (pc : rpc) : hst := r_set s (h_running s) (h_alerted s) (h_needed s) (h_buf s) (h_owned s) pc.
(** Releasing the mutex makes the delayed store visible. *)
Definition r_unlock (s : hst) (pc : rpc) : hst := r_set s (h_running s) (h_alerted s) (h_needed s || h_buf s) false false pc.
Definition r_lock (s : hst) (pc : rpc) : hst := r_set s (h_running s) (h_alerted s) (h_needed s) (h_buf s) true pc.
Definition r_seq (s : hst) (seq next : Z) (log : list Z) (pc : rpc) : hst :=
  Hst (h_running s) (h_alerted s) (h_needed s) (h_buf s) (h_owned s) (h_cursor s) seq next pc (h_callers s) log.

Definition run_step (g : hcfg) (s : hst) (o : hout) (w : wake) : hst :=
  match h_run s with
  | RCas => if h_running s then r_goto s RThrew else r_set s true (h_alerted s) (h_needed s) (h_buf s) (h_owned s) RClear
  | RClear => r_set s (h_running s) false (h_needed s) (h_buf s) (h_owned s) RCheck
  | RCheck => if h_alerted s then r_goto s RAlert else r_goto s (match h_strat g with Spin => RDep | _ => RFast end)
  | RFast => if h_cursor s <? h_next s then r_goto s RLock else r_goto s RDep
  | RLock => r_lock s (match h_strat g with LiteBlocking => RNeed | _ => RCur end)
  | RNeed => if h_tso g then r_set s (h_running s) (h_alerted s) (h_needed s) true (h_owned s) RCur
             else r_set s (h_running s) (h_alerted s) true (h_buf s) (h_owned s) RCur
  | RCur => if h_cursor s <? h_next s then r_goto s RAl else r_unlock s RDep
  | RAl => if h_alerted s then r_unlock s RAlert else r_unlock s (RAsleep false)
  | RAsleep woken =>
      match w, h_strat g with
      | WTimeout, TimeoutBlocking => r_goto s (RRelock true)
      | WSpurious, _ => r_goto s (RRelock false)
      | _, _ => if woken then r_goto s (RRelock false) else s
      end
  | RRelock true => r_unlock (r_lock s RCheck) RCheck                       (* timeout_exception: 126-131 *)
  | RRelock false => r_lock s (match h_strat g with LiteBlocking => RCur2 | _ => RCur end)
  | RCur2 => if h_cursor s <? h_next s then r_goto s RNeed else r_unlock s RDep
  | RDep => if h_cursor s <? h_next s then r_goto s RDepAl else r_goto s (RHandle (h_next s) (h_cursor s))
  | RDepAl => if h_alerted s then r_goto s RAlert else r_goto s RDep
  | RHandle nx avail =>
      if nx <=? avail then
        match o with
        | HOk => r_seq s (h_seq s) (nx + 1) (h_log s ++ [nx]) (RHandle (nx + 1) avail)
        | HStd => r_seq s nx (nx + 1) (h_log s ++ [nx]) RCheck               (* 139-146 *)
        | HOther => r_seq s (h_seq s) (h_next s) (h_log s ++ [nx]) RFail
        end
      else r_seq s avail (h_next s) (h_log s) RCheck                         (* 125 *)
  | RAlert => if h_running s then r_goto s RCheck else r_goto s RStop
  | RStop => r_set s false (h_alerted s) (h_needed s) (h_buf s) (h_owned s) RDone
  | RFail => r_set s false (h_alerted s) (h_needed s) (h_buf s) (h_owned s) RThrew
  | RDone | RThrew => s
  end.

(** What signal_all_when_blocking starts with. *)
Definition sig_pc (g : hcfg) : cpc := match h_strat g with Spin => CIdle | LiteBlocking => CExch | _ => CSig end.
Definition c_set (s : hst) (t : nat) (c : caller) (running alerted needed : bool) (cursor : Z) (pc : rpc) : hst :=
  Hst running alerted needed (h_buf s) (h_owned s) cursor (h_seq s) (h_next s) pc (<[t := c]> (h_callers s)) (h_log s).
Definition finished (pc : rpc) : bool := match pc with RDone | RThrew => true | _ => false end.
Definition call_step (g : hcfg) (s : hst) (t : nat) : hst :=
  match h_callers s !! t with
  | Some (Caller CIdle (OHalt :: rest)) => c_set s t (Caller CAlert rest) false (h_alerted s) (h_needed s) (h_cursor s) (h_run s)
  | Some (Caller CIdle (OPub :: rest)) => c_set s t (Caller (sig_pc g) rest) (h_running s) (h_alerted s) (h_needed s) (h_cursor s + 1) (h_run s)
  | Some (Caller CIdle (OAwaitRunning :: rest)) =>
      if h_running s then c_set s t (Caller CIdle rest) (h_running s) (h_alerted s) (h_needed s) (h_cursor s) (h_run s) else s
  | Some (Caller CIdle (OJoin :: rest)) =>
      if finished (h_run s) then c_set s t (Caller CIdle rest) (h_running s) (h_alerted s) (h_needed s) (h_cursor s) (h_run s) else s
  | Some (Caller CIdle []) => s
  | Some (Caller CAlert todo) => c_set s t (Caller (sig_pc g) todo) (h_running s) true (h_needed s) (h_cursor s) (h_run s)
  | Some (Caller CExch todo) => c_set s t (Caller (if h_needed s then CSig else CIdle) todo) (h_running s) (h_alerted s) false (h_cursor s) (h_run s)
  | Some (Caller CSig todo) =>
      if h_owned s then s                                                    (* blocked on the mutex *)
      else c_set s t (Caller CIdle todo) (h_running s) (h_alerted s) (h_needed s) (h_cursor s) (match h_run s with RAsleep _ => RAsleep true | pc => pc end)
  | None => s
  end.

Inductive hact := HRun (o : hout) (w : wake) | HCall (t : nat).
Definition hstep (g : hcfg) (s : hst) (a : hact) : hst := match a with HRun o w => run_step g s o w | HCall t => call_step g s t end.
Definition hrun (g : hcfg) (s : hst) (acts : list hact) : hst := fold_left (hstep g) acts s.
Definition hst_new (progs : list (list hop)) : hst := Hst false false false false false (-1) (-1) 0 RCas (Caller CIdle <$> progs) [].
(** run() is past its clear_alert() and has not returned. *)
Definition in_loop (pc : rpc) : bool := match pc with RCas | RClear | RDone | RThrew => false | _ => true end.
