(** * Model of the start/stop protocol of the pollers.
    /repo/core/modules/mem_mdlw/src/in_memory_queue_poller.cpp 19-75 (InMemoryQueuePoller), the same text in
    /repo/core/modules/zmq_mdlw/include/klepsydra/zmq_core/zmq_poller.h 66-105, 149-153 (ZMQPoller).
    Any number of threads call start, stop and, last, the destructor; the polling thread runs concurrently. One step is one
    access to an atomic flag, the creation or the join of the thread, or one iteration of the loop body.
    Simplifications: one call of takeEventFromQueue (or of poll's body) is one step, which ends normally or by an exception
    (kept by the packaged_task: the thread ends); the lapse of the start timeout is an input of the schedule. *)
From stdpp Require Import prelude.

Inductive pop := Start | Stop | Destroy.
Inductive pout := Returned | Threw.                   (* std::runtime_error("Could not start the poller") *)

(** The polling thread. *)
Inductive tpc :=
| TNone            (* _threadNotifier holds no thread *)
| TBegin           (* created, before line 61 *)
| TCheck           (* at the loop test, line 62 *)
| TBody            (* in takeEventFromQueue, line 63 *)
| TEnded.          (* ended, not joined *)

(** A calling thread, inside an operation. *)
Inductive cpc :=
| CIdle
| CStartSet        (* line 25 next *)
| CStartSpawn      (* line 26 next *)
| CStartWait       (* loop of lines 28-34 *)
| CStopClear       (* line 42 next *)
| CStopJoin        (* lines 43-45 next *)
| CStopReset       (* line 48 next *)
| CDestroyClear    (* line 53 next; the members of the derived class are gone *)
| CDestroyJoin.    (* lines 54-56 next *)

Record pcaller := Caller { pc_pc : cpc; pc_ops : list pop }.
Record pst := Pst {
  p_started : bool;
  p_running : bool;
  p_thread : tpc;
  p_alive : bool;                    (* the derived object and the queue still exist *)
  p_callers : list pcaller;
  p_term : bool;                     (* std::terminate was called *)
  p_ub : bool;                       (* the polling thread used a destroyed object *)
  p_log : list (nat * pop * pout)    (* ghost: completed calls *)
}.

Inductive pact :=
| PCall (c : nat) (timedout : bool)  (* next step of caller c; [timedout]: counterUs > _timeoutUs *)
| PThread (throws : bool).           (* next step of the polling thread *)

Definition pstep (s : pst) (a : pact) : pst :=
  if p_term s || p_ub s then s else
  match a with
  | PThread throws =>
      let at_pc pc run ub := Pst (p_started s) run pc (p_alive s) (p_callers s) false ub (p_log s) in
      match p_thread s with
      | TBegin => at_pc TCheck true false                                                  (* line 61 *)
      | TCheck => at_pc (if p_running s then TBody else TEnded) (p_running s) false        (* line 62 *)
      | TBody => at_pc (if throws then TEnded else TCheck) (p_running s) (negb (p_alive s)) (* line 63 *)
      | TNone | TEnded => s
      end
  | PCall c timedout =>
      match p_callers s !! c with
      | Some (Caller pc (o :: ops)) =>
          let goto pc' st run th al := Pst st run th al (<[c := Caller pc' (o :: ops)]> (p_callers s)) false false (p_log s) in
          let ret r st run th := Pst st run th (p_alive s) (<[c := Caller CIdle ops]> (p_callers s)) false false (p_log s ++ [(c, o, r)]) in
          let stay pc' := goto pc' (p_started s) (p_running s) (p_thread s) (p_alive s) in
          match pc, o with
          | CIdle, Start =>                                                                (* lines 22-24 *)
              if p_started s then ret Returned true (p_running s) (p_thread s) else stay CStartSet
          | CStartSet, _ => goto CStartSpawn true (p_running s) (p_thread s) (p_alive s)    (* line 25 *)
          | CStartSpawn, _ =>                                                              (* line 26 *)
              match p_thread s with
              | TNone => goto CStartWait (p_started s) (p_running s) TBegin (p_alive s)
              | _ => Pst (p_started s) (p_running s) (p_thread s) (p_alive s) (p_callers s) true false (p_log s)
                     (* assignment to a std::thread that holds a thread *)
              end
          | CStartWait, _ =>                                                               (* lines 28-34 *)
              if p_running s then ret Returned (p_started s) (p_running s) (p_thread s)
              else if timedout then ret Threw (p_started s) (p_running s) (p_thread s) else s
          | CIdle, Stop =>                                                                 (* lines 39-41 *)
              if p_started s then stay CStopClear else ret Returned (p_started s) (p_running s) (p_thread s)
          | CStopClear, _ => goto CStopJoin (p_started s) false (p_thread s) (p_alive s)    (* line 42 *)
          | CStopJoin, _ =>                                                                (* lines 43-45 *)
              match p_thread s with
              | TNone => stay CStopReset                                                   (* not joinable *)
              | TEnded => goto CStopReset (p_started s) (p_running s) TNone (p_alive s)
              | _ => s                                                                     (* join waits *)
              end
          | CStopReset, _ => ret Returned false (p_running s) (p_thread s)                 (* lines 46-48 *)
          | CIdle, Destroy =>                                (* destructor of the derived class, before line 51 *)
              goto CDestroyClear (p_started s) (p_running s) (p_thread s) false
          | CDestroyClear, _ => goto CDestroyJoin (p_started s) false (p_thread s) (p_alive s)   (* line 53 *)
          | CDestroyJoin, _ =>                                                             (* lines 54-56 *)
              match p_thread s with
              | TNone => ret Returned (p_started s) (p_running s) TNone
              | TEnded => ret Returned (p_started s) (p_running s) TNone
              | _ => s
              end
          end
      | _ => s
      end
  end.

Definition pst_new (progs : list (list pop)) : pst := Pst false false TNone true (Caller CIdle <$> progs) false false [].
Definition prun (s : pst) (acts : list pact) : pst := fold_left pstep acts s.
