(** * Model of several consumers that share one blocking wait strategy.
    /repo/high_performance/modules/high_performance/include/klepsydra/high_performance/disruptor4cpp/wait_strategies/
      blocking_wait_strategy.h 63-88, timeout_blocking_wait_strategy.h 66-94, lite_blocking_wait_strategy.h 67-98;
      disruptor4cpp/sequence_barrier.h 82-104, batch_event_processor.h 95-146 (halt, run).
    The data multiplexer has one ring, one wait strategy and one consumer thread per subscriber: all of them wait on one mutex, one condition variable and (lite) one signal_needed_.
    Any number of consumers, and of other threads that publish events and halt consumers. One step is one access to shared memory, or the whole critical section of the signalling side.
    Simplifications: memory is sequentially consistent (C59 has the store buffer); the cursor is the number of the last published event (one sequence per publication);
    no dependencies between consumers; a consumer whose alert is set ends (halt() clears running_ before it sets the alert); the handler returns normally or throws a std::exception, which is the same here. *)
From stdpp Require Import prelude list_numbers.
Local Open Scope Z_scope.
Inductive wstrat := WBlocking | WTimeoutBlocking | WLite.
Inductive kpc :=
| KCheck                     (* sequence_barrier.h 84 *)
| KFast                      (* the first read of the cursor: blocking 70, lite 74 *)
| KLock                      (* blocking 71, lite 75 *)
| KNeed                      (* lite 77 *)
| KCur                       (* blocking 72, lite 78 *)
| KAl                        (* check_alert: blocking 73, lite 81 *)
| KSleep                     (* wait: releases the mutex and sleeps, blocking 74, lite 82 *)
| KAsleep (woken : bool)
| KRelock (timeout : bool)
| KCur2                      (* lite 83 *)
| KDep                       (* blocking 78, lite 86 *)
| KHandle (nx avail : Z)     (* batch_event_processor.h 118-125 *)
| KStopped.
Record kcons := Kcons { k_pc : kpc; k_next : Z; k_alert : bool; k_log : list Z }.
Inductive wop2 := WPublish | WHalt (c : nat).
Inductive spc := SIdle | SExch | SSig.
Record wm := Wm { wm_needed : bool; wm_owner : option nat; wm_cursor : Z; wm_cons : list kcons; wm_callers : list (spc * list wop2) }.
Definition k_goto (k : kcons) (p : kpc) : kcons := Kcons p (k_next k) (k_alert k) (k_log k).
Definition wm_set (s : wm) (c : nat) (needed : bool) (owner : option nat) (k : kcons) : wm :=
  Wm needed owner (wm_cursor s) (<[c := k]> (wm_cons s)) (wm_callers s).
Definition cons_step (g : wstrat) (s : wm) (c : nat) (k : kcons) (spurious timeout : bool) : wm :=
  let goto p := wm_set s c (wm_needed s) (wm_owner s) (k_goto k p) in
  let unlock p := wm_set s c (wm_needed s) None (k_goto k p) in
  match k_pc k with
  | KCheck => if k_alert k then goto KStopped else goto KFast
  | KFast => if wm_cursor s <? k_next k then goto KLock else goto KDep
  | KLock => match wm_owner s with
             | None => wm_set s c (wm_needed s) (Some c) (k_goto k (match g with WLite => KNeed | _ => KCur end))
             | Some _ => s
             end
  | KNeed => wm_set s c true (wm_owner s) (k_goto k KCur)
  | KCur => if wm_cursor s <? k_next k then goto KAl else unlock KDep
  | KAl => if k_alert k then unlock KStopped else goto KSleep
  | KSleep => unlock (KAsleep false)
  | KAsleep woken => if woken || spurious then goto (KRelock false)
                     else if timeout then match g with WTimeoutBlocking => goto (KRelock true) | _ => s end else s
  | KRelock late => match wm_owner s with
                    | None => if late then goto KCheck                                 (* timeout_exception: the mutex is taken and released *)
                              else wm_set s c (wm_needed s) (Some c) (k_goto k (match g with WLite => KCur2 | _ => KCur end))
                    | Some _ => s
                    end
  | KCur2 => if wm_cursor s <? k_next k then goto KNeed else unlock KDep
  | KDep => if wm_cursor s <? k_next k then s else goto (KHandle (k_next k) (wm_cursor s))
  | KHandle nx avail =>
      if nx <=? avail then wm_set s c (wm_needed s) (wm_owner s) (Kcons (KHandle (nx + 1) avail) (nx + 1) (k_alert k) (k_log k ++ [nx]))
      else goto KCheck
  | KStopped => s
  end.
Definition sig_start (g : wstrat) : spc := match g with WLite => SExch | _ => SSig end.
Definition wake_k (k : kcons) : kcons := match k_pc k with KAsleep _ => k_goto k (KAsleep true) | _ => k end.
Definition set_alert (k : kcons) : kcons := Kcons (k_pc k) (k_next k) true (k_log k).
Definition caller_step (g : wstrat) (s : wm) (t : nat) (c : spc * list wop2) : wm :=
  match c with
  | (SIdle, []) => s
  | (SIdle, WPublish :: r) => Wm (wm_needed s) (wm_owner s) (wm_cursor s + 1) (wm_cons s) (<[t := (sig_start g, r)]> (wm_callers s))
  | (SIdle, WHalt i :: r) => Wm (wm_needed s) (wm_owner s) (wm_cursor s) (alter set_alert i (wm_cons s)) (<[t := (sig_start g, r)]> (wm_callers s))
  | (SExch, r) => Wm false (wm_owner s) (wm_cursor s) (wm_cons s) (<[t := (if wm_needed s then SSig else SIdle, r)]> (wm_callers s))    (* lite 94 *)
  | (SSig, r) =>                                                                                                                       (* blocking 86-87, lite 95-96 *)
      match wm_owner s with
      | Some _ => s
      | None => Wm (wm_needed s) None (wm_cursor s) (wake_k <$> wm_cons s) (<[t := (SIdle, r)]> (wm_callers s))
      end
  end.
Inductive wmact := WCons (c : nat) (spurious timeout : bool) | WCall (t : nat).
Definition wm_step (g : wstrat) (s : wm) (a : wmact) : wm :=
  match a with
  | WCons c sp ti => match wm_cons s !! c with Some k => cons_step g s c k sp ti | None => s end
  | WCall t => match wm_callers s !! t with Some c => caller_step g s t c | None => s end
  end.
Definition wm_run (g : wstrat) (s : wm) (acts : list wmact) : wm := fold_left (wm_step g) acts s.
Definition wm_new (ncons : nat) (progs : list (list wop2)) : wm := Wm false None (-1) (replicate ncons (Kcons KCheck 0 false [])) ((fun p => (SIdle, p)) <$> progs).
