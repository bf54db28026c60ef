(** * Model of kpsr::mem::MultiThreadCacheListener.
    /repo/core/modules/core/include/klepsydra/core/cache_listener.h lines 52-120, 142-198.
    Any number of threads; each method takes _mutex (lock_guard) and its body is
    executed in separate steps. Events are numbers (onEventReceived stores a
    copy, onEventReceivedRaw the pointer: the same step here). [counter] is a 32-bit int that wraps
    (std::atomic_int). totalCopyingTime is not modelled. *)
From stdpp Require Import prelude.
Local Open Scope Z_scope.

Inductive cop := Recv (e : nat) | GetLast | GetCounterAndEvent.
Definition wrap32 (z : Z) : Z := (z + 2147483648) `mod` 4294967296 - 2147483648.

Inductive cpc := Out | In (o : cop) | Half (o : cop) (n : Z) | Leaving.
(** Ghost log, in order of the effects. *)
Inductive cev := Received (e : nat) | ReadLast (e : option nat) | ReadBoth (n : Z) (e : option nat).

Record cst := Cst {
  c_last : option nat;             (* _lastReceivedEvent, null at first *)
  c_counter : Z;                   (* counter *)
  c_lock : option nat;             (* _mutex *)
  c_thr : list (cpc * list cop);   (* each thread: where it is, calls still to make *)
  c_log : list cev
}.
Definition cst_new (progs : list (list cop)) : cst := Cst None 0 None ((fun p => (Out, p)) <$> progs) [].

Definition cstep (s : cst) (t : nat) : cst :=
  let goto pc ops := <[t := (pc, ops)]> (c_thr s) in
  match c_thr s !! t with
  | Some (Out, o :: ops) =>                                        (* lock_guard, lines 161, 171, 181, 191 *)
      match c_lock s with
      | None => Cst (c_last s) (c_counter s) (Some t) (goto (In o) ops) (c_log s)
      | Some _ => s
      end
  | Some (In (Recv e), ops) =>                                     (* lines 76, 90 *)
      Cst (Some e) (c_counter s) (c_lock s) (goto (Half (Recv e) 0) ops) (c_log s)
  | Some (Half (Recv e) _, ops) =>                                 (* lines 81, 91 *)
      Cst (c_last s) (wrap32 (c_counter s + 1)) (c_lock s) (goto Leaving ops) (c_log s ++ [Received e])
  | Some (In GetLast, ops) =>                                      (* line 182 *)
      Cst (c_last s) (c_counter s) (c_lock s) (goto Leaving ops) (c_log s ++ [ReadLast (c_last s)])
  | Some (In GetCounterAndEvent, ops) =>                           (* line 192 *)
      Cst (c_last s) (c_counter s) (c_lock s) (goto (Half GetCounterAndEvent (c_counter s)) ops) (c_log s)
  | Some (Half GetCounterAndEvent n, ops) =>                       (* line 193 *)
      Cst (c_last s) (c_counter s) (c_lock s) (goto Leaving ops) (c_log s ++ [ReadBoth n (c_last s)])
  | Some (Leaving, ops) => Cst (c_last s) (c_counter s) None (goto Out ops) (c_log s)
  | _ => s
  end.
Definition crun (s : cst) (sched : list nat) : cst := fold_left cstep sched s.
