(** * Model of the statistics of a pooled publisher: several publishing threads, cloners that throw.
    /repo/core/modules/core/include/klepsydra/core/object_pool_publisher.h 60-66, 82-97 (publish with a pool),
    /repo/core/modules/core/include/klepsydra/core/smart_object_pool.h 113-127 (acquire), 142 (objectPoolFails, a plain long),
    publicationStats._totalEventAllocations (a plain counter of the SDK).
    [x++] on a plain counter is a read and a write, in two steps. Getting an object from the pool and giving one back are single steps (the lock-free stack is
    LockFreeStack_Model.v, LfsWeak_Model.v); an object got from the pool is cloned into in the same step. A cloner returns, throws std::out_of_range, or throws something else.
    The handler of line 86 catches std::out_of_range from line 84 (acquire) and from line 85 (the cloner).
    Simplifications: counters are unbounded; the content of events is left out (SmartObjectPool_Model.v). *)
From stdpp Require Import prelude.
Inductive cloner := ClOk | ClRange | ClOther.
Inductive ppc := PcIdle
  | PcFail | PcFailW (v : nat)                 (* smart_object_pool.h 118: before the read, before the write *)
  | PcAlloc | PcAllocW (v : nat)               (* object_pool_publisher.h 90 *)
  | PcClone.                                   (* 92 *)
(** Log: a call found the pool empty; the cloner threw out_of_range on a pooled object; an event was handed on, in a pooled or in a new object; publish threw; a counter was incremented. *)
Inductive pev := VEmpty | VThrew | VPooled | VFresh | VRaised | VFails | VAllocs.
Record pcst := Pcst {
  pc_free : nat;              (* objects in the pool *)
  pc_held : nat;              (* pooled objects held by receivers *)
  pc_fails : nat;             (* objectPoolFails *)
  pc_allocs : nat;            (* _totalEventAllocations *)
  pc_thr : list ppc;
  pc_log : list pev
}.
Inductive pcact := PcStep (t : nat) (o : cloner) | PcRelease.
Definition pc_goto (s : pcst) (t : nat) (p : ppc) (l : list pev) : pcst := Pcst (pc_free s) (pc_held s) (pc_fails s) (pc_allocs s) (<[t := p]> (pc_thr s)) (pc_log s ++ l).
Definition pc_step (s : pcst) (a : pcact) : pcst :=
  match a with
  | PcRelease => match pc_held s with S h => Pcst (S (pc_free s)) h (pc_fails s) (pc_allocs s) (pc_thr s) (pc_log s) | 0 => s end
  | PcStep t o =>
      match pc_thr s !! t with
      | Some PcIdle =>                                                                              (* publish: 84-86 *)
          match pc_free s with
          | S f => match o with
                   | ClOk => Pcst f (S (pc_held s)) (pc_fails s) (pc_allocs s) (pc_thr s) (pc_log s ++ [VPooled])
                   | ClRange => pc_goto s t PcAlloc [VThrew]                                       (* newEvent is destroyed: the object is back in the pool *)
                   | ClOther => pc_goto s t PcIdle [VRaised]                                       (* the same, and the exception goes on *)
                   end
          | 0 => pc_goto s t PcFail [VEmpty]
          end
      | Some PcFail => pc_goto s t (PcFailW (pc_fails s)) []
      | Some (PcFailW v) => Pcst (pc_free s) (pc_held s) (S v) (pc_allocs s) (<[t := PcAlloc]> (pc_thr s)) (pc_log s ++ [VFails])
      | Some PcAlloc => pc_goto s t (PcAllocW (pc_allocs s)) []
      | Some (PcAllocW v) => Pcst (pc_free s) (pc_held s) (pc_fails s) (S v) (<[t := PcClone]> (pc_thr s)) (pc_log s ++ [VAllocs])
      | Some PcClone => pc_goto s t PcIdle [match o with ClOk => VFresh | _ => VRaised end]        (* 91-93 *)
      | None => s
      end
  end.
Definition pc_new (size threads : nat) : pcst := Pcst size 0 0 size (replicate threads PcIdle) [].
Definition pc_run (size threads : nat) (acts : list pcact) : pcst := fold_left pc_step acts (pc_new size threads).
