(** * Model of the waits that spin.
    /repo/high_performance/modules/high_performance/include/klepsydra/high_performance/disruptor4cpp/wait_strategies/
      busy_spin_wait_strategy.h 57-67, yielding_wait_strategy.h 60-73, 83-92 ([SpinTries], 100 by default), sleeping_wait_strategy.h 61-74, 85-97 ([Retries], 200 by default).
    One step is one turn of the loop: the dependent sequences are read; if that is not enough, check_alert is called, which throws if the barrier is alerted, and then the thread pauses.
    The environment gives what each turn reads. The pauses are recorded. [counter] is an int; for counts that start above 0 it never leaves the range of int, because it never goes below 0. *)
From stdpp Require Import prelude.
Local Open Scope Z_scope.
Inductive spin := Busy | Yielding (tries : Z) | Sleeping (retries : Z).
Inductive pause := PSpin | PYield | PSleep.
Record turn := Turn { tu_value : Z; tu_alerted : bool }.
Inductive wout := WGoing (counter : Z) (pauses : list pause) | WReturned (v : Z) | WAlert.
Definition w_start (g : spin) : wout := WGoing (match g with Busy => 0 | Yielding n => n | Sleeping n => n end) [].
Definition pause_of (g : spin) (counter : Z) : Z * pause :=
  match g with
  | Busy => (counter, PSpin)
  | Yielding _ => if counter =? 0 then (counter, PYield) else (counter - 1, PSpin)                          (* yielding 87-91 *)
  | Sleeping _ => if 100 <? counter then (counter - 1, PSpin) else if 0 <? counter then (counter - 1, PYield) else (counter, PSleep)   (* sleeping 89-96 *)
  end.
Definition w_turn (g : spin) (seq : Z) (o : wout) (i : turn) : wout :=
  match o with
  | WGoing counter pauses =>
      if seq <=? tu_value i then WReturned (tu_value i)
      else if tu_alerted i then WAlert
      else let '(c, p) := pause_of g counter in WGoing c (pauses ++ [p])
  | _ => o
  end.
Definition w_wait (g : spin) (seq : Z) (ins : list turn) : wout := fold_left (w_turn g seq) ins (w_start g).
