(** * Model of phased_backoff_wait_strategy::wait_for.
    /repo/high_performance/modules/high_performance/include/klepsydra/high_performance/disruptor4cpp/wait_strategies/phased_backoff_wait_strategy.h 66-98.
    One step is one turn of the loop. The environment gives, for each turn, the value the dependent sequences have (dependent_sequence.get(), 76), what the system clock shows (82, 85; nanoseconds since
    its epoch, read in some turns only), and whether the barrier is alerted at that time, which the loop does not look at. [tries] is SPIN_TRIES (10000). The yield is no step.
    The fallback strategy is one of those in Halt_Model.v. *)
From stdpp Require Import prelude.
Local Open Scope Z_scope.
Record pin := Pin { pin_value : Z; pin_clock : Z; pin_alerted : bool }.
Inductive pout := PGoing (counter : nat) (start : Z) | PReturned (v : Z) | PFellBack.
Definition p_turn (tries : nat) (yield_ns seq : Z) (o : pout) (i : pin) : pout :=
  match o with
  | PGoing counter start =>
      if seq <=? pin_value i then PReturned (pin_value i)                                        (* 76-77 *)
      else match counter with
           | S (S c) => PGoing (S c) start                                                       (* 79-80 *)
           | _ => if start =? 0 then PGoing tries (pin_clock i)                                  (* 81-82, 95 *)
                  else if yield_ns <? pin_clock i - start then PFellBack                         (* 84-92 *)
                  else PGoing tries start                                                        (* 93-95 *)
           end
  | _ => o
  end.
Definition p_wait (tries : nat) (yield_ns seq : Z) (ins : list pin) : pout := fold_left (p_turn tries yield_ns seq) ins (PGoing tries 0).
