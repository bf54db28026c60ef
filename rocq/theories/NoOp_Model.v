(** * Model of no_op_event_processor.
    /repo/high_performance/modules/high_performance/include/klepsydra/high_performance/disruptor4cpp/no_op_event_processor.h 72-121, sequence_barrier.h 82-111.
    One thread calls run(); others publish, call halt(), and may alert the barrier themselves (sequence_barrier::alert, which halt() here does not do). One step is one access to shared
    memory. Simplifications: the wait strategy is a retry that tests the alert (sequence_barrier.h 84 and the strategies); publications are one at a time. *)
From stdpp Require Import prelude.
Local Open Scope Z_scope.
Inductive npc :=
| NCas                     (* 83-85 *)
| NClear                   (* 89 *)
| NCheck                   (* wait_for: check_alert *)
| NRead                    (* wait_for: the cursor *)
| NSet (avail : Z)         (* 95-98 *)
| NAlerted                 (* 100-102 *)
| NStop                    (* 112 *)
| NDone
| NThrew.                  (* 85: already running *)
Record nst := Nst { n_running : bool; n_alerted : bool; n_cursor : Z; n_seq : Z; n_next : Z; n_pc : npc }.
Inductive nact := NRun | NPublish | NHalt (* 75 *) | NAlert (* sequence_barrier.h 99-103 *).
Definition n_new : nst := Nst false false (-1) (-1) 0 NCas.
Definition n_step (s : nst) (a : nact) : nst :=
  match a with
  | NRun =>
      match n_pc s with
      | NCas => if n_running s then Nst true (n_alerted s) (n_cursor s) (n_seq s) (n_next s) NThrew else Nst true (n_alerted s) (n_cursor s) (n_seq s) (n_next s) NClear
      | NClear => Nst (n_running s) false (n_cursor s) (n_seq s) (n_seq s + 1) NCheck
      | NCheck => Nst (n_running s) (n_alerted s) (n_cursor s) (n_seq s) (n_next s) (if n_alerted s then NAlerted else NRead)
      | NRead => Nst (n_running s) (n_alerted s) (n_cursor s) (n_seq s) (n_next s) (if n_cursor s <? n_next s then NCheck else NSet (n_cursor s))
      | NSet avail => Nst (n_running s) (n_alerted s) (n_cursor s) avail (Z.max (n_next s) (avail + 1)) NCheck
      | NAlerted => Nst (n_running s) (n_alerted s) (n_cursor s) (n_seq s) (n_next s) (if n_running s then NCheck else NStop)
      | NStop => Nst false (n_alerted s) (n_cursor s) (n_seq s) (n_next s) NDone
      | NDone | NThrew => s
      end
  | NPublish => Nst (n_running s) (n_alerted s) (n_cursor s + 1) (n_seq s) (n_next s) (n_pc s)
  | NHalt => Nst false (n_alerted s) (n_cursor s) (n_seq s) (n_next s) (n_pc s)
  | NAlert => Nst (n_running s) true (n_cursor s) (n_seq s) (n_next s) (n_pc s)
  end.
Definition n_run (acts : list nact) : nst := fold_left n_step acts n_new.
