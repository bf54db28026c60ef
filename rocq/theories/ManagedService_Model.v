(** * Model of ManagedService.
    /repo/core/modules/core/include/klepsydra/core/manage_service.h 53-82, system_event.h 32-38.
    startup() and shutdown() belong to Service in the SDK (not in the repository): the model records that they are called. The subscriber given to the constructor
    calls the registered listeners in order of registration for every event (what C06 and C28 state of the subscribers here); services have different names.
    The destructor (68) does not unregister the listener. *)
From stdpp Require Import prelude.

(** system_event.h 32-38; a value outside the enumerators is possible too (the type is an unscoped enum). *)
Definition ev_start : nat := 0.
Definition ev_stop : nat := 1.
Inductive mcall := MStartup (svc : nat) | MShutdown (svc : nat) | MDeadCall (svc : nat).   (* MDeadCall: the listener of a destroyed service runs *)
Record mst := Mst { ms_count : nat; ms_listeners : list nat; ms_dead : list nat; ms_log : list mcall }.
Inductive mact := MNew (subscriber : bool) | MDestroy (svc : nat) | MEvent (e : nat).
(** Lines 71-82. *)
Definition on_system_message (svc e : nat) : list mcall := if decide (e = ev_start) then [MStartup svc] else if decide (e = ev_stop) then [MShutdown svc] else [].
Definition ms_deliver (dead : list nat) (e svc : nat) : list mcall := if decide (svc ∈ dead) then [MDeadCall svc] else on_system_message svc e.
Definition ms_step (s : mst) (a : mact) : mst :=
  match a with
  | MNew sub => (* 53-66 *) Mst (S (ms_count s)) (if sub then ms_listeners s ++ [ms_count s] else ms_listeners s) (ms_dead s) (ms_log s)
  | MDestroy i => if decide (i < ms_count s) then Mst (ms_count s) (ms_listeners s) (i :: ms_dead s) (ms_log s) else s
  | MEvent e => Mst (ms_count s) (ms_listeners s) (ms_dead s) (ms_log s ++ (ms_listeners s ≫= ms_deliver (ms_dead s) e))
  end.
Definition ms_run (acts : list mact) : mst := fold_left ms_step acts (Mst 0 [] [] []).
