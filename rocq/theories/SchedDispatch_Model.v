(** * Model of an event loop provider that has subscribers and a scheduler: which objects an event or a scheduled function reaches.
    /repo/high_performance/modules/high_performance/include/klepsydra/high_performance/
      event_loop_middleware_provider.h 136-155 (getSubscriber), 161-178 (getScheduler: the entry of the map is overwritten, the object that was there is destroyed),
      event_loop_subscriber.h 59-76 (constructor and destructor: the listener of the provider's emitter), event_loop_function_exec_listener.h 49-72 (the same for the executor),
      event_loop_event_handler.h 75-85 (an event is emitted under its name + "_external").
    The provider's emitter is that of Subscriber_Model.v, of the type given to the constructor. A callback of that emitter carries the number of the object that registered it.
    Simplifications: the calls are sequential; what a subscriber does with the event is ElDispatch_Model.v, the ring and the threads are EventLoop_Model.v and LoopSched_Model.v;
    the pointers handed out are not used again by the caller (Provider_Model.v: dangling and wrongly typed pointers). *)
From stdpp Require Import prelude strings gmap.
From Verif Require Import Subscriber_Model ElDispatch_Model.
Local Open Scope string_scope.
Local Open Scope list_scope.

(** What an event reaches: the subscriber of a name, the executor of scheduled functions, an object that does not exist any more. *)
Inductive owner := OSub (n : string) | OExec | ODead.
Record sobj := Sobj { so_name : string; so_exec : bool; so_id : Z (* _listenerId *); so_alive : bool }.
Record sdst := Sdst {
  sd_cont : bool;                    (* a container was given *)
  sd_ext : emitter;                  (* _externalEventEmitter *)
  sd_objs : list sobj;               (* the subscribers and the executor, in the order of their creation *)
  sd_map : gmap string nat;          (* _subscriberMap *)
  sd_sched : option string;          (* _scheduler: the name under which it publishes *)
  sd_threw : bool                    (* a destructor threw: std::terminate *)
}.
Definition sd_new (c : bool) (k : kind) : sdst := Sdst c (emitter_new k) [] ∅ None false.
Inductive sdcall :=
| XGet (n : string)                  (* getSubscriber(n) *)
| XSched (n : string)                (* getScheduler(n); the empty name stands for the default one: sched_name of Provider_Model.v *)
| XEvent (n : string)                (* an event published under n is handled by the loop *)
| XTask.                             (* a function published by the scheduler is handled by the loop *)
(** The constructor of a subscriber or executor, and storing it in the map. *)
Definition sd_create (s : sdst) (n : string) (exec : bool) : sdst :=
  let '(e, id) := em_on (sd_cont s) (ext n) (ext n) (length (sd_objs s)) (sd_ext s) in
  Sdst (sd_cont s) e (sd_objs s ++ [Sobj n exec id true]) (<[n := length (sd_objs s)]> (sd_map s)) (sd_sched s) (sd_threw s).
(** The destructor of object [i]. *)
Definition sd_destroy (s : sdst) (i : nat) : sdst :=
  match sd_objs s !! i with
  | Some o => let objs := <[i := Sobj (so_name o) (so_exec o) (so_id o) false]> (sd_objs s) in
              match em_remove (sd_cont s) (so_id o) (sd_ext s) with
              | Some e => Sdst (sd_cont s) e objs (sd_map s) (sd_sched s) (sd_threw s)
              | None => Sdst (sd_cont s) (sd_ext s) objs (sd_map s) (sd_sched s) true
              end
  | None => s
  end.
Definition owner_of (objs : list sobj) (i : nat) : owner :=
  match objs !! i with Some (Sobj n ex _ true) => if ex then OExec else OSub n | _ => ODead end.
(** on_event: the callbacks of the provider's emitter; an exception of the emitter itself reaches nobody. *)
Definition sd_emit (s : sdst) (n : string) : sdst * list owner :=
  let '(e, r) := em_emit (ext n) (sd_ext s) in
  (Sdst (sd_cont s) e (sd_objs s) (sd_map s) (sd_sched s) (sd_threw s), owner_of (sd_objs s) <$> default [] r).
Definition sd_call (s : sdst) (c : sdcall) : sdst * list owner :=
  match c with
  | XGet n => (match sd_map s !! n with Some _ => s | None => sd_create s n false end, [])
  | XSched n =>
      match sd_sched s with
      | Some _ => (s, [])
      | None =>
          let s1 := sd_create s n true in                                              (* 165-168 *)
          let s2 := match sd_map s !! n with Some i => sd_destroy s1 i | None => s1 end in   (* 170: the assignment drops the last reference *)
          (Sdst (sd_cont s2) (sd_ext s2) (sd_objs s2) (sd_map s2) (Some n) (sd_threw s2), [])
      end
  | XEvent n => sd_emit s n
  | XTask => match sd_sched s with Some n => sd_emit s n | None => (s, []) end
  end.
Fixpoint sd_calls (s : sdst) (cs : list sdcall) : sdst * list (list owner) :=
  match cs with
  | [] => (s, [])
  | c :: cs' => let '(s', r) := sd_call s c in let '(s'', l) := sd_calls s' cs' in (s'', r :: l)
  end.
