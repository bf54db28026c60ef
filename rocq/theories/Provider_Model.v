(** * Model of EventLoopMiddlewareProvider's access by name.
    /repo/high_performance/modules/high_performance/include/klepsydra/high_performance/event_loop_middleware_provider.h 102-178, 216-224.
    Objects are numbered; an object has the type it was created with. The pointer a request returns has the type written in the request:
    static_pointer_cast checks nothing, so the model returns the object's true type beside it.
    Not modelled: the constructor arguments of publishers (pool size, initialiser, cloner, unsafe mode: those of the first request stay), setContainer,
    the standard library's map (total order of names), calls from several threads (the maps have no mutex). *)
From stdpp Require Import prelude gmap strings.

(** What was really created: EventLoopPublisher<T>, EventLoopSubscriber<T>, or the EventLoopFunctionExecutorListener of the scheduler (no Subscriber at all:
    event_loop_function_exec_listener.h 40). The type std::function<void()> is number 0. *)
Inductive pkind := KPublisher (t : nat) | KSubscriber (t : nat) | KExecutor.
Inductive preq := GetPublisher (t : nat) (name : string) | GetSubscriber (t : nat) (name : string) | GetScheduler (name : string).
(** Answers: the object whose address is returned. The scheduler's answer is the object it will publish through. *)
Record pst := Pst {
  p_pubs : gmap string nat;          (* _publisherMap *)
  p_subs : gmap string nat;          (* _subscriberMap *)
  p_sched : option nat;              (* _scheduler: the publisher it holds *)
  p_objs : gmap nat pkind;           (* the live objects *)
  p_next : nat                       (* ghost: next object number *)
}.
Definition p_init : pst := Pst ∅ ∅ None ∅ 0.
Definition fn_type : nat := 0.
(** Lines 108-128. *)
Definition get_publisher (s : pst) (t : nat) (name : string) : pst * nat :=
  match p_pubs s !! name with
  | Some o => (s, o)
  | None => (Pst (<[name := p_next s]> (p_pubs s)) (p_subs s) (p_sched s) (<[p_next s := KPublisher t]> (p_objs s)) (S (p_next s)), p_next s)
  end.
(** Lines 136-155. *)
Definition get_subscriber (s : pst) (t : nat) (name : string) : pst * nat :=
  match p_subs s !! name with
  | Some o => (s, o)
  | None => (Pst (p_pubs s) (<[name := p_next s]> (p_subs s)) (p_sched s) (<[p_next s := KSubscriber t]> (p_objs s)) (S (p_next s)), p_next s)
  end.
(** Lines 161-178. operator= on the map entry destroys the shared_ptr that was there, and with it the object (the map held the only reference). *)
Definition sched_name (name : string) : string := if decide (name = "") then "EVENTLOOP_SCHEDULER" else name.
Definition get_scheduler (s : pst) (name : string) : pst * nat :=
  match p_sched s with
  | Some o => (s, o)
  | None =>
      let n := sched_name name in
      let objs := match p_subs s !! n with Some old => delete old (p_objs s) | None => p_objs s end in
      let s1 := Pst (p_pubs s) (<[n := p_next s]> (p_subs s)) (p_sched s) (<[p_next s := KExecutor]> objs) (S (p_next s)) in
      let '(s2, o) := get_publisher s1 fn_type n in
      (Pst (p_pubs s2) (p_subs s2) (Some o) (p_objs s2) (p_next s2), o)
  end.
Definition p_step (s : pst) (r : preq) : pst * nat :=
  match r with
  | GetPublisher t n => get_publisher s t n
  | GetSubscriber t n => get_subscriber s t n
  | GetScheduler n => get_scheduler s n
  end.
(** A program: the last state, and the requests with their answers. *)
Definition p_trans (sl : pst * list (preq * nat)) (r : preq) : pst * list (preq * nat) :=
  let '(s', o) := p_step (fst sl) r in (s', snd sl ++ [(r, o)]).
Definition p_run (rs : list preq) : pst * list (preq * nat) := fold_left p_trans rs (p_init, []).
