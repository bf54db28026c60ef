(** * Model of how the event loop reaches the subscribers of a name, for every type of the provider's own emitter.
    /repo/high_performance/modules/high_performance/include/klepsydra/high_performance/
      event_loop_middleware_provider.h 76-89 (the provider's emitter, of the type given to its constructor), 136-155 (getSubscriber),
      event_loop_subscriber.h 52-74 (a subscriber registers itself with that emitter under its name + "_external"; it has an emitter of its own),
      event_loop_event_handler.h 75-85 (an event is emitted under its name + "_external").
    Emitters and subscribers are those of Subscriber_Model.v. Simplifications: the calls are sequential (concurrent ones: EventLoop_Model.v); listeners do not call back
    into the provider and do not throw; the scheduler's listener is left out; subscribers live as long as the provider; the ring is left out ([PEvent] is on_event of
    the loop, in the order of publication: C14, C103). *)
From stdpp Require Import prelude strings gmap.
From Verif Require Import Subscriber_Model.
Local Open Scope string_scope.
Local Open Scope list_scope.

Definition ext (n : string) : string := n +:+ "_external".
Record dprov := Dprov {
  dp_cont : bool;                    (* a container was given to the provider *)
  dp_ext : emitter;                  (* _externalEventEmitter; the number of a callback is the index of the subscriber *)
  dp_subs : list subscriber;         (* the EventLoopSubscriber objects, in the order of their creation *)
  dp_map : gmap string nat           (* _subscriberMap *)
}.
Definition dp_new (c : bool) (k : kind) : dprov := Dprov c (emitter_new k) [] ∅.
(** Calls: getSubscriber(name, type of its emitter); registerListener, removeListener and getSubscriptionStats on the subscriber of a name; an event of a name is handled. *)
Inductive pcall := PGet (n : string) (k : kind) | PReg (n l : string) (cb : nat) | PRemove (n l : string) | PStats (n l : string) | PEvent (n : string).
(** A call on the subscriber of name [n]; without getSubscriber(n) before it there is no such object. *)
Definition on_sub (s : dprov) (n : string) (o : sop) : dprov * sres :=
  match dp_map s !! n with
  | Some i => match dp_subs s !! i with
              | Some b => let '(b', r) := sub_step b o in (Dprov (dp_cont s) (dp_ext s) (<[i := b']> (dp_subs s)) (dp_map s), r)
              | None => (s, RNone)
              end
  | None => (s, RNone)
  end.
(** The callbacks of the provider's emitter, event_loop_subscriber.h 61-67: each emits the event on its subscriber's own emitter; an exception ends it. *)
Fixpoint deliver (subs : list subscriber) (is : list nat) (called : list nat) : list subscriber * sres :=
  match is with
  | [] => (subs, RCalled called)
  | i :: is' =>
      match subs !! i with
      | Some b => match sub_step b SubPublish with
                  | (b', RCalled l) => deliver (<[i := b']> subs) is' (called ++ l)
                  | (b', r) => (<[i := b']> subs, r)
                  end
      | None => (subs, RBroken)
      end
  end.
Definition p_call (s : dprov) (c : pcall) : dprov * sres :=
  match c with
  | PGet n k =>                                                                      (* provider 139-153 *)
      match dp_map s !! n with
      | Some _ => (s, RNone)
      | None => let i := length (dp_subs s) in
                (Dprov (dp_cont s) (em_on (dp_cont s) (ext n) (ext n) i (dp_ext s)).1 (dp_subs s ++ [sub_new k (dp_cont s) n]) (<[n := i]> (dp_map s)), RNone)
      end
  | PReg n l cb => on_sub s n (SubReg l cb)
  | PRemove n l => on_sub s n (SubRemove l)
  | PStats n l => on_sub s n (SubStats l)
  | PEvent n =>                                                                      (* on_event *)
      let '(e', r) := em_emit (ext n) (dp_ext s) in
      match r with
      | Some is => let '(subs', r') := deliver (dp_subs s) is [] in (Dprov (dp_cont s) e' subs' (dp_map s), r')
      | None => (Dprov (dp_cont s) e' (dp_subs s) (dp_map s), RBroken)
      end
  end.
Fixpoint p_calls (s : dprov) (cs : list pcall) : dprov * list sres :=
  match cs with
  | [] => (s, [])
  | c :: cs' => let '(s', r) := p_call s c in let '(s'', l) := p_calls s' cs' in (s'', r :: l)
  end.
