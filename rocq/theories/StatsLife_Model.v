(** * Model of the statistics of listeners and the containers that point to them.
    /repo/core/modules/core/include/klepsydra/core/safe_event_emitter.h 247-275 (addListener: the statistics object is made and attached), 88-108 (removeListener: detached, then destroyed),
      184-200 (removeAllListeners), event_emitter_subscriber.h 74 (a subscriber's destructor), core/src/core_container.cpp 36-76 (start and stop go through all statistics),
      186-216 (attach and detach of SubscriptionStats: detach erases the first entry whose name is the same, reading the names on the way);
    /repo/high_performance/modules/high_performance/include/klepsydra/high_performance/event_loop_function_exec_listener.h 70-80 (the executor of an event loop's scheduler: its destructor removes
      the listener from the container it knows, setContainer attaches its statistics), event_loop_middleware_provider.h 186-213 (setContainer of a provider with nothing but a scheduler calls that of the executor).
    A container holds plain pointers, a listener owns its statistics object (shared with no one who keeps it). A listener is named by the order of its registration over all emitters: (emitter, id) is in
    bijection with it for fewer than 2^32 registrations. The calls are sequential.
    Simplifications: the name of a statistics object is computed by the SDK, which is not in the repository, from event and listener name: here the name is given with the registration;
    once listeners have no statistics and are left out; only subscription statistics (publication and function statistics: Container_Model.v). *)
From stdpp Require Import prelude strings gmap.
Local Open Scope list_scope.

Record lsn := Lsn { l_no : nat (* which registration *); l_em : nat (* of which emitter *); l_name : string (* of its statistics *) }.
Record slst := Slst {
  sl_next : nat;
  sl_live : list lsn;                          (* the registered listeners: their statistics objects exist *)
  sl_held : gmap nat (list (nat * string));    (* _subscriptionStats of each container: which object, and the name it had *)
  sl_ub : bool                                 (* a container used a pointer to a destroyed object *)
}.
Definition sl_new : slst := Slst 0 [] ∅ false.
Inductive slop :=
| LOn (em : nat) (c : option nat) (n : string)      (* emitter.on(container, ...): [None] is a null pointer *)
| LRemove (i : nat) (c : option nat)                (* removeListener(container, id) *)
| LRemoveAll (em : nat) (c : option nat)            (* removeAllListeners(container); the destructor of a subscriber or provider *)
| LSetContainer (i : nat) (c : nat)                 (* setContainer of the owner of listener i *)
| LStartStop (c : nat).                             (* container.start() or stop() *)
Definition alive (ls : list lsn) (i : nat) : bool := existsb (fun l => Nat.eqb (l_no l) i) ls.
(** CoreContainer::attach, 186-200. *)
Definition attach (c i : nat) (n : string) (h : gmap nat (list (nat * string))) : gmap nat (list (nat * string)) := <[c := h !!! c ++ [(i, n)]]> h.
(** find_if of CoreContainer::detach, 207-215: the entries left, and whether the name of a destroyed object was read. *)
Fixpoint erase_name (ls : list lsn) (n : string) (l : list (nat * string)) : list (nat * string) * bool :=
  match l with
  | [] => ([], false)
  | (i, m) :: l' =>
      if negb (alive ls i) then ((i, m) :: l', true)
      else if String.eqb m n then (l', false)
      else let '(l'', u) := erase_name ls n l' in ((i, m) :: l'', u)
  end.
Definition detach (s : slst) (c : option nat) (n : string) : slst :=
  match c with
  | None => s
  | Some c => let '(l, u) := erase_name (sl_live s) n (sl_held s !!! c) in Slst (sl_next s) (sl_live s) (<[c := l]> (sl_held s)) (sl_ub s || u)
  end.
Definition drop (p : lsn -> bool) (s : slst) : slst := Slst (sl_next s) (List.filter (fun l => negb (p l)) (sl_live s)) (sl_held s) (sl_ub s).
Definition sl_step (s : slst) (o : slop) : slst :=
  match o with
  | LOn em c n =>
      let i := sl_next s in
      Slst (S i) (sl_live s ++ [Lsn i em n]) (match c with Some c => attach c i n (sl_held s) | None => sl_held s end) (sl_ub s)
  | LRemove i c =>
      match List.find (fun l => Nat.eqb (l_no l) i) (sl_live s) with
      | Some l => drop (fun x => Nat.eqb (l_no x) i) (detach s c (l_name l))
      | None => s                                                               (* throws std::invalid_argument *)
      end
  | LRemoveAll em c =>
      let mine := List.filter (fun l => Nat.eqb (l_em l) em) (sl_live s) in
      drop (fun x => Nat.eqb (l_em x) em) (fold_left (fun s l => detach s c (l_name l)) mine s)
  | LSetContainer i c =>
      match List.find (fun l => Nat.eqb (l_no l) i) (sl_live s) with
      | Some l => Slst (sl_next s) (sl_live s) (attach c i (l_name l) (sl_held s)) (sl_ub s)
      | None => s
      end
  | LStartStop c => Slst (sl_next s) (sl_live s) (sl_held s) (sl_ub s || existsb (fun x => negb (alive (sl_live s) x.1)) (sl_held s !!! c))
  end.
Definition sl_run (os : list slop) : slst := fold_left sl_step os sl_new.
