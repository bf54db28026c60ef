(** * Model of the state machine, its factory and its listener.
    /repo/state_machine/modules/state_machine/src/state_machine_impl.cpp 20-98, sm_factory_impl.cpp 27-45,
    state_impl.cpp, transition_impl.cpp, state_machine_listener.cpp 20-93, include/klepsydra/state_machine/config_state_machine.h 25-41.
    A state machine has no lock: one thread uses it. Observers are arbitrary code that may call the machine again
    from inside a notification: the call stack is explicit. Strings are the strings of the code.
    Simplifications: observers and actions do not throw; observers are numbered and what they do is a function of everything they could have seen
    (the notifications so far). Reading the JSON description (cereal) is not modelled. *)
From stdpp Require Import prelude strings gmap.
Local Open Scope string_scope.
Local Open Scope list_scope.

(** config_state_machine.h *)
Record ctrans := CTrans { ct_dest : string; ct_event : string }.
Record cstate := CState { cs_id : string; cs_trans : list ctrans }.
Record config := Config { cf_id : string; cf_states : list cstate }.

(** The calls of the interface state_machine.h. *)
Inductive call := Start | Stop | Reset | Update | Enqueue (e : string) | EnqueueAndUpdate (e : string) | Register (o : nat) | Unregister.
(** A notification: which observer was called, with which arguments. *)
Record note := Note { n_obs : nat; n_state : string; n_changed : bool }.

Inductive frame :=
| FCalls (cs : list call)                 (* user code: calls it still makes *)
| FNotify (os : list nat) (ch : bool).    (* loop of updateObservers, lines 76-78: observers still to call *)

Record sm := Sm {
  s_started : bool;
  s_cur : string;                         (* _currentStateId *)
  s_queue : list string;                  (* _eventQueue, front first *)
  s_obs : list nat;                       (* _observers *)
  s_stack : list frame;
  s_ub : bool;                            (* _observers was changed while being iterated over *)
  s_notes : list note;                    (* ghost: notifications, oldest first *)
  s_accepted : list string;               (* ghost: events accepted by enqueueEvent *)
  s_consumed : list string;               (* ghost: events taken out by update *)
  s_since : list string                   (* ghost: those taken out since the last reset *)
}.

(** _stateTable: filled in order, a later state with the same id replaces an earlier one (lines 29-31). *)
Definition table (c : config) : gmap string (list ctrans) :=
  fold_left (fun m st => <[cs_id st := cs_trans st]> m) (cf_states c) ∅.
(** sm_factory_impl.cpp 30-37: the first id that is not empty so far. *)
Definition initial (c : config) : string :=
  fold_left (fun i st => if decide (i = "") then cs_id st else i) (cf_states c) "".
Definition sm_new (c : config) (user : list call) : sm :=
  Sm false (initial c) [] [] [FCalls user] false [] [] [] [].

(** The transitions of the current state, lines 53-59: the first that can. *)
Fixpoint fire (ts : list ctrans) (e : string) : option string :=
  match ts with
  | [] => None
  | t :: ts' => if decide (e = ct_event t) then Some (ct_dest t) else fire ts' e
  end.
(** The loop of lines 50-62: resulting state, rest of the queue, events taken out, stateChanged. *)
Fixpoint consume (ts : list ctrans) (cur : string) (q : list string) : string * list string * list string * bool :=
  match q with
  | [] => (cur, [], [], false)
  | e :: q' =>
      match fire ts e with
      | Some d => (d, q', [e], true)
      | None => let '(d, r, k, ch) := consume ts cur q' in (d, r, e :: k, ch)
      end
  end.

Definition notifying (st : list frame) : bool := existsb (fun f => match f with FNotify _ _ => true | _ => false end) st.

(** A call; [st]: the stack to return to. *)
Definition update (c : config) (s : sm) (st : list frame) : sm :=                              (* lines 46-67 *)
  let idle := Sm (s_started s) (s_cur s) (s_queue s) (s_obs s) st (s_ub s) (s_notes s) (s_accepted s) (s_consumed s) (s_since s) in
  if s_started s then
    match table c !! s_cur s with
    | Some ts =>
        let '(d, r, k, ch) := consume ts (s_cur s) (s_queue s) in
        Sm true d r (s_obs s) (FNotify (s_obs s) ch :: st) (s_ub s) (s_notes s) (s_accepted s) (s_consumed s ++ k) (s_since s ++ k)
    | None => idle
    end
  else idle.
Definition enqueue (e : string) (s : sm) : sm :=                                               (* lines 81-86 *)
  if s_started s then
    Sm true (s_cur s) (s_queue s ++ [e]) (s_obs s) (s_stack s) (s_ub s) (s_notes s) (s_accepted s ++ [e]) (s_consumed s) (s_since s)
  else s.
Definition exec (c : config) (s : sm) (x : call) (st : list frame) : sm :=
  match x with
  | Start => Sm true (s_cur s) (s_queue s) (s_obs s) (FNotify (s_obs s) true :: st) (s_ub s) (s_notes s) (s_accepted s) (s_consumed s) (s_since s)   (* 32-36 *)
  | Stop => Sm false (s_cur s) (s_queue s) (s_obs s) st (s_ub s) (s_notes s) (s_accepted s) (s_consumed s) (s_since s)                               (* 37-40 *)
  | Reset => Sm false (initial c) (s_queue s) (s_obs s) st (s_ub s) (s_notes s) (s_accepted s) (s_consumed s) []                                    (* 41-45 *)
  | Update => update c s st
  | Enqueue e => let s' := enqueue e s in
                 Sm (s_started s') (s_cur s') (s_queue s') (s_obs s') st (s_ub s') (s_notes s') (s_accepted s') (s_consumed s') (s_since s')
  | EnqueueAndUpdate e => update c (enqueue e s) st                                            (* 69-73 *)
  | Register o => Sm (s_started s) (s_cur s) (s_queue s) (s_obs s ++ [o]) st (s_ub s || notifying st) (s_notes s) (s_accepted s) (s_consumed s) (s_since s)   (* 88-92 *)
  | Unregister => Sm (s_started s) (s_cur s) (s_queue s) [] st (s_ub s || notifying st) (s_notes s) (s_accepted s) (s_consumed s) (s_since s)        (* 94-97 *)
  end.

(** [react notes]: the calls made by the observer that has just been notified (the last of [notes]). *)
Definition step (c : config) (react : list note -> list call) (s : sm) : sm :=
  if s_ub s then s else
  match s_stack s with
  | [] => s
  | FCalls [] :: st => Sm (s_started s) (s_cur s) (s_queue s) (s_obs s) st false (s_notes s) (s_accepted s) (s_consumed s) (s_since s)
  | FCalls (x :: cs) :: st => exec c s x (FCalls cs :: st)
  | FNotify [] _ :: st => Sm (s_started s) (s_cur s) (s_queue s) (s_obs s) st false (s_notes s) (s_accepted s) (s_consumed s) (s_since s)
  | FNotify (o :: os) ch :: st =>
      (* lines 76-78; stateId is a reference to _currentStateId (lines 35, 64, 75), so it is read here *)
      let notes := s_notes s ++ [Note o (cf_id c +:+ ":" +:+ s_cur s) ch] in
      Sm (s_started s) (s_cur s) (s_queue s) (s_obs s) (FCalls (react notes) :: FNotify os ch :: st) false notes (s_accepted s) (s_consumed s) (s_since s)
  end.
Fixpoint steps (n : nat) (c : config) (react : list note -> list call) (s : sm) : sm :=
  match n with O => s | S m => steps m c react (step c react s) end.
(** Observers that do not call the machine. *)
Definition quiet : list note -> list call := fun _ => [].

(** ** StateMachineListener. Actions are numbers. *)
Record listener := Lst {
  l_id : string;                           (* _stateMachineId *)
  l_acts : gmap string (list nat);         (* _actions *)
  l_once : gmap string (list nat);         (* _oneOffActions *)
  l_per : gmap string (list nat);          (* _periodicActions *)
  l_log : list (list nat)                  (* ghost: for each notification, the actions run by it, in order *)
}.
Definition listener_new (id : string) : listener := Lst id ∅ ∅ ∅ [].
(** getCompleteName, lines 77-84. *)
Definition complete_name (id state : string) : string := if decide (id = "") then state else id +:+ ":" +:+ state.
Definition push (k : string) (a : nat) (m : gmap string (list nat)) : gmap string (list nat) := <[k := default [] (m !! k) ++ [a]]> m.

Inductive lcall :=
| AddAction (state : string) (a : nat) | AddOneOff (state : string) (a : nat) | AddPeriodic (state : string) (a : nat)
| RemoveActions (state : string) | RemoveAll
| Notified (state : string) (ch : bool).
Definition lstep (l : listener) (x : lcall) : listener :=
  match x with
  | AddAction q a => Lst (l_id l) (push (complete_name (l_id l) q) a (l_acts l)) (l_once l) (l_per l) (l_log l)      (* 25-30 *)
  | AddOneOff q a => Lst (l_id l) (l_acts l) (push (complete_name (l_id l) q) a (l_once l)) (l_per l) (l_log l)      (* 32-37 *)
  | AddPeriodic q a => Lst (l_id l) (l_acts l) (l_once l) (push (complete_name (l_id l) q) a (l_per l)) (l_log l)    (* 39-44 *)
  | RemoveActions q => Lst (l_id l) (l_acts l) (l_once l) (<[complete_name (l_id l) q := []]> (l_per l)) (l_log l)   (* 45-49 *)
  | RemoveAll => Lst (l_id l) (l_acts l) (l_once l) ∅ (l_log l)                                                      (* 50-53 *)
  | Notified q ch =>                                                                                                 (* 55-75 *)
      Lst (l_id l) (l_acts l) (if ch then delete q (l_once l) else l_once l) (l_per l)
          (l_log l ++ [(if ch then default [] (l_once l !! q) ++ default [] (l_acts l !! q) else []) ++ default [] (l_per l !! q)])
  end.
Definition lrun (l : listener) (xs : list lcall) : listener := fold_left lstep xs l.
(** The notifications an observer got, as calls of its listener (getObserverFunc, lines 86-92). *)
Definition as_lcall (n : note) : lcall := Notified (n_state n) (n_changed n).
