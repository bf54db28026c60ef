(** * Specification vocabulary for the state machine (C32 - C35, C60, C61), from the description only. *)
From stdpp Require Import prelude strings.
From Verif Require Import StateMachine_Model.
Local Open Scope string_scope.
Local Open Scope list_scope.

(** The description says: in state [q], on event [e], go to [d] (the first transition of [q] on [e]). *)
Definition describes (c : config) (q e d : string) : Prop :=
  exists before after ts1 ts2,
    cf_states c = before ++ CState q (ts1 ++ CTrans d e :: ts2) :: after
    /\ Forall (fun t => ct_event t <> e) ts1.
(** The description has no transition out of [q] on [e]. *)
Definition no_transition (c : config) (q e : string) : Prop := forall d, ~ describes c q e d.
(** A well-formed description: distinct, non-empty state names, at least one state, every target is a state. *)
Definition names (c : config) : list string := cs_id <$> cf_states c.
Record well_formed (c : config) : Prop := {
  wf_nodup : NoDup (names c);
  wf_nonempty : "" ∉ names c;
  wf_some : cf_states c <> [];
  wf_closed : forall st t, st ∈ cf_states c -> t ∈ cs_trans st -> ct_dest t ∈ names c
}.
(** [path c q es q']: handling the events [es] one by one, in order, leads from [q] to [q']. *)
Inductive path (c : config) : string -> list string -> string -> Prop :=
| path_nil q : path c q [] q
| path_fire q e d es q' : describes c q e d -> path c d es q' -> path c q (e :: es) q'
| path_skip q e es q' : no_transition c q e -> path c q es q' -> path c q (e :: es) q'.

(** The text given to observers for state [q]. *)
Definition shown (c : config) (q : string) : string := cf_id c +:+ ":" +:+ q.

(** ** Listener: what must run at a notification, from the history of calls before it. *)
(** Actions registered for the full name [k], oldest first. *)
Definition registered (sel : lcall -> option (string * nat)) (id k : string) (h : list lcall) : list nat :=
  omap (fun x => match sel x with
                 | Some (q, a) => if decide (complete_name id q = k) then Some a else None
                 | None => None
                 end) h.
Definition sel_action x := match x with AddAction q a => Some (q, a) | _ => None end.
Definition sel_oneoff x := match x with AddOneOff q a => Some (q, a) | _ => None end.
Definition sel_periodic x := match x with AddPeriodic q a => Some (q, a) | _ => None end.
(** The part of the history after the last call satisfying [p]. *)
Fixpoint after_last (p : lcall -> bool) (h : list lcall) : list lcall :=
  match h with
  | [] => []
  | x :: h' => if existsb p h' then after_last p h' else if p x then h' else x :: h'
  end.
(** A change into [k]. *)
Definition entry_of (k : string) (x : lcall) : bool := match x with Notified q true => bool_decide (q = k) | _ => false end.
(** A removal of the actions of [k]. *)
Definition removal_of (id k : string) (x : lcall) : bool :=
  match x with RemoveActions q => bool_decide (complete_name id q = k) | RemoveAll => true | _ => false end.
(** What runs, after history [h], at a notification of state [k]: at a change, the one-off actions registered since the last change into [k] and every
    action ever registered; always, the periodic actions registered since the last removal. *)
Definition must_run (id : string) (h : list lcall) (k : string) (changed : bool) : list nat :=
  (if changed then registered sel_oneoff id k (after_last (entry_of k) h) ++ registered sel_action id k h else [])
  ++ registered sel_periodic id k (after_last (removal_of id k) h).
