(** * Specification of the event emitter, on the log of what happened. *)
From stdpp Require Import prelude strings.
From Verif Require Import SafeEmitter_Model.
Local Open Scope Z_scope.

(** Listeners registered after a log (oldest event first): (id, event name,
    once), in registration order. *)
Definition reg_step (r : list (Z * string * bool)) (e : logev) : list (Z * string * bool) :=
  match e with
  | LOn id sub once _ => r ++ [(id, sub, once)]
  | LRemoved id => filter (fun x => x.1.1 <> id) r
  | LClear => []
  | _ => r
  end.
Definition registered (h : list logev) : list (Z * string * bool) := fold_left reg_step h [].
(** Ids registered for an event name, in registration order. *)
Definition registered_for (sub : string) (h : list logev) : list Z :=
  (fun x => x.1.1) <$> filter (fun x => x.1.2 = sub) (registered h).

(** Listeners invoked by the k-th emit, in order. *)
Fixpoint invoked_by (k : nat) (h : list logev) : list Z :=
  match h with
  | [] => []
  | LInvoke k' id _ _ :: h' => if (k =? k')%nat then id :: invoked_by k h' else invoked_by k h'
  | _ :: h' => invoked_by k h'
  end.
(** How many times listener [id] was invoked in total. *)
Fixpoint invocations (id : Z) (h : list logev) : nat :=
  match h with
  | [] => 0
  | LInvoke _ id' _ _ :: h' => (if (id =? id')%Z then 1 else 0) + invocations id h'
  | _ :: h' => invocations id h'
  end.
Fixpoint created (h : list logev) : list Z :=
  match h with
  | [] => []
  | LOn id _ _ _ :: h' => id :: created h'
  | _ :: h' => created h'
  end.
Definition is_once (id : Z) (h : list logev) : Prop := exists sub cb, LOn id sub true cb ∈ h.

(** The discard statistics of listener [id]: created at zero with a repeating listener, one more at every discardEvent of its
    event while it is registered, gone with it. A one-off listener has none. *)
Definition stat_step (id : Z) (r : option (string * Z)) (e : logev) : option (string * Z) :=
  match e with
  | LOn id' sub once _ => if (id =? id')%Z then (if once then None else Some (sub, 0)) else r
  | LRemoved id' => if (id =? id')%Z then None else r
  | LClear => None
  | LDiscard sub => match r with Some (sub', n) => Some (sub', if bool_decide (sub' = sub) then n + 1 else n) | None => None end
  | _ => r
  end.
Definition discards (id : Z) (h : list logev) : option Z := snd <$> fold_left (stat_step id) h None.

(** No emit of an event starts while another emit of the same event is in
    progress (in any thread), and no callback or removal throws. *)
Definition active (sub : string) (s : em) : Prop :=
  exists t st k ev hs, e_thr s !! t = Some st /\ FEmit k sub ev hs ∈ st.
Fixpoint calm (s : em) (acts : list act) : Prop :=
  match acts with
  | [] => True
  | a :: acts' =>
      match a with ACall _ (CEmit sub _) => ~ active sub s | AThrow _ => False | _ => True end
      /\ (forall k, LAbort k ∉ e_log (exec s a)) /\ calm (exec s a) acts'
  end.
