(** * Model of kpsr::EventEmitterSubscriber (with the publisher of the same provider).
    /repo/core/modules/core/include/klepsydra/core/event_emitter_subscriber.h
    /repo/core/modules/core/include/klepsydra/core/event_emitter_publisher.h lines 73-76
    /repo/core/modules/core/include/klepsydra/core/event_emitter_factory.h
    One event; sequential calls, none from inside callbacks; callbacks do not
    throw; null callbacks are not part of the histories. *)
From stdpp Require Import prelude strings gmap.
From Verif Require Import SafeEmitter_Model UnsafeEmitters_Model.

(** The emitter created by EventEmitterFactory::createEventEmitter. *)
Inductive emitter := ESafe (e : em) | EMulti (m : multi) | ESingle (s : single).
Inductive kind := KSafe | KMulti | KSingle.
Definition emitter_new (k : kind) : emitter :=
  match k with KSafe => ESafe (em_new 1) | KMulti => EMulti multi_new | KSingle => ESingle single_new end.

(** The virtual calls on(), removeListener() (None: it throws) and emitEvent()
    (None: it throws or is undefined). [ev]: the subscriber's event name. *)
Definition em_on (c : bool) (n ev : string) (cb : nat) (e : emitter) : emitter * Z :=
  match e with
  | ESafe s => let s' := add_listener ev false cb s in (ESafe s', e_last s')
  | EMulti m => let '(m', id) := multi_on c n ev cb m in (EMulti m', Z.of_nat id)
  | ESingle s => let '(s', id) := single_on c n ev cb s in (ESingle s', Z.of_nat id)
  end.
Definition em_remove (c : bool) (id : Z) (e : emitter) : option emitter :=
  match e with
  | ESafe s => match remove_listener id s with (s', true) => Some (ESafe s') | (_, false) => None end
  | EMulti m => Some (EMulti (multi_remove c (Z.to_nat id) m))
  | ESingle s => Some (ESingle (single_remove c (Z.to_nat id) s))
  end.
Definition em_emit (ev : string) (e : emitter) : emitter * option (list nat) :=
  match e with
  | ESafe s => (ESafe (set_ls (List.filter (fun l => negb (bool_decide (l_sub l = ev) && l_once l)) (e_ls s)) s),  (* the once listeners it calls are erased *)
                Some (l_cb <$> range ev (e_ls s)))
  | EMulti m => let '(m', r) := multi_emit ev m in
                (EMulti m', match r with Called l => Some l | _ => None end)
  | ESingle s => (ESingle s, match single_emit ev s with
                             | SNothing | SNoop => Some []
                             | SCalled cb => Some [cb]
                             | _ => None end)
  end.

Record subscriber := Sub {
  sb_cont : bool;                 (* container given *)
  sb_event : string;              (* name *)
  sb_map : gmap string Z;         (* _listenersMap *)
  sb_em : emitter
}.
Definition sub_new (k : kind) (c : bool) (ev : string) : subscriber := Sub c ev ∅ (emitter_new k).

Inductive sop := SubReg (n : string) (cb : nat) | SubRemove (n : string) | SubPublish | SubStats (n : string).
Inductive sres := RNone | RThrow | RCalled (cbs : list nat) | RBroken.

Definition sub_step (s : subscriber) (o : sop) : subscriber * sres :=
  match o with
  | SubReg n cb =>                     (* registerListener, lines 97-112 *)
      let '(e', id) := em_on (sb_cont s) n (sb_event s) cb (sb_em s) in
      (Sub (sb_cont s) (sb_event s) (<[n:=id]> (sb_map s)) e', RNone)
  | SubRemove n =>                     (* removeListener, lines 147-158; a throw leaves the map entry *)
      match sb_map s !! n with
      | Some id => match em_remove (sb_cont s) id (sb_em s) with
                   | Some e' => (Sub (sb_cont s) (sb_event s) (delete n (sb_map s)) e', RNone)
                   | None => (s, RThrow)
                   end
      | None => (s, RNone)
      end
  | SubPublish =>                      (* internalPublish of the publisher *)
      let '(e', r) := em_emit (sb_event s) (sb_em s) in
      (Sub (sb_cont s) (sb_event s) (sb_map s) e', match r with Some l => RCalled l | None => RBroken end)
  | SubStats n =>                      (* getSubscriptionStats, lines 164-171: operator[] inserts 0 *)
      (Sub (sb_cont s) (sb_event s) (<[n:=default 0%Z (sb_map s !! n)]> (sb_map s)) (sb_em s), RNone)
  end.
Fixpoint sub_run (s : subscriber) (os : list sop) : subscriber * list sres :=
  match os with
  | [] => (s, [])
  | o :: os' => let '(s', r) := sub_step s o in let '(s'', l) := sub_run s' os' in (s'', r :: l)
  end.
