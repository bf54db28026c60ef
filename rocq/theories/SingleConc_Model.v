(** * Model of the single-listener emitter used by several threads, on weak memory.
    /repo/core/modules/core/include/klepsydra/core/unsafe_single_listener_event_emitter.h 44-46 (constructor), 57-96 (on), 115-125 (removeListener), 133-142 (emitEvent), 175-182 (data members).
    One thread (0) builds the emitter, registers and removes listeners and hands the emitter over (it starts the other threads, or stores something they wait for); the others emit. One step is one memory event
    (WeakMem.v). _listenerRegistered is a std::atomic<bool> used with the default order, memory_order_seq_cst: a load gives the latest store. _subscriberName, _singleListener and _singleListenerWrapper are
    plain objects; a read of one returns the latest write as a whole (exact where there is no race).
    Simplifications: no container, so no statistics; listenerId is 0; _listenerName, which no other function reads, is left out; a callback is a number and returns. *)
From stdpp Require Import prelude strings.
From Verif Require Import WeakMem.
Local Open Scope Z_scope.
Inductive sloc := LFlag | LStart.
#[global] Instance sloc_eq_dec : EqDecision sloc. Proof. solve_decision. Defined.
Inductive sobj := XListener | XName | XWrapper.
#[global] Instance sobj_eq_dec : EqDecision sobj. Proof. solve_decision. Defined.
(** _singleListener: nullptr, the empty function of line 119, or a callback. *)
Inductive listener := Null | Noop | Fun (cb : nat).
Inductive sval := VListener (l : listener) | VName (n : string) | VWrapper (set : bool).
Notation sev := (wev sloc sobj sval).
(** Calls of thread 0: on, removeListener, handing the emitter over. *)
Inductive sop := On (name : string) (cb : nat) | Off | Release.
(** Of the others: waiting until the emitter is handed over, emitEvent. *)
Inductive eop := Acquire | Emit (name : string).
Inductive rpc := RIdle | RListener (* 67 *) | RName (* 69 *) | RWrapper (* 88 *) | RFlag (* 93 *) | ROff (* 119 *).
Inductive epc := EIdle | EFlag (* 138, second operand *) | EWrapper (* 141 *) | ECall (* 90 *).
Inductive eres := Skipped | Called (l : listener) | Crashed (* std::bad_function_call *).
Record emitter := Emitter { em_pc : epc; em_todo : list eop }.
Record sst := Sst {
  s_tr : list sev;
  s_flagw : nat;              (* the latest store of _listenerRegistered *)
  s_flag : bool; s_listener : listener; s_name : string; s_wrapper : bool;
  s_start : option nat;       (* the event that handed the emitter over *)
  s_pc : rpc; s_todo : list sop;
  s_ems : list emitter;
  s_log : list (nat * string * eres)   (* ghost: emissions that have returned, oldest first *)
}.
Definition b2z (b : bool) : Z := if b then 1 else 0.
Definition etid (e : nat) : nat := S e.
Definition s_new (rprog : list sop) (eprogs : list (list eop)) : sst :=
  Sst [Ev 0 (AWrite LFlag 0)] 0 false Null EmptyString false None RIdle rprog (Emitter EIdle <$> eprogs) [].
Definition r_step (s : sst) : sst :=
  let n := length (s_tr s) in
  match s_todo s with
  | [] => s
  | o :: rest =>
      match s_pc s, o with
      | RIdle, On _ _ =>                                                         (* 66 *)
          Sst (s_tr s ++ [Ev 0 (ARead LFlag (s_flagw s) (b2z (s_flag s)))]) (s_flagw s) (s_flag s) (s_listener s) (s_name s) (s_wrapper s) (s_start s)
            (if s_flag s then RIdle else RListener) (if s_flag s then rest else o :: rest) (s_ems s) (s_log s)
      | RListener, On _ cb =>
          Sst (s_tr s ++ [Ev 0 (DWrite XListener (VListener (Fun cb)))]) (s_flagw s) (s_flag s) (Fun cb) (s_name s) (s_wrapper s) (s_start s) RName (o :: rest) (s_ems s) (s_log s)
      | RName, On name _ =>
          Sst (s_tr s ++ [Ev 0 (DWrite XName (VName name))]) (s_flagw s) (s_flag s) (s_listener s) name (s_wrapper s) (s_start s) RWrapper (o :: rest) (s_ems s) (s_log s)
      | RWrapper, On _ _ =>
          Sst (s_tr s ++ [Ev 0 (DWrite XWrapper (VWrapper true))]) (s_flagw s) (s_flag s) (s_listener s) (s_name s) true (s_start s) RFlag (o :: rest) (s_ems s) (s_log s)
      | RFlag, On _ _ =>
          Sst (s_tr s ++ [Ev 0 (AWrite LFlag 1)]) n true (s_listener s) (s_name s) (s_wrapper s) (s_start s) RIdle rest (s_ems s) (s_log s)
      | RIdle, Off =>                                                            (* 118 *)
          Sst (s_tr s ++ [Ev 0 (AWrite LFlag 0)]) n false (s_listener s) (s_name s) (s_wrapper s) (s_start s) ROff (o :: rest) (s_ems s) (s_log s)
      | ROff, Off =>
          Sst (s_tr s ++ [Ev 0 (DWrite XListener (VListener Noop))]) (s_flagw s) (s_flag s) Noop (s_name s) (s_wrapper s) (s_start s) RIdle rest (s_ems s) (s_log s)
      | RIdle, Release =>
          Sst (s_tr s ++ [Ev 0 (AWrite LStart 1)]) (s_flagw s) (s_flag s) (s_listener s) (s_name s) (s_wrapper s) (Some n) RIdle rest (s_ems s) (s_log s)
      | _, _ => s
      end
  end.
(** A step of emitting thread [e]: the event it makes, how it goes on, and what emitEvent returned. *)
Definition e_emit (s : sst) (e : nat) (o : wop sloc sobj sval) (em : emitter) (log : list (nat * string * eres)) : sst :=
  Sst (s_tr s ++ [Ev (etid e) o]) (s_flagw s) (s_flag s) (s_listener s) (s_name s) (s_wrapper s) (s_start s) (s_pc s) (s_todo s) (<[e := em]> (s_ems s)) (s_log s ++ log).
Definition e_step (s : sst) (e : nat) : sst :=
  match s_ems s !! e with
  | Some (Emitter pc (o :: rest)) =>
      match pc, o with
      | EIdle, Acquire => match s_start s with Some i => e_emit s e (ARead LStart i 1) (Emitter EIdle rest) [] | None => s end
      | EIdle, Emit n =>                                                         (* 138, first operand *)
          if decide (n = s_name s) then e_emit s e (DRead XName (VName (s_name s))) (Emitter EFlag (o :: rest)) []
          else e_emit s e (DRead XName (VName (s_name s))) (Emitter EIdle rest) [(e, n, Skipped)]
      | EFlag, Emit n =>
          if s_flag s then e_emit s e (ARead LFlag (s_flagw s) 1) (Emitter EWrapper (o :: rest)) []
          else e_emit s e (ARead LFlag (s_flagw s) 0) (Emitter EIdle rest) [(e, n, Skipped)]
      | EWrapper, Emit n =>
          if s_wrapper s then e_emit s e (DRead XWrapper (VWrapper true)) (Emitter ECall (o :: rest)) []
          else e_emit s e (DRead XWrapper (VWrapper false)) (Emitter EIdle rest) [(e, n, Crashed)]
      | ECall, Emit n => e_emit s e (DRead XListener (VListener (s_listener s))) (Emitter EIdle rest) [(e, n, Called (s_listener s))]
      | _, Acquire => s
      end
  | _ => s
  end.
Inductive sact := SReg | SEmit (e : nat).
Definition s_step (s : sst) (a : sact) : sst := match a with SReg => r_step s | SEmit e => e_step s e end.
Definition s_run (rprog : list sop) (eprogs : list (list eop)) (acts : list sact) : sst := fold_left s_step acts (s_new rprog eprogs).
