(** * What the users of the pool can see *)
From stdpp Require Import prelude gmap.
From Verif Require Import LockFreeStack_Model LockFreeStack_Spec SmartObjectPool_Model.

(** Objects in the hands of clients after a sequence of calls and outcomes:
    those obtained by acquire and not yet released. *)
Fixpoint in_use (acc : list obj) (cs : list pop_call) (os : list outcome) : list obj :=
  match cs, os with
  | CAcquire :: cs', OGot x :: os' => in_use (x :: acc) cs' os'
  | CRelease x :: cs', _ :: os' => in_use (remove1 x acc) cs' os'
  | _ :: cs', _ :: os' => in_use acc cs' os'
  | _, _ => acc
  end.
Global Instance outcome_eq_dec : EqDecision outcome.
Proof. solve_decision. Defined.
Definition failures (os : list outcome) : Z :=
  Z.of_nat (length (filter (fun o => o = OOutOfRange) os)).
(** Concurrent use, seen through the calls to and returns from the stack:
    acquire = pop, release = push of an object. *)
Definition upd_held (held : list obj) (e : event obj) : list obj :=
  match e with
  | ERet _ (RPopped x) => x :: held
  | ECall _ (OPush x) => remove1 x held
  | _ => held
  end.
Definition held_after (h : list (event obj)) : list obj := fold_left upd_held h [].
(** Clients only release objects they hold (enforced by unique_ptr). *)
Inductive disciplined : list (event obj) -> Prop :=
| disc_nil : disciplined []
| disc_snoc h e : disciplined h ->
    (match e with ECall _ (OPush x) => x ∈ held_after h | _ => True end) ->
    disciplined (h ++ [e]).

Section Pub.
Context {T : Type}.
(** Events that receivers still hold. *)
Definition outstanding (b : pubst T) : list obj :=
  b_loose b ++ match b_pool b with Some p => p_held p | None => [] end.
Definition is_publication (c : pub_call T) : bool :=
  match c with PDrop _ => false | _ => true end.
(** Publications that were delivered in an object that is not one of the pool's. *)
Definition not_from_pool (n : nat) (out : list (obj * T)) : list (obj * T) :=
  filter (fun e => n <= e.1) out.
End Pub.
