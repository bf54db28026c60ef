(** * Specification: a sequential bounded FIFO queue. *)
From stdpp Require Import prelude.
From Verif Require Import SafeQueue_Model.

(** State: maximum (0: no limit) and contents, oldest first. [None]: the call cannot have this result. *)
Definition full_spec (max : nat) (q : list nat) : bool := (0 <? max) && (max <=? length q).
Definition take_front (x : nat) (q : list nat) : option (list nat) :=
  match q with [] => None | y :: q' => if x =? y then Some q' else None end.
Definition fifo (st : option (nat * list nat)) (e : qev) : option (nat * list nat) :=
  match st with
  | None => None
  | Some (max, q) =>
      let ok (b : bool) := if b then Some (max, q) else None in
      match e with
      | EPush x => if full_spec max q then None else Some (max, q ++ [x])
      | ETryPush x b => if full_spec max q then ok (negb b) else if b then Some (max, q ++ [x]) else None
      | EForce x n =>     (* drops the oldest, as many as needed to make room for one *)
          if n =? (if max =? 0 then 0 else S (length q) - max) then Some (max, drop n q ++ [x]) else None
      | EPop x | ETryPop (Some x) | ETimed _ (Some x) => pair max <$> take_front x q
      | ETryPop None => ok (bool_decide (q = []))
      | ETimed zero None => ok (negb zero || bool_decide (q = []))
      | ESize n => ok (n =? length q)
      | EEmpty b => ok (Bool.eqb b (bool_decide (q = [])))
      | EFull b => ok (Bool.eqb b (full_spec max q))
      | EReplace l => Some (max, l)
      | ESetMax n => Some (n, q)
      end
  end.
Definition fifo_run (max : nat) (l : list qev) : option (nat * list nat) := fold_left fifo l (Some (max, [])).

(** The call of an event. *)
Definition call_of (e : qev) : qop :=
  match e with
  | EPush x => Push x | ETryPush x _ => TryPush x | EForce x _ => ForcePush x
  | EPop _ => Pop | ETryPop _ => TryPop | ETimed z _ => TimedPop z
  | ESize _ => Size | EEmpty _ => Empty | EFull _ => Full | EReplace l => Replace l | ESetMax n => SetMax n
  end.
(** Completed calls of one thread. *)
Definition calls_of (t : nat) (l : list (nat * qev)) : list qop :=
  call_of <$> (snd <$> filter (fun p => p.1 = t) l).

(** Items that entered, items that were delivered, number of dropped items as reported. *)
Definition entered (l : list qev) : list nat :=
  omap (fun e => match e with EPush x | ETryPush x true | EForce x _ => Some x | _ => None end) l.
Definition delivered (l : list qev) : list nat :=
  omap (fun e => match e with EPop x | ETryPop (Some x) | ETimed _ (Some x) => Some x | _ => None end) l.
Definition dropped (l : list qev) : nat :=
  sum_list (omap (fun e => match e with EForce _ n => Some n | _ => None end) l).

Definition no_replace (o : qop) : Prop := match o with Replace _ => False | _ => True end.
Definition no_setmax (o : qop) : Prop := match o with SetMax _ => False | _ => True end.
Definition no_timed (o : qop) : Prop := match o with TimedPop _ => False | _ => True end.
Definition is_pop (o : qop) : bool := match o with Pop | TryPop | TimedPop _ => true | _ => false end.
Definition all_ops (P : qop -> Prop) (progs : list (list qop)) : Prop := Forall (Forall P) progs.

(** Nothing can happen by itself any more: every thread has finished or sleeps un-notified. *)
Definition quiescent (s : qst) : Prop :=
  forall t th, q_thr s !! t = Some th -> th_ops th = [] \/ th_st th = AsleepNE \/ th_st th = AsleepNF.
Definition blocked_consumer (s : qst) : Prop := exists t th, q_thr s !! t = Some th /\ th_st th = AsleepNE.
Definition blocked_producer (s : qst) : Prop := exists t th, q_thr s !! t = Some th /\ th_st th = AsleepNF.
