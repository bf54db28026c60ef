(** * Model of kpsr::mem::SafeQueue.
    /repo/core/modules/mem_mdlw/include/klepsydra/mem_core/safe_queue.h
    Any number of threads. Every method (but set_max_num_items and the move
    constructor) runs with m_mutex held from its start to its return or to a condition-variable wait, so one
    step of the model is one such critical section. notify_one wakes any one waiter (chosen by the schedule); a
    wait may wake spuriously; a timed wait may expire, also when it was notified at the same time (the return value of
    wait_for is then timeout). Items are numbers: copying and moving them is the same. *)
From stdpp Require Import prelude.

(** One call. push/push(&&)/move_push are [Push]; try_push, try_move_push are
    [TryPush]; pop, move_pop are [Pop]; try_pop, try_move_pop are [TryPop]; timeout_pop,
    timeout_move_pop are [TimedPop] (argument: timeout == 0). [Replace l] is, for this queue, swap
    (lines 363-376) with a queue holding [l], or an assignment from it (lines 383-412).
    [SetMax] is set_max_num_items (line 80; it takes no lock: atomic here). *)
Inductive qop :=
| Push (x : nat) | TryPush (x : nat) | ForcePush (x : nat)
| Pop | TryPop | TimedPop (zero : bool)
| Size | Empty | Full
| Replace (l : list nat) | SetMax (n : nat).

(** A completed call with its result. *)
Inductive qev :=
| EPush (x : nat) | ETryPush (x : nat) (b : bool) | EForce (x : nat) (dropped : nat)
| EPop (x : nat) | ETryPop (r : option nat) | ETimed (zero : bool) (r : option nat)
| ESize (n : nat) | EEmpty (b : bool) | EFull (b : bool) | EReplace (l : list nat) | ESetMax (n : nat).

Inductive note := NoNote | OneNE | OneNF | AllNE.      (* notifications issued *)
Inductive outcome :=
| Done (q : list nat) (max : nat) (n : note) (e : qev)
| WaitNE                                              (* wait on m_non_empty_condition *)
| WaitNF                                              (* wait on m_non_full_condition *)
| Crash.                                              (* front()/pop() on an empty std::queue *)

(** Lines 142, 160, 178, 197, 356. *)
Definition is_full (max : nat) (q : list nat) : bool := (0 <? max) && (max <=? length q).
(** Lines 196-200: the loop of force_move_push. *)
Fixpoint drop_loop (max : nat) (q : list nat) : list nat * nat :=
  match q with
  | [] => ([], 0)
  | x :: q' => if is_full max q then let '(r, n) := drop_loop max q' in (r, S n) else (q, 0)
  end.

(** One critical section. [woken]: the thread comes back from a wait that did not time out. *)
Definition exec (o : qop) (woken : bool) (max : nat) (q : list nat) : outcome :=
  match o with
  | Push x =>                                          (* lines 87-131 *)
      if length q <? max then Done (q ++ [x]) max OneNE (EPush x) else WaitNF
  | TryPush x =>                                       (* lines 138-185 *)
      if is_full max q then Done q max NoNote (ETryPush x false)
      else Done (q ++ [x]) max OneNE (ETryPush x true)
  | ForcePush x =>                                     (* lines 192-205 *)
      let '(q', n) := drop_loop max q in Done (q' ++ [x]) max OneNE (EForce x n)
  | Pop =>                                             (* lines 211-237 *)
      match q with [] => WaitNE | x :: q' => Done q' max OneNF (EPop x) end
  | TryPop =>                                          (* lines 244-274 *)
      match q with [] => Done q max NoNote (ETryPop None) | x :: q' => Done q' max OneNF (ETryPop (Some x)) end
  | TimedPop zero =>                                   (* lines 282-327 *)
      match q with
      | [] => if woken then Crash
              else if zero then Done q max NoNote (ETimed zero None) else WaitNE
      | x :: q' => Done q' max OneNF (ETimed zero (Some x))
      end
  | Size => Done q max NoNote (ESize (length q))       (* lines 333-337 *)
  | Empty => Done q max NoNote (EEmpty (match q with [] => true | _ => false end))   (* 343-347 *)
  | Full => Done q max NoNote (EFull (is_full max q))  (* 353-357 *)
  | Replace l => Done l max (match l with [] => NoNote | _ => AllNE end) (EReplace l)
  | SetMax n => Done q n NoNote (ESetMax n)
  end.

Inductive status := Ready | AsleepNE | AwakeNE | AsleepNF | AwakeNF | Expired.
Global Instance status_eq_dec : EqDecision status. Proof. solve_decision. Defined.
Record qthread := Th { th_st : status; th_ops : list qop }.
Record qst := Qst {
  q_items : list nat;                (* m_queue, front first *)
  q_max : nat;                       (* m_max_num_items *)
  q_thr : list qthread;
  q_ub : bool;
  q_log : list (nat * qev)           (* ghost: completed calls, with the thread, oldest first *)
}.

(** The threads asleep on a condition variable. *)
Definition sleepers (st : status) (thr : list qthread) : list nat :=
  filter (fun t => match thr !! t with Some th => bool_decide (th_st th = st) | None => false end = true) (seq 0 (length thr)).
Definition set_status (st : status) (t : nat) (thr : list qthread) : list qthread :=
  alter (fun th => Th st (th_ops th)) t thr.
Definition wake_one (asleep awake : status) (pick : nat) (thr : list qthread) : list qthread :=
  match sleepers asleep thr !! (pick mod length (sleepers asleep thr)) with
  | Some t => set_status awake t thr
  | None => thr
  end.
Definition wake_all (asleep awake : status) (thr : list qthread) : list qthread :=
  (fun th => if decide (th_st th = asleep) then Th awake (th_ops th) else th) <$> thr.
Definition notify (n : note) (pick : nat) (thr : list qthread) : list qthread :=
  match n with
  | NoNote => thr
  | OneNE => wake_one AsleepNE AwakeNE pick thr
  | OneNF => wake_one AsleepNF AwakeNF pick thr
  | AllNE => wake_all AsleepNE AwakeNE thr
  end.

Inductive qact :=
| ARun (t pick : nat) (expired : bool)   (* thread t runs; [expired]: its timed wait has also expired *)
| ASpurious (t : nat)                    (* spurious wake-up of a sleeping thread *)
| AExpire (t : nat).                     (* the timed wait of a sleeping thread expires *)

Definition is_timed (o : qop) : bool := match o with TimedPop _ => true | _ => false end.
Definition zero_of (o : qop) : bool := match o with TimedPop z => z | _ => false end.

Definition qstep (s : qst) (a : qact) : qst :=
  if q_ub s then s else
  match a with
  | ARun t pick expired =>
      match q_thr s !! t with
      | Some (Th st (o :: ops)) =>
          let finish q max thr e := Qst q max thr false (q_log s ++ [(t, e)]) in
          let timeout := finish (q_items s) (q_max s) (<[t := Th Ready ops]> (q_thr s)) (ETimed (zero_of o) None) in
          let go woken :=
            match exec o woken (q_max s) (q_items s) with
            | Done q max n e => finish q max (notify n pick (<[t := Th Ready ops]> (q_thr s))) e
            | WaitNE => Qst (q_items s) (q_max s) (set_status AsleepNE t (q_thr s)) false (q_log s)
            | WaitNF => Qst (q_items s) (q_max s) (set_status AsleepNF t (q_thr s)) false (q_log s)
            | Crash => Qst (q_items s) (q_max s) (q_thr s) true (q_log s)
            end in
          match st with
          | Ready => go false
          | AsleepNE | AsleepNF => s
          | Expired => timeout                                  (* lines 290-292, 318-320 *)
          | AwakeNE => if is_timed o && expired then timeout else go true
          | AwakeNF => go true
          end
      | _ => s
      end
  | ASpurious t =>
      match q_thr s !! t with
      | Some (Th AsleepNE _) => Qst (q_items s) (q_max s) (set_status AwakeNE t (q_thr s)) false (q_log s)
      | Some (Th AsleepNF _) => Qst (q_items s) (q_max s) (set_status AwakeNF t (q_thr s)) false (q_log s)
      | _ => s
      end
  | AExpire t =>
      match q_thr s !! t with
      | Some (Th AsleepNE (TimedPop _ :: _)) => Qst (q_items s) (q_max s) (set_status Expired t (q_thr s)) false (q_log s)
      | _ => s
      end
  end.

(** SafeQueue(max) with the given threads about to use it. *)
Definition qst_new (max : nat) (progs : list (list qop)) : qst := Qst [] max (Th Ready <$> progs) false [].
Definition qrun (s : qst) (acts : list qact) : qst := fold_left qstep acts s.

(** Move and copy constructors, lines 62-72: contents copied, m_max_num_items is its default, 0. *)
Definition copy_of (s : qst) (progs : list (list qop)) : qst := Qst (q_items s) 0 (Th Ready <$> progs) false [].

(** ** The locks of swap (lines 366-367) and copy assignment (386-387): first the
    queue's own mutex, then the argument's. [SwapCall a b] is a.swap(b) or a = b. Step: take the next lock, or, holding both, return. *)
Record swap_call := SwapCall { sw_this : nat; sw_arg : nat; sw_pc : nat (* 0: none, 1: own lock held, 2: both, 3: returned *) }.
Record swap_st := SwapSt { sw_owner : list (option nat) (* owner of each queue's mutex *); sw_thr : list swap_call }.
Definition swap_step (s : swap_st) (t : nat) : swap_st :=
  match sw_thr s !! t with
  | None => s
  | Some c =>
      let at_pc n := <[t := SwapCall (sw_this c) (sw_arg c) n]> (sw_thr s) in
      let acquire m n :=
        match sw_owner s !! m with
        | Some None => SwapSt (<[m := Some t]> (sw_owner s)) (at_pc n)
        | _ => s
        end in
      match sw_pc c with
      | 0 => if sw_this c =? sw_arg c then SwapSt (sw_owner s) (at_pc 3) else acquire (sw_this c) 1
      | 1 => acquire (sw_arg c) 2
      | 2 => SwapSt (<[sw_this c := None]> (<[sw_arg c := None]> (sw_owner s))) (at_pc 3)
      | _ => s
      end
  end.
Definition swap_run (s : swap_st) (sched : list nat) : swap_st := fold_left swap_step sched s.
Definition swap_new (nqueues : nat) (calls : list (nat * nat)) : swap_st :=
  SwapSt (repeat None nqueues) ((fun p => SwapCall p.1 p.2 0) <$> calls).
