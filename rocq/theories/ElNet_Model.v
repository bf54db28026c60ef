(** * Model of event loops connected by listeners that publish, to other loops or to their own.
    /repo/high_performance/modules/high_performance/include/klepsydra/high_performance/event_loop_publisher.h 113-128 (internalPublish: try_next, refused when there is no room),
      event_loop_event_handler.h 63-73 (on_event), event_loop_subscriber.h 58-69, event_loop.h 98-140 (start, stop);
      disruptor4cpp/multi_producer_sequencer.h (try_next, has_available_capacity), disruptor4cpp/batch_event_processor.h 95-156 (batches: the sequence is set after the whole batch, or after an exception);
    /repo/core/modules/core/include/klepsydra/core/event_forwarder.h 44-50.
    Any number of loops (nodes), each with its ring and its thread; [out i v] is what the listeners of loop i publish, and to which loops, while they handle v; [thr i v]: a listener throws a
    std::exception after that. Other threads publish as well; one more thread stops loops one after the other.
    One step: one publication, the start of one event, the end of a batch, one test of the alert. A batch is any number of the events waiting (what the barrier saw as available).
    Simplifications: a publication is atomic (claim, write, publish: C24, C25, C28), fewer than 2^31 publications (C93), the loops have been started before (C29), halt() comes after the thread has
    cleared its alert (C27); the wait for an event is no step; foreign exceptions are left out (C100). Entries carry who published them, which the code does not. *)
From stdpp Require Import prelude.
From Verif Require Import Forward_Model.
Section Model.
  Context {V : Type} (size : nat -> nat) (out : nat -> V -> list (nat * V)) (thr : nat -> V -> bool).
  Record lnode := LN {
    l_b : list (src * V);            (* the rest of the batch *)
    l_q : list (src * V);            (* published, not yet seen by the loop *)
    l_held : nat;                    (* events of the batch handled, or being handled: their slots are not free before sequence_.set *)
    l_pend : list (nat * V);         (* what the listeners still publish for the event being handled *)
    l_thr : bool;                    (* a listener throws after that *)
    l_on : bool;                     (* running_ *)
    l_done : bool;                   (* the thread has left run() *)
    l_log : list (src * V);          (* the events handed to the listeners, in order *)
    l_att : list ((src * V) * bool)  (* ghost: all publications to this loop, accepted or refused *)
  }.
  Record lnet := LNet { k_nodes : list lnode; k_ext : list (list (nat * V)); k_ctl : list nat; k_waiting : bool }.
  Definition used (nd : lnode) : nat := l_held nd + length (l_b nd) + length (l_q nd).
  (** internalPublish on loop j. *)
  Definition recv (j : nat) (e : src * V) (nd : lnode) : lnode :=
    if used nd <? size j
    then LN (l_b nd) (l_q nd ++ [e]) (l_held nd) (l_pend nd) (l_thr nd) (l_on nd) (l_done nd) (l_log nd) (l_att nd ++ [(e, true)])
    else LN (l_b nd) (l_q nd) (l_held nd) (l_pend nd) (l_thr nd) (l_on nd) (l_done nd) (l_log nd) (l_att nd ++ [(e, false)]).
  (** A step of the loop's thread that is no publication; k: how much of the queue the barrier makes available. *)
  Definition set_pend (r : list (nat * V)) (nd : lnode) : lnode := LN (l_b nd) (l_q nd) (l_held nd) r (l_thr nd) (l_on nd) (l_done nd) (l_log nd) (l_att nd).
  Definition own_step (i k : nat) (nd : lnode) : lnode :=
    if l_thr nd                                                                                                     (* catch: sequence_.set(next_sequence) *)
    then LN [] (l_b nd ++ l_q nd) 0 [] false (l_on nd) false (l_log nd) (l_att nd)
    else match l_b nd with
         | e :: b => LN b (l_q nd) (S (l_held nd)) (out i (e.2)) (thr i (e.2)) (l_on nd) false (l_log nd ++ [e]) (l_att nd)     (* on_event *)
         | [] =>
             match l_held nd with
             | S _ => LN [] (l_q nd) 0 [] false (l_on nd) false (l_log nd) (l_att nd)                               (* sequence_.set(available_sequence) *)
             | 0 => if l_on nd then LN (take (S k) (l_q nd)) (drop (S k) (l_q nd)) 0 [] false true false (l_log nd) (l_att nd)   (* wait_for returns *)
                    else LN [] (l_q nd) 0 [] false false true (l_log nd) (l_att nd)                                 (* alert_exception *)
             end
         end.
  Definition set_off (nd : lnode) : lnode := LN (l_b nd) (l_q nd) (l_held nd) (l_pend nd) (l_thr nd) false (l_done nd) (l_log nd) (l_att nd).
  Inductive lact := LPoll (i k : nat) | LExt (t : nat) | LCtl.
  Definition l_step (s : lnet) (a : lact) : lnet :=
    match a with
    | LPoll i k =>
        match k_nodes s !! i with
        | None => s
        | Some nd =>
            if l_done nd then s else
            match l_pend nd with
            | (j, v) :: r => LNet (alter (recv j (SrcNode i, v)) j (alter (set_pend r) i (k_nodes s))) (k_ext s) (k_ctl s) (k_waiting s)
            | [] => LNet (alter (own_step i k) i (k_nodes s)) (k_ext s) (k_ctl s) (k_waiting s)
            end
        end
    | LExt t =>
        match k_ext s !! t with
        | Some ((j, v) :: r) => LNet (alter (recv j (SrcExt t, v)) j (k_nodes s)) (<[t := r]> (k_ext s)) (k_ctl s) (k_waiting s)
        | _ => s
        end
    | LCtl =>                                                                                                      (* stop(): halt(), then join *)
        match k_ctl s with
        | [] => s
        | i :: r =>
            match k_nodes s !! i with
            | None => s
            | Some nd =>
                if k_waiting s then if l_done nd then LNet (k_nodes s) (k_ext s) r false else s
                else LNet (alter set_off i (k_nodes s)) (k_ext s) (k_ctl s) true
            end
        end
    end.
  Definition l_run (s : lnet) (acts : list lact) : lnet := fold_left l_step acts s.
  Definition l_new (n : nat) (ext : list (list (nat * V))) (stops : list nat) : lnet := LNet (replicate n (LN [] [] 0 [] false true false [] [])) ext stops false.
End Model.
Arguments lnode : clear implicits.
Arguments lnet : clear implicits.
