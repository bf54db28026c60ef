(** * Model of in-memory providers connected by listeners that publish.
    /repo/core/modules/core/include/klepsydra/core/event_forwarder.h 44-50 (a listener that publishes what it receives);
    /repo/core/modules/mem_mdlw/include/klepsydra/mem_core/basic_publisher.h 60-101, safe_queue.h 121-131 (move_push blocks while the queue is full), 192-205 (force_move_push discards the oldest),
      safe_queue_poller.h 68-75, in_memory_middleware_provider.h 66-73 (start, stop); src/in_memory_queue_poller.cpp 38-51 (stop), 62-68 (the polling loop).
    Any number of providers (nodes), each with its queue and its polling thread; [out i v] is what the listeners of node i publish, and to which nodes, while they handle v
    (an EventForwarder: one event to one node; transform forwarders, several listeners, filters: any list). Other threads publish as well; one more thread stops providers one after the other.
    One step: one push, one pop (with the start of the listeners), one test of the running flag.
    Simplifications: a push or pop is atomic (C17, C18: the mutex) and a blocked push goes on once there is room (C20); listeners do not throw (C92); the wait of the poller for an event is no step.
    Entries carry who pushed them, which the code does not. *)
From stdpp Require Import prelude.
Section Model.
  Context {V : Type} (cap : nat -> nat) (disc : nat -> bool) (out : nat -> V -> list (nat * V)).
  Inductive src := SrcNode (i : nat) | SrcExt (t : nat).
  Record node := Node {
    n_q : list (src * V);        (* _internalQueue *)
    n_pend : list (nat * V);     (* what its thread still has to publish for the event being handled *)
    n_on : bool;                 (* _running *)
    n_done : bool;               (* the polling thread has left pollingLoop *)
    n_log : list (src * V);      (* the events handed to its listeners, in order *)
    n_in : list (src * V)        (* ghost: everything that was ever pushed to it *)
  }.
  Record net := Net { t_nodes : list node; t_ext : list (list (nat * V)); t_ctl : list nat; t_waiting : bool }.
  (** move_push / force_move_push on node j: None if it blocks. *)
  Definition push (ns : list node) (j : nat) (e : src * V) : option (list node) :=
    match ns !! j with
    | None => None
    | Some nd =>
        let put q := Some (<[j := Node (q ++ [e]) (n_pend nd) (n_on nd) (n_done nd) (n_log nd) (n_in nd ++ [e])]> ns) in
        if disc j then put (if cap j =? 0 then n_q nd else drop (S (length (n_q nd)) - cap j) (n_q nd))
        else if length (n_q nd) <? cap j then put (n_q nd) else None
    end.
  Inductive fact := FPoll (i : nat) | FExt (t : nat) | FCtl.
  Definition f_step (s : net) (a : fact) : net :=
    match a with
    | FPoll i =>
        match t_nodes s !! i with
        | None => s
        | Some nd =>
            if n_done nd then s else
            match n_pend nd with
            | (j, v) :: r =>
                match push (<[i := Node (n_q nd) r (n_on nd) false (n_log nd) (n_in nd)]> (t_nodes s)) j (SrcNode i, v) with
                | Some ns => Net ns (t_ext s) (t_ctl s) (t_waiting s)
                | None => s
                end
            | [] =>
                if n_on nd then
                  match n_q nd with
                  | e :: q => Net (<[i := Node q (out i (e.2)) true false (n_log nd ++ [e]) (n_in nd)]> (t_nodes s)) (t_ext s) (t_ctl s) (t_waiting s)
                  | [] => s                                                                                        (* timeout_move_pop returns false *)
                  end
                else Net (<[i := Node (n_q nd) [] false true (n_log nd) (n_in nd)]> (t_nodes s)) (t_ext s) (t_ctl s) (t_waiting s)
            end
        end
    | FExt t =>
        match t_ext s !! t with
        | Some ((j, v) :: r) => match push (t_nodes s) j (SrcExt t, v) with Some ns => Net ns (<[t := r]> (t_ext s)) (t_ctl s) (t_waiting s) | None => s end
        | _ => s
        end
    | FCtl =>                                                                                                      (* stop(): the flag, then join *)
        match t_ctl s with
        | [] => s
        | i :: r =>
            match t_nodes s !! i with
            | None => s
            | Some nd =>
                if t_waiting s then if n_done nd then Net (t_nodes s) (t_ext s) r false else s
                else Net (<[i := Node (n_q nd) (n_pend nd) false (n_done nd) (n_log nd) (n_in nd)]> (t_nodes s)) (t_ext s) (t_ctl s) true
            end
        end
    end.
  Definition f_run (s : net) (acts : list fact) : net := fold_left f_step acts s.
  Definition f_new (n : nat) (ext : list (list (nat * V))) (stops : list nat) : net := Net (replicate n (Node [] [] true false [] [])) ext stops false.
End Model.
Arguments node : clear implicits.
Arguments net : clear implicits.
