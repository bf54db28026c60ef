(** * Model of the dispatch table of a ZeroMQ poller shared by threads.
    /repo/core/modules/zmq_mdlw/include/klepsydra/zmq_core/zmq_poller.h 111-141 (registerToTopic, unregisterFromTopic, executeFunction), and its poll() variants, which call executeFunction
    for each message. Any number of threads register and unregister; one polling thread dispatches. The mutex is not recursive (std::mutex). One step takes the mutex, changes the map and gives the
    mutex back, starts a callback, goes on inside it, or ends it. A callback may itself register and unregister: [body] says what it does. (Locking a std::mutex one already holds is undefined;
    modelled as what implementations do: it blocks.) Simplification: the subscriber's own filter and the framing are in ZmqChannel_Model.v. *)
From stdpp Require Import prelude gmap.
Inductive zop := ZReg (t f : nat) | ZUnreg (t : nat).
(** Log: a change of the table has been made; a callback has been entered; it has returned. *)
Inductive zev := ERegd (t f : nat) | EUnregd (t : nat) | EStart (t f : nat) | EEnd (t f : nat).
Inductive zpc := ZIdle | ZWant (t : nat) | ZFind (t : nat) | ZCall (t f : nat) (todo : list zop) | ZUnlock.
Record zst := Zst {
  z_owner : option (option nat);        (* the mutex: free, held by the polling thread (Some None), or by thread i (Some (Some i)) *)
  z_map : gmap nat nat;                 (* _functionTopicMap *)
  z_todo : list (list zop);             (* what each thread has still to do *)
  z_poll : zpc;
  z_log : list zev
}.
Inductive zact := ZMsg (t : nat) (* a message arrives at the idle polling thread *) | ZPoll | ZThr (i : nat).
Definition z_apply (m : gmap nat nat) (o : zop) : gmap nat nat := match o with ZReg t f => <[t := f]> m | ZUnreg t => delete t m end.
Definition z_ev (o : zop) : zev := match o with ZReg t f => ERegd t f | ZUnreg t => EUnregd t end.
Section Dispatch.
  Context (body : nat -> list zop).
  Definition z_new (progs : list (list zop)) : zst := Zst None ∅ progs ZIdle [].
  Definition z_step (s : zst) (a : zact) : zst :=
    match a with
    | ZMsg t => match z_poll s with ZIdle => Zst (z_owner s) (z_map s) (z_todo s) (ZWant t) (z_log s) | _ => s end
    | ZPoll =>
        match z_poll s with
        | ZIdle => s
        | ZWant t => match z_owner s with None => Zst (Some None) (z_map s) (z_todo s) (ZFind t) (z_log s) | _ => s end                  (* 136 *)
        | ZFind t => match z_map s !! t with                                                                                            (* 137-139 *)
                     | Some f => Zst (z_owner s) (z_map s) (z_todo s) (ZCall t f (body f)) (z_log s ++ [EStart t f])
                     | None => Zst (z_owner s) (z_map s) (z_todo s) ZUnlock (z_log s)
                     end
        | ZCall t f [] => Zst (z_owner s) (z_map s) (z_todo s) ZUnlock (z_log s ++ [EEnd t f])
        | ZCall t f (o :: r) => match z_owner s with                                                                                     (* 114, 124: the callback wants the mutex *)
                                | None => Zst None (z_apply (z_map s) o) (z_todo s) (ZCall t f r) (z_log s ++ [z_ev o])
                                | _ => s
                                end
        | ZUnlock => Zst None (z_map s) (z_todo s) ZIdle (z_log s)
        end
    | ZThr i =>
        match z_todo s !! i with
        | Some (o :: r) =>
            match z_owner s with
            | None => Zst (Some (Some i)) (z_map s) (z_todo s) (z_poll s) (z_log s)                                                     (* 114, 124 *)
            | Some (Some j) => if decide (i = j) then Zst None (z_apply (z_map s) o) (<[i := r]> (z_todo s)) (z_poll s) (z_log s ++ [z_ev o]) else s   (* 115, 125 *)
            | Some None => s
            end
        | _ => s
        end
    end.
  Definition z_run (progs : list (list zop)) (acts : list zact) : zst := fold_left z_step acts (z_new progs).
End Dispatch.
