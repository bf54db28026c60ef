(** * Model of the serialisation buffers of a binary ZeroMQ channel.
    /repo/core/modules/zmq_mdlw/include/klepsydra/zmq_core/to_zmq_middleware_provider.h 78-112 (the pool's elements are pointers: the initialiser allocates a std::stringbuf for an element that has none,
    the finaliser deletes it), binary_to_zmq_channel.h 50-80 (a pool of at least one element);
    /repo/core/modules/core/include/klepsydra/core/object_pool_publisher.h 98-110 (an element from the pool, or a new one when it is empty), 149-154 (processAndPublish),
    smart_object_pool.h 39-56 (an element goes back to its pool, or is deleted if the pool is gone), 96-107 (the pool's destructor finalises what is in it).
    Threads publish through one channel; a publication takes an element, serialises and sends, and drops it, whether the serialiser or the socket throws or not.
    Simplifications: taking an element from the pool and giving it back are single steps (LockFreeStack_Model.v); the content of the buffers is in ZmqChannel_Model.v. *)
From stdpp Require Import prelude.

Record bufst := Bufst {
  bf_free : list nat;                    (* buffers of the elements in the pool *)
  bf_thr : list (option (bool * nat));   (* the publication in progress of each thread: from the pool?, its buffer *)
  bf_next : nat;                         (* buffers allocated so far: 0, 1, ... *)
  bf_freed : list nat;                   (* buffers deleted *)
  bf_alive : bool;                       (* the channel exists *)
  bf_missed : nat                        (* ghost: publications that found the pool empty *)
}.
Definition bf_pool (size : nat) : nat := Nat.max 1 size.
Definition bf_new (size threads : nat) : bufst := Bufst (seq 0 (bf_pool size)) (replicate threads None) (bf_pool size) [] true 0.
Inductive bufact := BufBegin (t : nat) | BufEnd (t : nat) | BufDestroy.
Definition bf_step (s : bufst) (a : bufact) : bufst :=
  match a with
  | BufBegin t =>                                                    (* object_pool_publisher.h 98-110, 151 *)
      if bf_alive s then
        match bf_thr s !! t with
        | Some None =>
            match bf_free s with
            | x :: f => Bufst f (<[t := Some (true, x)]> (bf_thr s)) (bf_next s) (bf_freed s) true (bf_missed s)
            | [] => Bufst [] (<[t := Some (false, bf_next s)]> (bf_thr s)) (S (bf_next s)) (bf_freed s) true (S (bf_missed s))   (* make_shared<Base>(), then the initialiser allocates *)
            end
        | _ => s
        end
      else s
  | BufEnd t =>                                                      (* the last shared_ptr to the element is gone *)
      match bf_thr s !! t with
      | Some (Some (pooled, x)) =>
          Bufst (if pooled && bf_alive s then x :: bf_free s else bf_free s) (<[t := None]> (bf_thr s)) (bf_next s) (bf_freed s) (bf_alive s) (bf_missed s)
      | _ => s
      end
  | BufDestroy => Bufst [] (bf_thr s) (bf_next s) (bf_freed s ++ bf_free s) false (bf_missed s)   (* smart_object_pool.h 96-107 *)
  end.
Definition bf_run (size threads : nat) (acts : list bufact) : bufst := fold_left bf_step acts (bf_new size threads).
