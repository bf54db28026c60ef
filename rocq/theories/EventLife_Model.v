(** * Model of the life of a published event: from the object pool through the publisher, the queue or ring, the listeners and whoever keeps it, back to the pool.
    /repo/core/modules/core/include/klepsydra/core/object_pool_publisher.h 67-160 (the copy is made in an object of the pool, or in a new one if the pool is empty or absent), smart_object_pool.h 42-148 (acquire; the deleter
    that returns the object to the pool if the pool still exists, and deletes it otherwise), event_emitter_publisher.h 73-76, event_emitter_middleware_provider.h (cap = None: the publishing thread calls the listeners itself),
    event_emitter_subscriber.h 97-130 (registerListener, registerSharedPtrListener: the listener may keep the pointer), /repo/high_performance/.../event_loop_publisher.h 104-118, event_loop_event_handler.h 72-82 and
    /repo/core/modules/mem_mdlw/.../basic_publisher.h (cap = Some n: a bounded queue or ring; a refused event is dropped).
    Any number of threads; a copy is made in two steps, the object being half written in between.
    Simplifications: the pool's stack (C01, C03) and the queue or ring (C16, C24-C26) are atomic; the reference count of std::shared_ptr is the number of references; objects are numbered, 0..size-1 those of the pool; a publication from inside a
    listener is one of another thread; a listener that throws in an event loop leaves the reference in its slot until it is reused (C66): that is a reference kept and dropped later; processAndPublish writes f(initialised event), here the value v. *)
From stdpp Require Import prelude gmap.
Inductive cell := Whole (v : Z) | Torn.
Inductive est := TIdle | TGot (x : nat) (v : Z) | TWriting (x : nat) (v : Z) | TReady (x : nat) (v : Z) | TDeliver (x d : nat).
Inductive elog := LSeen (d : nat) (c : option cell) | LKept (d : nat) (c : option cell) | LRefused (v : Z) | LFailed (v : Z).
Record es := Es { es_size : nat; es_pool : list nat; es_live : bool; es_next : nat; es_mem : gmap nat cell; es_thr : list est; es_q : list nat; es_taken : nat; es_acc : list Z; es_kept : list (nat * nat); es_log : list elog }.
Definition objs (th : est) : list nat := match th with TIdle => [] | TGot x _ | TWriting x _ | TReady x _ | TDeliver x _ => [x] end.
Definition refs (s : es) : list nat := concat (objs <$> es_thr s) ++ es_q s ++ (snd <$> es_kept s).
(** A reference to [x] has gone (it is not in [s] any more): was it the last one? *)
Definition gone (x : nat) (s : es) : es :=
  match s with Es size pool live next mem thr q taken acc kept log =>
  if bool_decide (x ∈ refs s) then s
  else if bool_decide (x < size) && live then Es size (x :: pool) live next mem thr q taken acc kept log           (* the deleter, 53-59 *)
  else Es size pool live next (delete x mem) thr q taken acc kept log end.
Inductive eact := AStart (t : nat) (v : Z) | ABegin (t : nat) | AEnd (t : nat) | AThrow (t : nat) | AOffer (t : nat) | ATake (t : nat) | ACall (t : nat) (keep : bool) | AFinish (t : nat) | ARead (i : nat) | ADrop (i : nat) | ADestroy.
Definition publishing (th : est) : bool := match th with TGot _ _ | TWriting _ _ | TReady _ _ => true | _ => false end.
Definition del_all (l : list nat) (m : gmap nat cell) : gmap nat cell := fold_right (fun x m => delete x m) m l.
Definition e_step (cap : option nat) (s : es) (a : eact) : es :=
  match s with Es size pool live next mem thr q taken acc kept log =>
  match a with
  | AStart t v =>                                                                   (* 82-97, acquire 116-129 *)
      match thr !! t with
      | Some TIdle =>
          if live then match pool with
                       | x :: p => Es size p live next mem (<[t := TGot x v]> thr) q taken acc kept log
                       | [] => Es size [] live (S next) (<[next := Torn]> mem) (<[t := TGot next v]> thr) q taken acc kept log
                       end
          else s
      | _ => s
      end
  | ABegin t => match thr !! t with Some (TGot x v) => Es size pool live next (<[x := Torn]> mem) (<[t := TWriting x v]> thr) q taken acc kept log | _ => s end
  | AEnd t => match thr !! t with Some (TWriting x v) => Es size pool live next (<[x := Whole v]> mem) (<[t := TReady x v]> thr) q taken acc kept log | _ => s end
  | AThrow t =>                                                                     (* the cloner or the process function throws *)
      match thr !! t with Some (TWriting x v) => gone x (Es size pool live next mem (<[t := TIdle]> thr) q taken acc kept (log ++ [LFailed v])) | _ => s end
  | AOffer t =>
      match thr !! t with
      | Some (TReady x v) =>
          match cap with
          | None => Es size pool live next mem (<[t := TDeliver x (length acc)]> thr) q taken (acc ++ [v]) kept log
          | Some n => if bool_decide (length q < n) then Es size pool live next mem (<[t := TIdle]> thr) (q ++ [x]) taken (acc ++ [v]) kept log
                      else gone x (Es size pool live next mem (<[t := TIdle]> thr) q taken acc kept (log ++ [LRefused v]))
          end
      | _ => s
      end
  | ATake t => match thr !! t, q with Some TIdle, x :: q' => Es size pool live next mem (<[t := TDeliver x taken]> thr) q' (S taken) acc kept log | _, _ => s end
  | ACall t keep => match thr !! t with Some (TDeliver x d) => Es size pool live next mem thr q taken acc (kept ++ if keep then [(d, x)] else []) (log ++ [LSeen d (mem !! x)]) | _ => s end
  | AFinish t => match thr !! t with Some (TDeliver x d) => gone x (Es size pool live next mem (<[t := TIdle]> thr) q taken acc kept log) | _ => s end
  | ARead i => match kept !! i with Some (d, x) => Es size pool live next mem thr q taken acc kept (log ++ [LKept d (mem !! x)]) | None => s end
  | ADrop i => match kept !! i with Some (d, x) => gone x (Es size pool live next mem thr q taken acc (delete i kept) log) | None => s end
  | ADestroy =>                                                                     (* ~ObjectPoolPublisher, ~SmartObjectPool 93-104: the publisher is destroyed while nobody uses it *)
      if live && negb (existsb publishing thr) then Es size [] false next (del_all pool mem) thr q taken acc kept log else s
  end end.
Definition e_new (size threads : nat) : es := Es size (seq 0 size) true size (list_to_map ((fun x => (x, Torn)) <$> seq 0 size)) (replicate threads TIdle) [] 0 [] [] [].
Definition e_run (cap : option nat) (size threads : nat) (acts : list eact) : es := fold_left (e_step cap) acts (e_new size threads).
