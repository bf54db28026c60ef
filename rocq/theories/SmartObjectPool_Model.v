(** * Model of kpsr::SmartObjectPool and kpsr::ObjectPoolPublisher
    /repo/core/modules/core/include/klepsydra/core/smart_object_pool.h
    /repo/core/modules/core/include/klepsydra/core/object_pool_publisher.h

    Objects are identified by their address (a [nat]). The underlying
    LockFreeStack is taken at its sequential behaviour [seq_stack], which
    [C02_lfs_sequential] proves of the stack's own model; the concurrent use of
    the pool is treated in [SmartObjectPool_Props] directly on the
    interleaved machine of [LockFreeStack_Model]. *)
From stdpp Require Import prelude gmap.
From Verif Require Import LockFreeStack_Model LockFreeStack_Spec.

Notation obj := nat (only parsing).

(** Pool object plus the ghost logs of what happened to the objects. *)
Record pool := Pool {
  p_alive : bool;            (* this_ptr_ not yet destroyed *)
  p_cap : nat;               (* capacity of pool_ *)
  p_stack : list obj;        (* content of pool_, top first *)
  p_fails : Z;               (* objectPoolFails, line 141 *)
  p_held : list obj;         (* objects owned by live ptr_type values *)
  p_inited : list obj;       (* ghost: given to the initializer *)
  p_finalized : list obj;    (* ghost: given to the finalizer *)
  p_deleted : list obj       (* ghost: deleted *)
}.

(** Constructor, lines 74-96: [size] objects, each passed to the initializer. *)
Definition pool_new (size : nat) : pool :=
  let l := seq 0 size in Pool true size l 0 [] l [] [].

(** Outcome of a call. [OUb]: the call itself is undefined (dangling pool, or a
    pointer released twice, which unique_ptr prevents). *)
Inductive outcome := OGot (x : obj) | OOutOfRange | ODone | OUb.

(** acquire(), lines 113-126. *)
Definition acquire (p : pool) : pool * outcome :=
  if negb (p_alive p) then (p, OUb) else
  match seq_stack (p_cap p) (p_stack p) OPop with
  | (st, RPopped x) =>
      (Pool true (p_cap p) st (p_fails p) (x :: p_held p) (p_inited p) (p_finalized p) (p_deleted p), OGot x)
  | (st, _) =>
      (Pool true (p_cap p) st (p_fails p + 1) (p_held p) (p_inited p) (p_finalized p) (p_deleted p), OOutOfRange)
  end.

(** Remove one occurrence. *)
Fixpoint remove1 (x : obj) (l : list obj) : list obj :=
  match l with
  | [] => []
  | y :: l' => if decide (x = y) then l' else y :: remove1 x l'
  end.

(** Destruction of a ptr_type holding [x]: ReturnToPool_Deleter::operator(),
    lines 51-58, and add(), line 64, which ignores the result of push: if the
    push fails the unique_ptr argument deletes the object. *)
Definition release (x : obj) (p : pool) : pool * outcome :=
  if negb (bool_decide (x ∈ p_held p)) then (p, OUb) else
  let h := remove1 x (p_held p) in
  if p_alive p then
    match seq_stack (p_cap p) (p_stack p) (OPush x) with
    | (st, RPushed) => (Pool true (p_cap p) st (p_fails p) h (p_inited p) (p_finalized p) (p_deleted p), ODone)
    | (st, _) => (Pool true (p_cap p) st (p_fails p) h (p_inited p) (p_finalized p) (x :: p_deleted p), ODone)
    end
  else (Pool false (p_cap p) (p_stack p) (p_fails p) h (p_inited p) (p_finalized p) (x :: p_deleted p), ODone).

(** ~SmartObjectPool(), lines 98-108: pop, finalize and delete until empty. *)
Fixpoint drain (st fin del : list obj) : list obj * list obj :=
  match st with
  | [] => (fin, del)
  | x :: st' => drain st' (x :: fin) (x :: del)
  end.
Definition destroy (p : pool) : pool * outcome :=
  if negb (p_alive p) then (p, OUb) else
  let '(fin, del) := drain (p_stack p) (p_finalized p) (p_deleted p) in
  (Pool false (p_cap p) [] (p_fails p) (p_held p) (p_inited p) fin del, ODone).

Inductive pop_call := CAcquire | CRelease (x : obj) | CDestroy.
Definition pool_step (p : pool) (c : pop_call) : pool * outcome :=
  match c with
  | CAcquire => acquire p
  | CRelease x => release x p
  | CDestroy => destroy p
  end.
Fixpoint pool_run (p : pool) (cs : list pop_call) : pool * list outcome :=
  match cs with
  | [] => (p, [])
  | c :: cs' => let '(p1, o) := pool_step p c in
                let '(p2, os) := pool_run p1 cs' in (p2, o :: os)
  end.

(** ** ObjectPoolPublisher *)
Section Publisher.
Context {T : Type}.

(** The publisher's own state and the heap of event objects it created. *)
Record pubst := Pub {
  b_pool : option pool;         (* _objectPool, nullptr when poolSize == 0 (lines 61-65) *)
  b_fresh : obj;                (* next fresh address *)
  b_heap : gmap obj T;          (* contents *)
  b_loose : list obj;           (* make_shared events still held by receivers *)
  b_allocs : Z;                 (* publicationStats._totalEventAllocations *)
  b_out : list (obj * T)        (* ghost: what internalPublish(shared_ptr) received, newest first *)
}.

(** User functions: value-initialised T, initializerFunction (identity if
    null), eventCloner original cloned (copy if null). *)
Record fns := Fns { f_new : T; f_init : T -> T; f_clone : T -> T -> T; f_default_clone : bool }.

Definition fill (v : T) (l : list obj) : gmap obj T := list_to_map ((fun x => (x, v)) <$> l).

(** Constructor, lines 52-129. The allocation counter starts at poolSize (line 66). *)
Definition pub_new (F : fns) (poolSize : nat) : pubst :=
  Pub (if (poolSize =? 0)%nat then None else Some (pool_new poolSize)) poolSize
      (fill (f_init F (f_new F)) (seq 0 poolSize)) [] (Z.of_nat poolSize) [].

Definition emit (x : obj) (v : T) (h : gmap obj T) (b : pubst) : pubst :=
  Pub (b_pool b) (b_fresh b) (<[x:=v]> h) (b_loose b) (b_allocs b) ((x, v) :: b_out b).
Definition with_pool (p : pool) (b : pubst) : pubst :=
  Pub (Some p) (b_fresh b) (b_heap b) (b_loose b) (b_allocs b) (b_out b).
(** A fresh make_shared event and the counter increment. *)
Definition with_fresh (b : pubst) : pubst :=
  Pub (b_pool b) (S (b_fresh b)) (b_heap b) (b_fresh b :: b_loose b) (b_allocs b + 1) (b_out b).

(** internalPublish(const T&), lines 137-141, through _eventCreatorWrapper:
    lines 82-97 (pool) and 113-125 (no pool).  Simplification: the
    user functions do not throw. *)
Definition publish (F : fns) (v : T) (b : pubst) : option pubst :=
  match b_pool b with
  | Some p =>
      match acquire p with
      | (p', OGot x) =>
          match b_heap b !! x with
          | Some old => Some (emit x (f_clone F v old) (b_heap b) (with_pool p' b))
          | None => None                              (* dangling object *)
          end
      | (p', OOutOfRange) =>
          let b' := with_fresh (with_pool p' b) in
          Some (emit (b_fresh b) (f_clone F v (f_init F (f_new F))) (b_heap b') b')
      | _ => None
      end
  | None =>
      let b' := with_fresh b in
      if f_default_clone F then Some (emit (b_fresh b) v (b_heap b') b')   (* line 117: make_shared<T>(eventData) *)
      else Some (emit (b_fresh b) (f_clone F v (f_init F (f_new F))) (b_heap b') b')
  end.

(** processAndPublish(process), lines 147-152, with lines 98-110 / 127-132. *)
Definition process_and_publish (F : fns) (process : T -> T) (b : pubst) : option pubst :=
  match b_pool b with
  | Some p =>
      match acquire p with
      | (p', OGot x) =>
          match b_heap b !! x with
          | Some old => Some (emit x (process (f_init F old)) (b_heap b) (with_pool p' b))
          | None => None
          end
      | (p', OOutOfRange) =>
          let b' := with_fresh (with_pool p' b) in
          Some (emit (b_fresh b) (process (f_init F (f_new F))) (b_heap b') b')
      | _ => None
      end
  | None => let b' := with_fresh b in
            Some (emit (b_fresh b) (process (f_init F (f_new F))) (b_heap b') b')
  end.

(** A receiver drops its last shared_ptr to [x]: back to the pool or freed. *)
Definition drop (x : obj) (b : pubst) : option pubst :=
  if bool_decide (x ∈ b_loose b) then
    Some (Pub (b_pool b) (b_fresh b) (delete x (b_heap b)) (remove1 x (b_loose b)) (b_allocs b) (b_out b))
  else match b_pool b with
       | Some p => match release x p with
                   | (p', ODone) => Some (with_pool p' b)
                   | _ => None
                   end
       | None => None
       end.

Inductive pub_call := PPublish (v : T) | PProcess (f : T -> T) | PDrop (x : obj).
Definition pub_step (F : fns) (b : pubst) (c : pub_call) : option pubst :=
  match c with
  | PPublish v => publish F v b
  | PProcess f => process_and_publish F f b
  | PDrop x => drop x b
  end.
Fixpoint pub_run (F : fns) (b : pubst) (cs : list pub_call) : option pubst :=
  match cs with
  | [] => Some b
  | c :: cs' => match pub_step F b c with Some b' => pub_run F b' cs' | None => None end
  end.
End Publisher.
Arguments pubst : clear implicits.
Arguments fns : clear implicits.
Arguments pub_call : clear implicits.
