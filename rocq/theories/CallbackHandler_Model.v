(** * Model of kpsr::CallbackHandler and kpsr::MultiThreadCallbackHandler.
    /repo/core/modules/core/include/klepsydra/core/callback_handler.h lines 95-150, 203-245.
    Requests, replies and callbacks are numbers. What the user code does is given
    by an environment: the correlation function, what happens synchronously while a
    request is published (nothing, for an asynchronous middleware), what a callback does, and
    whether it throws. Each thread is a stack of frames; a step executes one frame.
    The handler outlives all calls; logging is not modelled. *)
From stdpp Require Import prelude.

(** A call of the handler made by user code or by the subscriber. *)
Inductive act := Req (r cb : nat) (* requestAndReply *) | Rep (p : nat) (* onReplyReceived *).

Record env := Env {
  e_match : nat -> nat -> bool;         (* _correlationFunction(request, reply) *)
  e_pub : nat -> list act;              (* calls made by the thread inside _publisher->publish(request) *)
  e_cb : nat -> nat -> list act;        (* calls made by callback cb on reply p *)
  e_throw : nat -> nat -> bool;         (* does it then throw *)
  e_mt : bool;                          (* MultiThreadCallbackHandler *)
  e_grow : nat -> nat                   (* std::vector growth, beyond 1 *)
}.

(** An element of _requestCallbackVector; [en_id] is ghost: the number of the request. *)
Record entry := Entry { en_id : nat; en_req : nat; en_cb : nat }.

Inductive frame :=
| Acts (l : list act)                   (* user code: calls still to make *)
| Do (a : act)                          (* body of a handler method, lock already taken if any *)
| Erase (i : nat) (valid : bool)        (* line 131: erase(it), it = begin + i; is the iterator valid *)
| Unlock                                (* ~lock_guard *)
| Throw.                                (* exception being propagated *)

Inductive hev := Issued (u r cb : nat) | Answered (u cb p : nat) | Unmatched (p : nat).

Record hst := Hst {
  h_vec : list entry;
  h_cap : nat;                          (* capacity() of the vector *)
  h_next : nat;                         (* ghost: number of requests made *)
  h_lock : option nat;                  (* _mutex (line 244): owner *)
  h_ub : bool;                          (* undefined behaviour happened *)
  h_thr : list (list frame);
  h_log : list hev                      (* ghost, oldest first *)
}.

(** Iterator invalidation: erase at k invalidates iterators at or after k,
    reallocation invalidates all. *)
Definition invalidate (k : nat) (f : frame) : frame :=
  match f with Erase i v => Erase i (v && (i <? k)) | _ => f end.
Definition invalidate_all (k : nat) (thr : list (list frame)) : list (list frame) := map (map (invalidate k)) thr.
Fixpoint find_match (m : nat -> nat -> bool) (p : nat) (i : nat) (l : list entry) : option (nat * entry) :=
  match l with
  | [] => None
  | e :: l' => if m (en_req e) p then Some (i, e) else find_match m p (S i) l'
  end.

Definition step (E : env) (s : hst) (t : nat) : hst :=
  let set stk := <[t := stk]> (h_thr s) in
  if h_ub s then s else
  match h_thr s !! t with
  | None | Some [] => s
  | Some (f :: rest) =>
      match f with
      | Acts [] => Hst (h_vec s) (h_cap s) (h_next s) (h_lock s) false (set rest) (h_log s)
      | Acts (a :: l) =>
          if e_mt E then                                      (* lines 232, 239: lock_guard *)
            match h_lock s with
            | None => Hst (h_vec s) (h_cap s) (h_next s) (Some t) false
                          (set (Do a :: Unlock :: Acts l :: rest)) (h_log s)
            | Some _ => s                                     (* blocked *)
            end
          else Hst (h_vec s) (h_cap s) (h_next s) (h_lock s) false (set (Do a :: Acts l :: rest)) (h_log s)
      | Do (Req r cb) =>                                      (* lines 119-122 *)
          let full := length (h_vec s) =? h_cap s in
          let thr := set (Acts (e_pub E r) :: rest) in
          Hst (h_vec s ++ [Entry (h_next s) r cb])
              (if full then S (h_cap s + e_grow E (h_cap s)) else h_cap s)
              (S (h_next s)) (h_lock s) false
              (if full then invalidate_all 0 thr else thr)
              (h_log s ++ [Issued (h_next s) r cb])
      | Do (Rep p) =>                                         (* lines 128-139 *)
          match find_match (e_match E) p 0 (h_vec s) with
          | Some (i, e) =>
              Hst (h_vec s) (h_cap s) (h_next s) (h_lock s) false
                  (set (Acts (e_cb E (en_cb e) p) ::
                        (if e_throw E (en_cb e) p then [Throw] else []) ++ Erase i true :: rest))
                  (h_log s ++ [Answered (en_id e) (en_cb e) p])
          | None => Hst (h_vec s) (h_cap s) (h_next s) (h_lock s) false (set rest) (h_log s ++ [Unmatched p])
          end
      | Erase i v =>
          if v then Hst (delete i (h_vec s)) (h_cap s) (h_next s) (h_lock s) false
                        (invalidate_all i (set rest)) (h_log s)
          else Hst (h_vec s) (h_cap s) (h_next s) (h_lock s) true (set rest) (h_log s)
      | Unlock => Hst (h_vec s) (h_cap s) (h_next s) None false (set rest) (h_log s)
      | Throw =>                                              (* unwind down to the thread's own code *)
          match rest with
          | [] | [_] => Hst (h_vec s) (h_cap s) (h_next s) (h_lock s) false (set rest) (h_log s)
          | g :: rest' => Hst (h_vec s) (h_cap s) (h_next s)
                              (match g with Unlock => None | _ => h_lock s end) false (set (Throw :: rest')) (h_log s)
          end
      end
  end.

(** [progs]: for each thread, the calls it makes. *)
Definition hst_new (progs : list (list act)) : hst :=
  Hst [] 0 0 None false ((fun l => [Acts l]) <$> progs) [].
Definition run (E : env) (s : hst) (sched : list nat) : hst := fold_left (step E) sched s.
