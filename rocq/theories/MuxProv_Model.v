(** * Model of DataMultiplexerMiddlewareProvider's access by name, from several threads.
    /repo/high_performance/modules/high_performance/include/klepsydra/high_performance/data_multiplexer_middleware_provider.h 87-98, 110-119 (container), 129-142 (getSubscriber), 155-165 (setContainer).
    event_loop_middleware_provider.h 136-155: getSubscriber of the event loop provider has the same find, create and assign on its _subscriberMap, also without a mutex (its setContainer is another: not modelled).
    The map has no mutex. One step is: find and, if the name is there, return (131-134); or create the subscriber, assign the map entry and return (136-141).
    operator= on the map entry destroys the shared_ptr that was there, and with it the subscriber (the map held the only reference).
    Simplifications: a subscriber's construction does not fail (C115, C116 are about that), setContainer is one step, setContainer of the base class Subscriber (which is not in the repository)
    stores the container; the map's own operations are atomic (two of them at once, one writing, are undefined behaviour in C++, so the real program may do worse).
    Not modelled: the publisher (a member: getPublisher always returns its address), the log line of setContainer about running subscribers (it changes the container all the same). *)
From stdpp Require Import prelude gmap strings.

Inductive mpreq := MGet (name : string)       (* getSubscriber(name) *)
                 | MSetC (c : nat).           (* setContainer(c); 0 is the null pointer *)
Inductive mppc := MPIdle | MPCreate (name : string).
Inductive mpev := MGot (t : nat) (name : string) (o : nat)   (* getSubscriber(name), called by thread t, has returned object o *)
                | MSet (t : nat) (c : nat).
Record mpst := MPst {
  mp_map : gmap string nat;                 (* _subscriberMap *)
  mp_objs : gmap nat (string * nat);        (* the live subscribers: name, container *)
  mp_next : nat;                            (* ghost: next object number *)
  mp_cont : nat;                            (* _container *)
  mp_thr : list (mppc * list mpreq);
  mp_log : list mpev
}.
Definition mp_new (c : nat) (progs : list (list mpreq)) : mpst := MPst ∅ ∅ 0 c ((fun p => (MPIdle, p)) <$> progs) [].
(** 160-164: the subscribers that are in the map *)
Definition set_all (c : nat) (m : gmap string nat) (objs : gmap nat (string * nat)) : gmap nat (string * nat) :=
  foldr (fun kv acc => alter (fun x => (x.1, c)) kv.2 acc) objs (map_to_list m).
Definition mp_step (s : mpst) (t : nat) : mpst :=
  match mp_thr s !! t with
  | Some (MPIdle, MGet n :: r) =>                                                            (* 131-134 *)
      match mp_map s !! n with
      | Some o => MPst (mp_map s) (mp_objs s) (mp_next s) (mp_cont s) (<[t := (MPIdle, r)]> (mp_thr s)) (mp_log s ++ [MGot t n o])
      | None => MPst (mp_map s) (mp_objs s) (mp_next s) (mp_cont s) (<[t := (MPCreate n, r)]> (mp_thr s)) (mp_log s)
      end
  | Some (MPCreate n, r) =>                                                                  (* 136-141 *)
      let o := mp_next s in
      let objs := match mp_map s !! n with Some old => delete old (mp_objs s) | None => mp_objs s end in
      MPst (<[n := o]> (mp_map s)) (<[o := (n, mp_cont s)]> objs) (S o) (mp_cont s) (<[t := (MPIdle, r)]> (mp_thr s)) (mp_log s ++ [MGot t n o])
  | Some (MPIdle, MSetC c :: r) =>                                                           (* 155-165 *)
      MPst (mp_map s) (set_all c (mp_map s) (mp_objs s)) (mp_next s) c (<[t := (MPIdle, r)]> (mp_thr s)) (mp_log s ++ [MSet t c])
  | _ => s
  end.
Definition mp_run (s : mpst) (sched : list nat) : mpst := fold_left mp_step sched s.
