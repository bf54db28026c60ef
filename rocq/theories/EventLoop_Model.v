(** * Model of the event loop while it runs: publishers, ring, loop thread, subscribers.
    /repo/high_performance/modules/high_performance/include/klepsydra/high_performance/
      event_loop_publisher.h, event_loop_event_handler.h, event_loop_subscriber.h, event_loop_data_wrapper.h,
    on top of the multi-producer ring of MultiRing_Model.v (same granularity for everything the ring does).
    Any number of publishing threads, any number of publisher objects (a thread may use several, several threads may share one),
    one loop thread; other threads create subscribers and register or remove listeners at any moment.
    Simplifications: the loop has been started before the first publication (start and stop are in EventLoopLife_Model.v and Halt_Model.v);
    the fields of a slot are written in one step (the slot belongs to the writer then); enqueuedTimeInNs is left out;
    an event is identified by a number [z], [ec_pub z] tells the publisher object and the data (the shared_ptr);
    both emitters take a snapshot of their listeners and call them in order (SafeEmitter_Model.v, UnsafeEmitters_Model.v);
    subscribers are not destroyed while the loop runs; static_pointer_cast is assumed to be to the right type (Provider_Model.v). *)
From stdpp Require Import prelude strings.
From Verif Require Import MultiRing_Model.
Local Open Scope Z_scope.

Record elcfg := ElCfg {
  ec_k : Z;                          (* the ring has 2^k slots *)
  ec_names : list string;            (* _eventName of each publisher object *)
  ec_pub : Z -> nat * Z              (* publication -> publisher object, data *)
}.
Definition ev_name (g : elcfg) (z : Z) : string := default EmptyString (ec_names g !! (ec_pub g z).1).
Definition ev_data (g : elcfg) (z : Z) : Z := (ec_pub g z).2.
(** event_loop.h 69-94: one consumer, which gates the producers and has no dependencies. *)
Definition el_rg (g : elcfg) : ring := Ring (ec_k g) [0%nat] [[]].

(** EventloopDataWrapper. *)
Record wrapper := Wrapper { w_data : option Z; w_name : string }.
(** A publisher's thread in the catch block, event_loop_publisher.h 124-127: _discardedMessages++ on a plain integer. *)
Inductive disc_pc := DNone | DRead (p : nat) | DWrite (p : nat) (v : Z).
(** The loop thread inside on_event. *)
Inductive hpc :=
| HNone
| HSubs (todo : list nat)                                    (* external emitter: subscribers still to be called *)
| HCalls (u : nat) (data : option Z) (cbs todo : list nat).  (* emitter of subscriber u: listeners still to be called *)

Inductive elev :=
| VNewSub (name : string) | VReg (u cb : nat) | VUnreg (u cb : nat)
| VAccept (t : nat) (z seq : Z) | VRefuse (t : nat) (z : Z)
| VWarn (seq : Z)                                            (* "Unexpected non-nullptr pointer in ringbuffer" *)
| VDispatch (seq : Z) (name : string) (data : option Z)      (* on_event starts *)
| VCall (seq : Z) (u cb : nat) (data : option Z)             (* a listener is called *)
| VDone (seq : Z) | VThrew (seq : Z).                        (* on_event returns, or is left by a std::exception *)

Record elst := El {
  el_ring : mst;
  el_wr : Z -> wrapper;               (* events_ of the ring *)
  el_disc : list Z;                   (* _discardedMessages of each publisher object *)
  el_dpc : list disc_pc;              (* one for each publishing thread *)
  el_h : hpc;
  el_subs : list (string * list nat); (* subscribers in order of creation: event name, registered listeners *)
  el_log : list elev                  (* ghost: oldest first *)
}.

(** EventLoopPublisher::internalPublish by thread t, event_loop_publisher.h 116-128. *)
Definition el_prod (g : elcfg) (s : elst) (t : nat) (ok : bool) : elst :=
  match el_dpc s !! t with
  | Some (DRead p) => El (el_ring s) (el_wr s) (el_disc s) (<[t := DWrite p (default 0 (el_disc s !! p))]> (el_dpc s)) (el_h s) (el_subs s) (el_log s)
  | Some (DWrite p v) => El (el_ring s) (el_wr s) (<[p := v + 1]> (el_disc s)) (<[t := DNone]> (el_dpc s)) (el_h s) (el_subs s) (el_log s)
  | Some DNone =>
      let ring' := prod_step (el_rg g) (el_ring s) t ok in
      match m_prods (el_ring s) !! t with
      | Some (Prod (MWrite lo 0) (Claim _ [z] :: _)) =>          (* 120-122, with the step of lines 94-109 *)
          let old := el_wr s (ring_index (ec_k g) lo) in
          El ring' (fupd (el_wr s) (ring_index (ec_k g) lo) (Wrapper (Some (ev_data g z)) (ev_name g z)))
             (el_disc s) (el_dpc s) (el_h s) (el_subs s) (el_log s ++ match w_data old with Some _ => [VWarn lo] | None => [] end)
      | Some (Prod _ (Claim _ [z] :: _)) =>
          match drop (length (m_log (el_ring s))) (m_log ring') with
          | [(_, RClaimed lo _)] => El ring' (el_wr s) (el_disc s) (el_dpc s) (el_h s) (el_subs s) (el_log s ++ [VAccept t z lo])
          | [(_, RRefused)] => El ring' (el_wr s) (el_disc s) (<[t := DRead (ec_pub g z).1]> (el_dpc s)) (el_h s) (el_subs s) (el_log s ++ [VRefuse t z])
          | _ => El ring' (el_wr s) (el_disc s) (el_dpc s) (el_h s) (el_subs s) (el_log s)
          end
      | _ => El ring' (el_wr s) (el_disc s) (el_dpc s) (el_h s) (el_subs s) (el_log s)
      end
  | None => s
  end.

(** Subscribers whose listener on the external emitter is for "name_external" (event_loop_subscriber.h 70-73), in order. *)
Fixpoint subs_for (name : string) (i : nat) (l : list (string * list nat)) : list nat :=
  match l with
  | [] => []
  | (n, _) :: l => if bool_decide (String.append n "_external" = String.append name "_external") then i :: subs_for name (S i) l else subs_for name (S i) l
  end.

(** The loop thread: batch_event_processor::run with EventLoopEventHandler::on_event (event_loop_event_handler.h 75-85).
    [throws]: the listener called now throws a std::exception. *)
Definition el_loop (g : elcfg) (s : elst) (throws : bool) : elst :=
  match m_cons (el_ring s) !! 0%nat with
  | Some (Cons sq (CHandle nx avail) lg) =>
      let idx := ring_index (ec_k g) nx in
      if avail <? nx then El (cons_step (el_rg g) (el_ring s) 0 false) (el_wr s) (el_disc s) (el_dpc s) (el_h s) (el_subs s) (el_log s)
      else match el_h s with
      | HNone => El (el_ring s) (el_wr s) (el_disc s) (el_dpc s) (HSubs (subs_for (w_name (el_wr s idx)) 0 (el_subs s))) (el_subs s)
                    (el_log s ++ [VDispatch nx (w_name (el_wr s idx)) (w_data (el_wr s idx))])
      | HSubs [] =>                                            (* 84: event.eventData.reset() *)
          El (cons_step (el_rg g) (el_ring s) 0 false) (fupd (el_wr s) idx (Wrapper None (w_name (el_wr s idx)))) (el_disc s) (el_dpc s) HNone (el_subs s)
             (el_log s ++ [VDone nx])
      | HSubs (u :: todo) =>                                   (* event_loop_subscriber.h 63-69 *)
          El (el_ring s) (el_wr s) (el_disc s) (el_dpc s) (HCalls u (w_data (el_wr s idx)) (match el_subs s !! u with Some x => x.2 | None => [] end) todo) (el_subs s) (el_log s)
      | HCalls u data [] todo => El (el_ring s) (el_wr s) (el_disc s) (el_dpc s) (HSubs todo) (el_subs s) (el_log s)
      | HCalls u data (cb :: cbs) todo =>
          if throws then El (cons_step (el_rg g) (el_ring s) 0 true) (el_wr s) (el_disc s) (el_dpc s) HNone (el_subs s) (el_log s ++ [VCall nx u cb data; VThrew nx])
          else El (el_ring s) (el_wr s) (el_disc s) (el_dpc s) (HCalls u data cbs todo) (el_subs s) (el_log s ++ [VCall nx u cb data])
      end
  | _ => El (cons_step (el_rg g) (el_ring s) 0 false) (el_wr s) (el_disc s) (el_dpc s) (el_h s) (el_subs s) (el_log s)
  end.

Inductive elact :=
| EProd (t : nat) (cas_ok : bool)
| ELoop (throws : bool)
| ENewSub (name : string)              (* EventLoopSubscriber constructor, event_loop_subscriber.h 55-74 *)
| EReg (u cb : nat)                    (* registerListener on subscriber u *)
| EUnreg (u cb : nat).                 (* removeListener *)
Definition el_step (g : elcfg) (s : elst) (a : elact) : elst :=
  let set subs e := El (el_ring s) (el_wr s) (el_disc s) (el_dpc s) (el_h s) subs (el_log s ++ [e]) in
  match a with
  | EProd t ok => el_prod g s t ok
  | ELoop th => el_loop g s th
  | ENewSub name => set (el_subs s ++ [(name, [])]) (VNewSub name)
  | EReg u cb => match el_subs s !! u with Some (n, l) => set (<[u := (n, l ++ [cb])]> (el_subs s)) (VReg u cb) | None => s end
  | EUnreg u cb => match el_subs s !! u with Some (n, l) => set (<[u := (n, filter (fun x => x <> cb) l)]> (el_subs s)) (VUnreg u cb) | None => s end
  end.
Definition el_run (g : elcfg) (s : elst) (acts : list elact) : elst := fold_left (el_step g) acts s.
(** internalPublish claims one slot with try_next (line 119). *)
Definition el_claims (l : list Z) : list claim := (fun z => Claim false [z]) <$> l.
(** [progs]: what each thread publishes, in order. *)
Definition el_new (g : elcfg) (progs : list (list Z)) : elst :=
  El (mst_new 1 (el_claims <$> progs)) (fun _ => Wrapper None EmptyString) (replicate (length (ec_names g)) 0)
     (replicate (length progs) DNone) HNone [] [].
