(** * Model of a multi-producer ring on weak memory.
    /repo/high_performance/modules/high_performance/include/klepsydra/high_performance/disruptor4cpp/: multi_producer_sequencer.h 133-223 (next, try_next, publish, is_available,
    get_highest_published_sequence), 230-264 (has_available_capacity, set_available, available_buffer_), sequence.h 71-79, sequence_barrier.h 82-95, batch_event_processor.h 111-146;
    event_loop_publisher.h 116-128 (one event per claim; the slot is written between claim and publication), event_loop_event_handler.h (the handler reads the slot and takes the data out of it).
    Any number of producers and consumers, the consumers registered before the first publication. One step is one memory event (WeakMem.v) or a local decision.
    available_buffer_ (264) is an array of plain ints: reading and writing it does not synchronise. [m_sync] is what it would be like if it did (an array of atomics); in the code it is false.
    The content of an event is its number. Simplifications: sequences are not cut to 32 bits (C24); no dependencies between consumers; a failed compare_exchange is no event;
    the mutex of the wait strategy is left out: a consumer that finds the cursor (which moves at the claim, before the publication) at its sequence does not take it (blocking_wait_strategy.h 70). *)
From stdpp Require Import prelude.
From Verif Require Import WeakMem.
Local Open Scope Z_scope.
Inductive mloc := LCursor | LCache | LSeq (c : nat) | LFlag (i : Z).
#[global] Instance mloc_eq_dec : EqDecision mloc. Proof. solve_decision. Defined.
(** Plain objects: the slots of the ring and (in the code) the flags. *)
Inductive mobj := SData (i : Z) | SFlag (i : Z).
#[global] Instance mobj_eq_dec : EqDecision mobj. Proof. solve_decision. Defined.
(** The content of a slot: event n; (n, false): event n after its data has been taken out. For a flag: (lap, true). *)
Notation mval := (Z * bool)%type.
Notation mop := (wop mloc mobj mval).
Notation mev := (wev mloc mobj mval).
Definition ctid (c : nat) : nat := 2 * c + 1.
Definition ptid (p : nat) : nat := 2 * p + 2.
Inductive mppc :=
| MIdle                                            (* the next step reads the cursor: 143, 177 *)
| MCache (cur : Z)                                 (* reads gating_sequence_cache_: 147, 233 *)
| MScan (cur : Z) (todo : list nat) (m : Z)        (* 149, 235 *)
| MStore (cur m : Z)                               (* stores gating_sequence_cache_: 154, 236 *)
| MCas (cur : Z)                                   (* 155, 181 *)
| MFill (n : Z)                                    (* the claim is granted: the slot is written *)
| MFlag (n : Z).                                   (* publish: 250 *)
Inductive mcpc :=
| MWait (next : Z)                                 (* reads the cursor *)
| MLook (next k avail : Z)                         (* get_highest_published_sequence: 215-222, at sequence k *)
| MHandle (cur avail : Z)
| MReset (cur avail : Z)                           (* the handler takes the data out *)
| MFail (cur : Z).
Record mcfg := MCfg { m_size : Z; m_sync : bool; m_resets : bool }.
Record mst := Mst { m_tr : list mev; m_last : nat (* the latest write of the cursor *); m_cursor : Z (* its value *); m_prods : list mppc; m_cons : list mcpc }.
(** [MProd p from flag]: a step of producer p; [from]: what an atomic read reads from; [flag]: this is next() rather than try_next(); for the compare_exchange: it does not fail spuriously. *)
Inductive mact := MProd (p : nat) (from : nat) (flag : bool) | MCons (c : nat) (from : nat) (throws : bool).
Definition m_value (tr : list mev) (l : mloc) (from : nat) : option Z :=
  match tr !! from with
  | Some (Ev _ (AWrite l' v)) => if decide (l' = l) then Some v else None
  | Some (Ev _ (ARmw l' _ v)) => if decide (l' = l) then Some v else None
  | _ => None
  end.
(** The value a plain read of a flag gives if it reads from event [from]: with unordered accesses it may be any earlier one. *)
Definition m_plain (tr : list mev) (x : mobj) (from : nat) : option Z :=
  match tr !! from with Some (Ev _ (DWrite y (v, _))) => if decide (y = x) then Some v else None | _ => None end.
Definition m_content (tr : list mev) (x : mobj) : mval :=
  fold_left (fun o e => match ev_op e with DWrite y v => if decide (y = x) then v else o | _ => o end) tr (-1, false).
Definition m_new (nprod ncons : nat) : mst :=
  Mst (Ev 0 (AWrite LCursor (-1)) :: Ev 0 (AWrite LCache (-1)) :: ((fun c => Ev 0 (AWrite (LSeq c) (-1))) <$> seq 0 ncons)) 0 (-1) (replicate nprod MIdle) (replicate ncons (MWait 0)).
Definition m_emit (s : mst) (o : option mev) (prods : list mppc) (cons : list mcpc) : mst :=
  Mst (m_tr s ++ match o with Some e => [e] | None => [] end) (m_last s) (m_cursor s) prods cons.
Definition m_pstep (g : mcfg) (s : mst) (p : nat) (from : nat) (flag : bool) (pc : mppc) : mst :=
  let goto o pc' := m_emit s o (<[p := pc']> (m_prods s)) (m_cons s) in
  match pc with
  | MIdle => match m_value (m_tr s) LCursor from with Some v => goto (Some (Ev (ptid p) (ARead LCursor from v))) (MCache v) | None => s end
  | MCache cur =>
      match m_value (m_tr s) LCache from with
      | Some v => goto (Some (Ev (ptid p) (ARead LCache from v)))
                    (if (v <? cur + 1 - m_size g) || (cur <? v) then MScan cur (seq 0 (length (m_cons s))) cur else MCas cur)
      | None => s
      end
  | MScan cur (c :: todo) m =>
      match m_value (m_tr s) (LSeq c) from with
      | Some v => goto (Some (Ev (ptid p) (ARead (LSeq c) from v))) (MScan cur todo (if v <? m then v else m))
      | None => s
      end
  | MScan cur [] m =>
      if flag && (m <? cur + 1 - m_size g) then goto None MIdle              (* next(): 150-153 *)
      else goto None (MStore cur m)
  | MStore cur m =>
      goto (Some (Ev (ptid p) (AWrite LCache m)))
        (if flag then MIdle                                                  (* next(): 154, and round again *)
         else if m <? cur + 1 - m_size g then MIdle                          (* try_next(): refused, 237-238 *)
         else MCas cur)
  | MCas cur =>
      if flag && (m_cursor s =? cur)
      then Mst (m_tr s ++ [Ev (ptid p) (ARmw LCursor (m_last s) (cur + 1))]) (length (m_tr s)) (cur + 1) (<[p := MFill (cur + 1)]> (m_prods s)) (m_cons s)
      else goto None MIdle
  | MFill n => goto (Some (Ev (ptid p) (DWrite (SData (n mod m_size g)) (n, true)))) (MFlag n)
  | MFlag n => goto (Some (Ev (ptid p) (if m_sync g then AWrite (LFlag (n mod m_size g)) (n / m_size g) else DWrite (SFlag (n mod m_size g)) (n / m_size g, true)))) MIdle
  end.
Definition m_cstep (g : mcfg) (s : mst) (c : nat) (from : nat) (throws : bool) (pc : mcpc) : mst :=
  let goto o pc' := m_emit s o (m_prods s) (<[c := pc']> (m_cons s)) in
  match pc with
  | MWait next =>
      match m_value (m_tr s) LCursor from with
      | Some v => goto (Some (Ev (ctid c) (ARead LCursor from v))) (if v <? next then MWait next else MLook next next v)
      | None => s
      end
  | MLook next k avail =>
      if k <=? avail then
        match (if m_sync g then m_value (m_tr s) (LFlag (k mod m_size g)) from else m_plain (m_tr s) (SFlag (k mod m_size g)) from) with
        | Some f => goto (Some (Ev (ctid c) (if m_sync g then ARead (LFlag (k mod m_size g)) from f else DRead (SFlag (k mod m_size g)) (f, true))))
                      (if f =? k / m_size g then MLook next (k + 1) avail else MHandle next (k - 1))
        | None => goto None (MHandle next (k - 1))                            (* the initial flag, -1 *)
        end
      else goto None (MHandle next avail)
  | MHandle cur avail =>
      if cur <=? avail
      then goto (Some (Ev (ctid c) (DRead (SData (cur mod m_size g)) (m_content (m_tr s) (SData (cur mod m_size g))))))
             (if throws then MFail cur else if m_resets g then MReset cur avail else MHandle (cur + 1) avail)
      else goto (Some (Ev (ctid c) (AWrite (LSeq c) avail))) (MWait (avail + 1))
  | MReset cur avail => goto (Some (Ev (ctid c) (DWrite (SData (cur mod m_size g)) (cur, false)))) (MHandle (cur + 1) avail)
  | MFail cur => goto (Some (Ev (ctid c) (AWrite (LSeq c) cur))) (MWait (cur + 1))
  end.
Definition m_step (g : mcfg) (s : mst) (a : mact) : mst :=
  match a with
  | MProd p from flag => match m_prods s !! p with Some pc => m_pstep g s p from flag pc | None => s end
  | MCons c from throws => match m_cons s !! c with Some pc => m_cstep g s c from throws pc | None => s end
  end.
Definition m_run (g : mcfg) (nprod ncons : nat) (acts : list mact) : mst := fold_left (m_step g) acts (m_new nprod ncons).
(** The contents consumer [c] read, in order. *)
Definition m_reads (c : nat) (tr : list mev) : list mval := omap (fun e => match e with Ev t (DRead (SData _) v) => if decide (t = ctid c) then Some v else None | _ => None end) tr.
