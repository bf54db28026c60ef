(** * Model of a single-producer ring on weak memory.
    /repo/high_performance/modules/high_performance/include/klepsydra/high_performance/disruptor4cpp/: single_producer_sequencer.h 119-188 (has_available_capacity, next, try_next, publish),
    sequence.h 71-73 (get is an acquire load, set a release store), batch_event_processor.h 111-146 (the consumer's loop), sequence_barrier.h 82-95, util.h 65-74 (minimum);
    data_multiplexer_event_handler.h (handlers read the slot), data_multiplexer_publisher.h (one event per claim).
    One producer thread (0), any number of consumer threads (1, 2, ...), registered before the first publication. One step is one memory event (see WeakMem.v) or a local decision.
    The content of an event is its number. Simplifications: no dependencies between consumers; the wait strategy only reads the cursor (its mutex would only order more);
    the end of the loop is left out. *)
From stdpp Require Import prelude.
From Verif Require Import WeakMem.
Local Open Scope Z_scope.
Inductive wloc := LCursor | LSeq (c : nat).
#[global] Instance wloc_eq_dec : EqDecision wloc. Proof. solve_decision. Defined.
(** Slots are numbered; a slot holds nothing yet, or an event. *)
Notation wop1 := (wop wloc Z (option Z)).
Notation wev1 := (wev wloc Z (option Z)).
Inductive wppc :=
| WIdle
| WScan (todo : list nat) (m : Z)       (* get_minimum_sequence: 127, 152; the consumers still to read, the minimum so far *)
| WFill                                 (* the claim is granted: the user writes the slot *)
| WPub.                                 (* publish: 196 *)
Inductive wcpc :=
| WWait (next : Z)                      (* batch_event_processor.h 115 *)
| WHandle (cur avail : Z)               (* 116-124 *)
| WFail (cur : Z).                      (* 139-146: the handler threw *)
Record wst := Wst { w_tr : list wev1; w_next : Z (* next_value_ *); w_cached : Z (* cached_value_ *); w_pc : wppc; w_cons : list wcpc }.
(** [WProd from again]: a step of the producer; [from]: what an atomic read reads from; [again]: without enough room, try again (next, 152-155) or give up (try_next, 129-130). *)
Inductive wact := WProd (from : nat) (again : bool) | WCons (c : nat) (from : nat) (throws : bool).
(** The value of the write event [from], if it is a write to [l]. *)
Definition value_from (tr : list wev1) (l : wloc) (from : nat) : option Z :=
  match tr !! from with
  | Some (Ev _ (AWrite l' v)) => if decide (l' = l) then Some v else None
  | _ => None
  end.
(** What a plain read of slot [x] gives. *)
Definition slot_content (tr : list wev1) (x : Z) : option Z :=
  fold_left (fun o e => match ev_op e with DWrite y v => if decide (y = x) then v else o | _ => o end) tr None.
Definition w_new (ncons : nat) : wst :=
  Wst (Ev 0 (AWrite LCursor (-1)) :: ((fun c => Ev 0 (AWrite (LSeq c) (-1))) <$> seq 0 ncons)) (-1) (-1) WIdle (replicate ncons (WWait 0)).
Definition w_step (size : Z) (s : wst) (a : wact) : wst :=
  match a with
  | WProd from again =>
      let wrap := w_next s + 1 - size in
      let all := seq 0 (length (w_cons s)) in
      match w_pc s with
      | WIdle =>                                                                                    (* 121-126, 145-149 *)
          if (w_cached s <? wrap) || (w_next s <? w_cached s)
          then Wst (w_tr s) (w_next s) (w_cached s) (WScan all (w_next s)) (w_cons s)
          else Wst (w_tr s) (w_next s + 1) (w_cached s) WFill (w_cons s)
      | WScan (c :: todo) m =>
          match value_from (w_tr s) (LSeq c) from with
          | Some v => Wst (w_tr s ++ [Ev 0 (ARead (LSeq c) from v)]) (w_next s) (w_cached s) (WScan todo (if v <? m then v else m)) (w_cons s)
          | None => s
          end
      | WScan [] m =>
          if m <? wrap
          then if again then Wst (w_tr s) (w_next s) (w_cached s) (WScan all (w_next s)) (w_cons s)
               else Wst (w_tr s) (w_next s) m WIdle (w_cons s)
          else Wst (w_tr s) (w_next s + 1) m WFill (w_cons s)
      | WFill => Wst (w_tr s ++ [Ev 0 (DWrite (w_next s mod size) (Some (w_next s)))]) (w_next s) (w_cached s) WPub (w_cons s)
      | WPub => Wst (w_tr s ++ [Ev 0 (AWrite LCursor (w_next s))]) (w_next s) (w_cached s) WIdle (w_cons s)
      end
  | WCons c from throws =>
      match w_cons s !! c with
      | Some (WWait next) =>
          match value_from (w_tr s) LCursor from with
          | Some v => Wst (w_tr s ++ [Ev (S c) (ARead LCursor from v)]) (w_next s) (w_cached s) (w_pc s)
                          (<[c := if v <? next then WWait next else WHandle next v]> (w_cons s))
          | None => s
          end
      | Some (WHandle cur avail) =>
          if cur <=? avail
          then Wst (w_tr s ++ [Ev (S c) (DRead (cur mod size) (slot_content (w_tr s) (cur mod size)))]) (w_next s) (w_cached s) (w_pc s)
                   (<[c := if throws then WFail cur else WHandle (cur + 1) avail]> (w_cons s))
          else Wst (w_tr s ++ [Ev (S c) (AWrite (LSeq c) avail)]) (w_next s) (w_cached s) (w_pc s) (<[c := WWait (avail + 1)]> (w_cons s))
      | Some (WFail cur) => Wst (w_tr s ++ [Ev (S c) (AWrite (LSeq c) cur)]) (w_next s) (w_cached s) (w_pc s) (<[c := WWait (cur + 1)]> (w_cons s))
      | None => s
      end
  end.
Definition w_run (size : Z) (ncons : nat) (acts : list wact) : wst := fold_left (w_step size) acts (w_new ncons).
(** The contents consumer [c] read, in order. *)
Definition reads_of (c : nat) (tr : list wev1) : list (option Z) := omap (fun e => match e with Ev t (DRead _ v) => if decide (t = S c) then Some v else None | _ => None end) tr.
