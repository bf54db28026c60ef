(** * Model of an event loop over its whole life: publications before start(), between stop() and start(), restarts.
    /repo/high_performance/modules/high_performance/include/klepsydra/high_performance/
      event_loop.h 69-140, event_loop_publisher.h 94-128, disruptor4cpp/multi_producer_sequencer.h 93-102, 168-186, 233-244,
      disruptor4cpp/utils/util.h 89-98, disruptor4cpp/batch_event_processor.h 95-156.
    Simplifications: internalPublish and start() are one step each (their interleavings are in EventLoop_Model.v, MultiRing_Model.v and Halt_Model.v), stop()
    is two (halt, and the end of the thread it waits for); fewer than 2^31 publications, so that the conversions to int change nothing (C22, C23);
    the handling of an event is one step; names and listeners are in EventLoop_Model.v. start() does not time out. *)
From stdpp Require Import prelude.
From Verif Require Import MultiRing_Model.
Local Open Scope Z_scope.

Inductive llife := LOff | LOn | LHalting.         (* LHalting: stop() has called halt() and waits in join() *)
Inductive lpc := LWait | LBatch (avail : Z).       (* at wait_for; handling up to avail *)
Inductive lev :=
| EAcc (q z : Z)                                   (* internalPublish took sequence q for data z *)
| ERef (z : Z)                                     (* insufficient capacity: refused and counted *)
| EWarn (q : Z)                                    (* data left behind in the slot *)
| EHandle (q : Z) (v : option Z)                   (* on_event for sequence q with data v *)
| EStarted                                         (* start() returned *)
| EHalt                                            (* stop() was called *)
| EStopped.                                        (* stop() returned *)
Record lst := Lst {
  l_cursor : Z;
  l_cache : Z;                                     (* gating_sequence_cache_ *)
  l_gating : nat;                                  (* entries in gating_sequences_ : all point to the sequence of the processor *)
  l_seq : Z;                                       (* sequence_ of the processor *)
  l_next : Z;                                      (* next_sequence, local to run() *)
  l_life : llife;
  l_pc : lpc;
  l_slots : Z -> option Z;
  l_log : list lev                                 (* ghost: oldest first *)
}.
Inductive lact := LPublish (z : Z) | LStart | LStop | LLoop (throws : bool).

(** get_minimum_sequence(gating_sequences_, cursor): util.h 89-98. *)
Definition l_min (s : lst) : Z := match l_gating s with O => l_cursor s | S _ => Z.min (l_cursor s) (l_seq s) end.
(** event_loop_publisher.h 116-128 with try_next (multi_producer_sequencer.h 168-186, 233-244). *)
Definition l_publish (k : Z) (s : lst) (z : Z) : lst :=
  let wrap := l_cursor s + 1 - rsize k in
  let scan := (l_cache s <? wrap) || (l_cursor s <? l_cache s) in
  let cache := if scan then l_min s else l_cache s in
  if scan && (cache <? wrap) then Lst (l_cursor s) cache (l_gating s) (l_seq s) (l_next s) (l_life s) (l_pc s) (l_slots s) (l_log s ++ [ERef z])
  else
    let q := l_cursor s + 1 in
    let warn := match l_slots s (ring_index k q) with Some _ => [EWarn q] | None => [] end in
    Lst q cache (l_gating s) (l_seq s) (l_next s) (l_life s) (l_pc s) (fupd (l_slots s) (ring_index k q) (Some z)) (l_log s ++ warn ++ [EAcc q z]).
Definition l_step (k : Z) (s : lst) (a : lact) : lst :=
  match a with
  | LPublish z => l_publish k s z
  | LStart =>                                      (* event_loop.h 101-120, 80-89; multi_producer_sequencer.h 93-102; batch_event_processor.h 113 *)
      match l_life s with
      | LOff => Lst (l_cursor s) (l_cache s) (S (l_gating s)) (l_cursor s) (l_cursor s + 1) LOn LWait (l_slots s) (l_log s ++ [EStarted])
      | _ => s
      end
  | LStop =>                                       (* event_loop.h 125-131 *)
      match l_life s with
      | LOn => Lst (l_cursor s) (l_cache s) (l_gating s) (l_seq s) (l_next s) LHalting (l_pc s) (l_slots s) (l_log s ++ [EHalt])
      | _ => s
      end
  | LLoop throws =>
      match l_life s, l_pc s with
      | LOff, _ => s
      | LHalting, LWait => Lst (l_cursor s) (l_cache s) (l_gating s) (l_seq s) (l_next s) LOff LWait (l_slots s) (l_log s ++ [EStopped])   (* batch_event_processor.h 132-138, 154-155 *)
      | LOn, LWait => if l_cursor s <? l_next s then s
                      else Lst (l_cursor s) (l_cache s) (l_gating s) (l_seq s) (l_next s) (l_life s) (LBatch (l_cursor s)) (l_slots s) (l_log s)
      | _, LBatch avail =>                         (* 118-125, 141-147 *)
          if avail <? l_next s then Lst (l_cursor s) (l_cache s) (l_gating s) avail (l_next s) (l_life s) LWait (l_slots s) (l_log s)
          else let idx := ring_index k (l_next s) in
               let log := l_log s ++ [EHandle (l_next s) (l_slots s idx)] in
               if throws then Lst (l_cursor s) (l_cache s) (l_gating s) (l_next s) (l_next s + 1) (l_life s) LWait (l_slots s) log
               else Lst (l_cursor s) (l_cache s) (l_gating s) (l_seq s) (l_next s + 1) (l_life s) (l_pc s) (fupd (l_slots s) idx None) log
      end
  end.
Definition l_run (k : Z) (acts : list lact) : lst := fold_left (l_step k) acts (Lst (-1) (-1) 0 (-1) 0 LOff LWait (fun _ => None) []).
