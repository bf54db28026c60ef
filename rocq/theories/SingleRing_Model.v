(** * Model of the single-producer ring buffer and its consumers, and of the data multiplexer built on it.
    /repo/high_performance/modules/high_performance/include/klepsydra/high_performance/
      disruptor4cpp/single_producer_sequencer.h, ring_buffer.h, sequence_barrier.h, utils/util.h, batch_event_processor.h (the loop of run())
      data_multiplexer_publisher.h, data_multiplexer_event_handler.h, data_multiplexer_subscriber.h, data_multiplexer_middleware_provider.h.
    One producer thread, any number of consumer threads; one step is one access to shared memory. The slots hold pointers to
    heap objects (DataMultiplexerDataWrapper::eventData is a shared_ptr; data_multiplexer_event_data.h 35-53).
    Simplifications: 64-bit sequences are integers; sequential consistency; the wait strategy is a retry; consumers have
    no dependencies between them (MultiRing_Model.v has them); the registration of a consumer is two steps (reading the cursor, then setting its
    sequence and adding it to the gating vector: the push_back itself is a data race in C++ when the producer is scanning). *)
From stdpp Require Import prelude.
From Verif Require Import MultiRing_Model.
Local Open Scope Z_scope.

(** How the content of a claimed slot is produced: a new object put in the slot (data_multiplexer_publisher.h 79-81),
    an assignment to the object already there (69-76, 82-83, 141), or nothing, because the process function threw (141: publish is then skipped). *)
Inductive wkind := WFresh | WInPlace | WSkip.
(** A publication: claim length(vals) sequences by next(n) or try_next(n), write; then publish the last one if [pub]. SPublish: publish all claimed so far. *)
Inductive sop := SClaim (blocking : bool) (vals : list (wkind * Z)) (pub : bool) | SPublish.
Inductive sres := SClaimed (lo : Z) (vals : list (wkind * Z)) | SRefused | SBadArg | SPublished (hi : Z).

Inductive spc :=
| PIdle
| PScan (i : nat) (m : Z)                (* get_minimum_sequence: reading the i-th gating sequence, util.h 82-91 *)
| PCheck (m : Z)
| PWrite (lo : Z) (i : nat)
| PPub.                                  (* publish: cursor_.set, single_producer_sequencer.h 192-196 *)

Inductive scpc :=
| SNew                                   (* thread not registered yet *)
| SReg (v : Z)                           (* add_gating_sequences has read the cursor, line 97 *)
| SWait                                  (* wait_for(next): the cursor, sequence_barrier.h 82-92; get_highest_published_sequence is the identity, 202-205 *)
| SHandle (next avail : Z)               (* batch_event_processor.h 117-124 *)
| SSet (v : Z).                          (* 125 or 147 *)
(** What on_event was given: sequence, object, its content at that moment, end_of_batch. *)
Record sdel := SDel { e_seq : Z; e_obj : Z; e_val : Z; e_end : bool; e_threw : bool }.
Record scons := SCons { sc_seq : Z; sc_pc : scpc; sc_start : Z (* ghost: position at registration *); sc_log : list sdel (* ghost *) }.

Record sst := Sst {
  s_cursor : Z; s_next : Z; s_cached : Z;
  s_slots : Z -> Z;                      (* slot -> object *)
  s_heap : Z -> Z;                       (* object -> content *)
  s_nobj : Z;                            (* objects allocated so far *)
  s_pc : spc; s_todo : list sop;
  s_gating : list nat;
  s_cons : list scons;
  s_log : list sres;                     (* ghost: results of the producer's calls *)
  s_vals : Z -> Z                        (* ghost: the content its publication means for this sequence *)
}.
(** 2^k slots. [sr_end_only]: the handler can only throw at the end of a batch: so it is for the data multiplexer, whose handler runs user code
    (emitEvent) only then (data_multiplexer_event_handler.h 80-94). *)
Record sring := SRing { sr_k : Z; sr_end_only : bool }.
Definition scseq (cs : list scons) (i : nat) : Z := match cs !! i with Some c => sc_seq c | None => -1 end.
Definition s_n (vals : list (wkind * Z)) : Z := Z.of_nat (length vals).

(** The claim succeeds: next_value_ advances (165 / 178). *)
Definition s_claim (s : sst) (cached : Z) (vals : list (wkind * Z)) : sst :=
  Sst (s_cursor s) (s_next s + s_n vals) cached (s_slots s) (s_heap s) (s_nobj s) (PWrite (s_next s + 1) 0) (s_todo s) (s_gating s) (s_cons s)
      (s_log s ++ [SClaimed (s_next s + 1) vals])
      (fun j => if (s_next s + 1 <=? j) && (j <=? s_next s + s_n vals) then (nth (Z.to_nat (j - (s_next s + 1))) vals (WSkip, 0)).2 else s_vals s j).
Definition s_goto (s : sst) (pc : spc) : sst :=
  Sst (s_cursor s) (s_next s) (s_cached s) (s_slots s) (s_heap s) (s_nobj s) pc (s_todo s) (s_gating s) (s_cons s) (s_log s) (s_vals s).
Definition s_done (s : sst) (cached : Z) (todo : list sop) (res : list sres) : sst :=
  Sst (s_cursor s) (s_next s) cached (s_slots s) (s_heap s) (s_nobj s) PIdle todo (s_gating s) (s_cons s) (s_log s ++ res) (s_vals s).
(** wrap_point > cached || cached > next_value: lines 136, 157. *)
Definition s_must_scan (N next cached n : Z) : bool := (cached <? next + n - N) || (next <? cached).

Definition sprod_step (r : sring) (s : sst) : sst :=
  let N := rsize (sr_k r) in
  match s_todo s with
  | [] => s
  | SPublish :: todo =>
      Sst (s_next s) (s_next s) (s_cached s) (s_slots s) (s_heap s) (s_nobj s) PIdle todo (s_gating s) (s_cons s) (s_log s ++ [SPublished (s_next s)]) (s_vals s)
  | SClaim blocking vals pub :: todo =>
      let wrap := s_next s + s_n vals - N in
      match s_pc s with
      | PIdle =>
          if s_n vals <? 1 then s_done s (s_cached s) todo [SBadArg]                                  (* 149-150, 173-174 *)
          else if s_must_scan N (s_next s) (s_cached s) (s_n vals) then s_goto s (PScan 0 (s_next s))
          else s_claim s (s_cached s) vals
      | PScan i m =>
          match s_gating s !! i with
          | Some g => s_goto s (PScan (S i) (if scseq (s_cons s) g <? m then scseq (s_cons s) g else m))
          | None => s_goto s (PCheck m)
          end
      | PCheck m =>
          if blocking then (if m <? wrap then s_goto s (PScan 0 (s_next s)) else s_claim s m vals)    (* 158-163 *)
          else (if m <? wrap then s_done s m todo [SRefused] else s_claim s m vals)                   (* 137-142, 175-178 *)
      | PWrite lo i =>
          let idx := ring_index (sr_k r) (lo + Z.of_nat i) in
          match vals !! i with
          | Some (WFresh, v) => Sst (s_cursor s) (s_next s) (s_cached s) (fupd (s_slots s) idx (s_nobj s)) (fupd (s_heap s) (s_nobj s) v) (s_nobj s + 1)
                                    (PWrite lo (S i)) (s_todo s) (s_gating s) (s_cons s) (s_log s) (s_vals s)
          | Some (WInPlace, v) => Sst (s_cursor s) (s_next s) (s_cached s) (s_slots s) (fupd (s_heap s) (s_slots s idx) v) (s_nobj s)
                                    (PWrite lo (S i)) (s_todo s) (s_gating s) (s_cons s) (s_log s) (s_vals s)
          | Some (WSkip, _) => s_done s (s_cached s) todo []
          | None => if pub then s_goto s PPub else s_done s (s_cached s) todo []
          end
      | PPub => Sst (s_next s) (s_next s) (s_cached s) (s_slots s) (s_heap s) (s_nobj s) PIdle todo (s_gating s) (s_cons s) (s_log s ++ [SPublished (s_next s)]) (s_vals s)
      end
  end.

Definition scons_step (r : sring) (s : sst) (i : nat) (throws : bool) : sst :=
  match s_cons s !! i with
  | Some c =>
      let set_g g c' := Sst (s_cursor s) (s_next s) (s_cached s) (s_slots s) (s_heap s) (s_nobj s) (s_pc s) (s_todo s) g (<[i := c']> (s_cons s)) (s_log s) (s_vals s) in
      let set := set_g (s_gating s) in
      let goto pc' := set (SCons (sc_seq c) pc' (sc_start c) (sc_log c)) in
      match sc_pc c with
      | SNew => goto (SReg (s_cursor s))
      | SReg v => set_g (s_gating s ++ [i]) (SCons v SWait v (sc_log c))                              (* 98-101 *)
      | SWait => if s_cursor s <? sc_seq c + 1 then s else goto (SHandle (sc_seq c + 1) (s_cursor s))
      | SHandle nx avail =>
          if avail <? nx then goto (SSet avail)
          else
            let threw := throws && (negb (sr_end_only r) || (nx =? avail)) in
            let o := s_slots s (ring_index (sr_k r) nx) in
            let log := sc_log c ++ [SDel nx o (s_heap s o) (nx =? avail) threw] in
            if threw then set (SCons (sc_seq c) (SSet nx) (sc_start c) log)
            else set (SCons (sc_seq c) (SHandle (nx + 1) avail) (sc_start c) log)
      | SSet v => set (SCons v SWait (sc_start c) (sc_log c))
      end
  | None => s
  end.

Inductive sact := SP | SC (i : nat) (throws : bool).
Definition sstep (r : sring) (s : sst) (a : sact) : sst := match a with SP => sprod_step r s | SC i th => scons_step r s i th end.
Definition srun (r : sring) (s : sst) (acts : list sact) : sst := fold_left (sstep r) acts s.
(** A new ring with [nc] consumer threads about to register. The objects in the slots are distinct (default constructor of the wrapper, ring_buffer
    with initializer), or all the same one (provider constructed from a model event: ring_buffer.h 85-92 copies the shared_ptr). *)
Definition sst_new (shared_model : bool) (k : Z) (nc : nat) (prog : list sop) : sst :=
  Sst (-1) (-1) (-1) (fun i => if shared_model then 0 else i) (fun _ => 0) (rsize k) PIdle prog [] (repeat (SCons (-1) SNew (-1) []) nc) [] (fun _ => 0).
