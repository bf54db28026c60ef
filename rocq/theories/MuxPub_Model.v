(** * Model of several threads that publish through one data multiplexer.
    /repo/high_performance/modules/high_performance/include/klepsydra/high_performance/data_multiplexer_publisher.h 96-109 (internalPublish; 115-129 and 135-148 make the same calls to the ring),
    disruptor4cpp/single_producer_sequencer.h 79-80 (initial values), 131-143 (has_available_capacity), 169-180 (try_next), 192-196 (publish),
    disruptor4cpp/batch_event_processor.h 113-125 (the consumers), disruptor4cpp/utils/util.h 82-91 (minimum of the consumers' sequences).
    The words next_value_ and cached_value_ are plain integers; one step is one access to one of the ring's words.
    Simplifications: the scan of the consumers' sequences and the write of cached_value_ (137-138) are one step, an event is copied into its slot in one step,
    handlers do not throw, the wake-up of blocked consumers is left out (Halt_Model.v has it), all consumers are registered before the first publication,
    memory is sequentially consistent (plain words accessed by two threads at once are undefined behaviour in C++, so the real program may do worse). *)
From stdpp Require Import prelude gmap.
Local Open Scope Z_scope.

Inductive mpc :=
| MIdle
| MCached (v n : Z)          (* 133 has read next_value_ = n: read cached_value_ next (135-136) *)
| MScan (v n : Z)            (* 137: scan the consumers, write cached_value_ next *)
| MAdd (v : Z)               (* there is room; 178: read next_value_ next *)
| MStore (v x : Z)           (* 178: write next_value_ := x + 1 next *)
| MSlot (v q : Z)            (* try_next returned q: copy the event into its slot next (publisher 100) *)
| MPubl (v q : Z).           (* publisher 102 / sequencer 194: set the cursor next *)

Record mcons := MC {
  k_seq : Z;                 (* its sequence: everything up to it is released *)
  k_next : Z;                (* batch_event_processor.h 113: next_sequence *)
  k_avail : option Z;        (* 117: what wait_for returned, None: waiting *)
  k_got : list (option Z)    (* the events handed to its listener so far: what was in the slot, None: nothing was ever written there *)
}.
Inductive mev := MAcc (t : nat) (v : Z)  (* publish(v) by thread t returned having published *)
               | MRef (t : nat) (v : Z). (* publish(v) by thread t returned having counted a discarded event *)
Record mst := MSt {
  m_next : Z;                (* next_value_ *)
  m_cached : Z;              (* cached_value_ *)
  m_cursor : Z;
  m_slots : gmap Z Z;
  m_pub : list (mpc * list Z);   (* the publishing threads: where they are, what they will publish *)
  m_cons : list mcons;
  m_log : list mev
}.
(** single_producer_sequencer.h 79-80: all words begin at -1. *)
Definition m_new (ncons : nat) (progs : list (list Z)) : mst :=
  MSt (-1) (-1) (-1) ∅ ((fun p => (MIdle, p)) <$> progs) (replicate ncons (MC (-1) 0 None [])) [].

(** util.h 82-91 *)
Definition m_min (n : Z) (ks : list mcons) : Z := foldr (fun k m => Z.min (k_seq k) m) n ks.

Inductive mact := MPub (t : nat)   (* the next step of publishing thread t *)
                | MCons (c : nat). (* the next step of consumer c *)

Definition m_set (t : nat) (pc : mpc) (r : list Z) (s : mst) : list (mpc * list Z) := <[t := (pc, r)]> (m_pub s).
Definition m_goto (t : nat) (pc : mpc) (r : list Z) (s : mst) : mst := MSt (m_next s) (m_cached s) (m_cursor s) (m_slots s) (m_set t pc r s) (m_cons s) (m_log s).

(** data_multiplexer_publisher.h 96-109 with single_producer_sequencer.h 131-143, 175-179, 192-196 *)
Definition m_pub_step (size : Z) (s : mst) (t : nat) : mst :=
  match m_pub s !! t with
  | None => s
  | Some (MIdle, []) => s
  | Some (MIdle, v :: r) => m_goto t (MCached v (m_next s)) r s
  | Some (MCached v n, r) => if (m_cached s <? n + 1 - size) || (n <? m_cached s) then m_goto t (MScan v n) r s else m_goto t (MAdd v) r s
  | Some (MScan v n, r) =>
      let m := m_min n (m_cons s) in
      if m <? n + 1 - size
      then MSt (m_next s) m (m_cursor s) (m_slots s) (m_set t MIdle r s) (m_cons s) (m_log s ++ [MRef t v])
      else MSt (m_next s) m (m_cursor s) (m_slots s) (m_set t (MAdd v) r s) (m_cons s) (m_log s)
  | Some (MAdd v, r) => m_goto t (MStore v (m_next s)) r s
  | Some (MStore v x, r) => MSt (x + 1) (m_cached s) (m_cursor s) (m_slots s) (m_set t (MSlot v (x + 1)) r s) (m_cons s) (m_log s)
  | Some (MSlot v q, r) => MSt (m_next s) (m_cached s) (m_cursor s) (<[q mod size := v]> (m_slots s)) (m_set t (MPubl v q) r s) (m_cons s) (m_log s)
  | Some (MPubl v q, r) => MSt (m_next s) (m_cached s) q (m_slots s) (m_set t MIdle r s) (m_cons s) (m_log s ++ [MAcc t v])
  end.

(** batch_event_processor.h 117-125 *)
Definition m_cons_step (size cursor : Z) (slots : gmap Z Z) (k : mcons) : mcons :=
  match k_avail k with
  | None => if k_next k <=? cursor then MC (k_seq k) (k_next k) (Some cursor) (k_got k) else k
  | Some a =>
      if k_next k <=? a then MC (k_seq k) (k_next k + 1) (Some a) (k_got k ++ [slots !! (k_next k mod size)])
      else MC a (k_next k) None (k_got k)
  end.

Definition m_step (size : Z) (s : mst) (a : mact) : mst :=
  match a with
  | MPub t => m_pub_step size s t
  | MCons c => MSt (m_next s) (m_cached s) (m_cursor s) (m_slots s) (m_pub s) (alter (m_cons_step size (m_cursor s) (m_slots s)) c (m_cons s)) (m_log s)
  end.
Definition m_run (size : Z) (s : mst) (acts : list mact) : mst := foldl (m_step size) s acts.
