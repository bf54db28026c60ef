(** * Model of the multi-producer ring buffer and its consumers.
    /repo/high_performance/modules/high_performance/include/klepsydra/high_performance/disruptor4cpp/
    multi_producer_sequencer.h, ring_buffer.h, sequence_barrier.h, fixed_sequence_group.h, utils/util.h, batch_event_processor.h (the loop of
    run(); halt() is the subject of Halt_Model.v).
    Any number of producer threads and consumer threads; one step is one access to shared memory. 64-bit sequence numbers
    are integers (2^63 events are out of reach); the conversions to 32-bit int that the code makes are modelled ([wrap32]).
    Memory is sequentially consistent (available_buffer_ is a plain int array: formally a data race in C++).
    The wait strategy (which only decides how a consumer waits until its dependency reaches the next sequence) is a retry.
    compare_exchange_weak may fail spuriously: an input of the schedule. *)
From stdpp Require Import prelude.
Local Open Scope Z_scope.

(** Conversion of a 64-bit integer to int. *)
Definition wrap32 (z : Z) : Z := (z + 2^31) mod 2^32 - 2^31.
Definition fits32 (z : Z) : bool := (- 2^31 <=? z) && (z <? 2^31).

(** The ring has 2^k slots (ring_buffer.h 71; INDEX_SHIFT = log2(BufferSize)). *)
Definition rsize (k : Z) : Z := 2^k.
Definition ring_index (k seq : Z) : Z := Z.land seq (rsize k - 1).                 (* ring_buffer.h 103-111 *)
Definition flag_index (k seq : Z) : Z := Z.land (wrap32 seq) (rsize k - 1).        (* multi_producer_sequencer.h 258 *)
Definition avail_flag (k seq : Z) : Z := wrap32 (Z.shiftr seq k).                  (* lines 253-256 *)

(** One publication by a producer: claim length(vals) sequences (by next(n) if [blocking],
    by try_next(n) otherwise), write the events, publish(lo, hi). *)
Record claim := Claim { cl_blocking : bool; cl_vals : list Z }.
Definition cl_n (c : claim) : Z := Z.of_nat (length (cl_vals c)).

Inductive mpc :=
| MIdle
| MStart                                (* at the top of the loop: cursor_.get() next, lines 149 / 176 *)
| MCap (cur : Z)                        (* cursor read; gating_sequence_cache_.get() next, 153 / 236 *)
| MScan (cur : Z) (i : nat) (m : Z)     (* reading the i-th gating sequence, util.h 64-97 *)
| MCheck (cur m : Z)                    (* minimum known, 156-160 / 239-241 *)
| MCas (cur : Z)                        (* 161 / 181 *)
| MWrite (lo : Z) (i : nat)             (* claimed lo, lo+1, ...; writing the i-th event *)
| MFlag (lo : Z) (i : nat).             (* publish: set_available(lo+i), 200-206 *)
Record prod := Prod { pr_pc : mpc; pr_todo : list claim }.

(** RClaimed: the sequences lo, lo+1, ... were granted for these events; RRefused: insufficient_capacity_exception;
    RBadArg: std::invalid_argument. *)
Inductive presult := RClaimed (lo : Z) (vals : list Z) | RRefused | RBadArg.

(** A consumer: its sequence, its position in the loop of run(). *)
Inductive mcpc :=
| CWait                                 (* wait_for(next) : read the dependencies *)
| CDeps (i : nat) (m : Z)               (* reading the i-th dependency (fixed_sequence_group.h 86-90) *)
| CAvail (seq avail : Z)                (* get_highest_published_sequence: is_available(seq)?, lines 215-222 *)
| CHandle (next avail : Z)              (* inner loop, batch_event_processor.h 117-124 *)
| CSet (v : Z).                         (* sequence_.set(v), line 125 or 147 *)
(** What on_event was given. *)
Record delivery := Delivery { d_seq : Z; d_val : Z; d_end : bool; d_threw : bool (* ghost: it threw *) }.
Record cons := Cons { co_seq : Z; co_pc : mcpc; co_log : list delivery (* ghost *) }.

Record mst := Mst {
  m_cursor : Z;
  m_cache : Z;                          (* gating_sequence_cache_ *)
  m_flags : Z -> Z;                     (* available_buffer_ *)
  m_slots : Z -> Z;                     (* events_ *)
  m_prods : list prod;
  m_cons : list cons;
  m_ub : bool;                          (* signed integer overflow happened; the model goes on with the wrapped value *)
  m_log : list (nat * presult);         (* ghost: results of the calls, oldest first *)
  m_vals : Z -> Z;                      (* ghost: the event its producer means to publish as this sequence *)
  m_pub : Z -> bool                     (* ghost: has been published *)
}.

Definition fupd {A} (f : Z -> A) (i : Z) (v : A) : Z -> A := fun j => if j =? i then v else f j.

(** The ring: k; the gating sequences (indices of consumers); the dependencies of each consumer's barrier. *)
Record ring := Ring { rg_k : Z; rg_gating : list nat; rg_deps : list (list nat) }.

Definition cseq (cs : list cons) (i : nat) : Z := match cs !! i with Some c => co_seq c | None => -1 end.
Definition deps_of (r : ring) (i : nat) : list nat := match rg_deps r !! i with Some l => l | None => [] end.

(** What has_available_capacity(n, int cursor_value) (lines 233-244) and next (148-156) compute with. *)
Definition seen_cursor (c : claim) (cur : Z) : Z := if cl_blocking c then cur else wrap32 cur.
Definition wrap_point (r : ring) (c : claim) (cur : Z) : Z :=
  if cl_blocking c then cur + cl_n c - rsize (rg_k r)                       (* 150-152 *)
  else wrap32 (wrap32 cur + cl_n c) - rsize (rg_k r).                       (* 235: int + int *)

Definition prod_step (r : ring) (s : mst) (t : nat) (cas_ok : bool) : mst :=
  match m_prods s !! t with
  | Some (Prod pc (c :: todo)) =>
      let goto pc' := Mst (m_cursor s) (m_cache s) (m_flags s) (m_slots s) (<[t := Prod pc' (c :: todo)]> (m_prods s)) (m_cons s) (m_ub s) (m_log s) (m_vals s) (m_pub s) in
      let return_ res := Mst (m_cursor s) (m_cache s) (m_flags s) (m_slots s) (<[t := Prod MIdle todo]> (m_prods s)) (m_cons s) (m_ub s) (m_log s ++ [(t, res)]) (m_vals s) (m_pub s) in
      match pc with
      | MIdle => if cl_n c <? 1 then return_ RBadArg else goto MStart          (* 142-143 / 171-172 *)
      | MStart => goto (MCap (m_cursor s))
      | MCap cur =>
          let ub := m_ub s || negb (cl_blocking c || fits32 (wrap32 cur + cl_n c)) in
          let pc' := if (m_cache s <? wrap_point r c cur) || (seen_cursor c cur <? m_cache s)
                     then MScan cur 0 (seen_cursor c cur) else MCas cur in
          Mst (m_cursor s) (m_cache s) (m_flags s) (m_slots s) (<[t := Prod pc' (c :: todo)]> (m_prods s)) (m_cons s) ub (m_log s) (m_vals s) (m_pub s)
      | MScan cur i m =>
          match rg_gating r !! i with
          | Some g => goto (MScan cur (S i) (if cseq (m_cons s) g <? m then cseq (m_cons s) g else m))
          | None => goto (MCheck cur m)
          end
      | MCheck cur m =>
          if cl_blocking c then
            if m <? wrap_point r c cur then goto MStart                        (* yield; continue *)
            else Mst (m_cursor s) m (m_flags s) (m_slots s) (<[t := Prod MStart (c :: todo)]> (m_prods s)) (m_cons s) (m_ub s) (m_log s) (m_vals s) (m_pub s)
          else
            let res := if m <? wrap_point r c cur then (Prod MIdle todo, m_log s ++ [(t, RRefused)]) else (Prod (MCas cur) (c :: todo), m_log s) in
            Mst (m_cursor s) m (m_flags s) (m_slots s) (<[t := res.1]> (m_prods s)) (m_cons s) (m_ub s) res.2 (m_vals s) (m_pub s)
      | MCas cur =>
          if bool_decide (m_cursor s = cur) && cas_ok then
            Mst (cur + cl_n c) (m_cache s) (m_flags s) (m_slots s) (<[t := Prod (MWrite (cur + 1) 0) (c :: todo)]> (m_prods s)) (m_cons s) (m_ub s)
                (m_log s ++ [(t, RClaimed (cur + 1) (cl_vals c))])
                (fun j => if (cur + 1 <=? j) && (j <=? cur + cl_n c) then nth (Z.to_nat (j - (cur + 1))) (cl_vals c) 0 else m_vals s j)
                (m_pub s)
          else goto MStart
      | MWrite lo i =>
          match cl_vals c !! i with
          | Some v => Mst (m_cursor s) (m_cache s) (m_flags s) (fupd (m_slots s) (ring_index (rg_k r) (lo + Z.of_nat i)) v)
                          (<[t := Prod (MWrite lo (S i)) (c :: todo)]> (m_prods s)) (m_cons s) (m_ub s) (m_log s) (m_vals s) (m_pub s)
          | None => goto (MFlag lo 0)
          end
      | MFlag lo i =>
          let seq := lo + Z.of_nat i in
          match cl_vals c !! i with
          | Some _ => Mst (m_cursor s) (m_cache s) (fupd (m_flags s) (flag_index (rg_k r) seq) (avail_flag (rg_k r) seq)) (m_slots s)
                          (<[t := Prod (MFlag lo (S i)) (c :: todo)]> (m_prods s)) (m_cons s) (m_ub s) (m_log s) (m_vals s) (fupd (m_pub s) seq true)
          | None => Mst (m_cursor s) (m_cache s) (m_flags s) (m_slots s) (<[t := Prod MIdle todo]> (m_prods s)) (m_cons s) (m_ub s) (m_log s) (m_vals s) (m_pub s)
          end
      end
  | _ => s
  end.

Definition cons_step (r : ring) (s : mst) (i : nat) (throws : bool) : mst :=
  match m_cons s !! i with
  | Some c =>
      let set c' := Mst (m_cursor s) (m_cache s) (m_flags s) (m_slots s) (m_prods s) (<[i := c']> (m_cons s)) (m_ub s) (m_log s) (m_vals s) (m_pub s) in
      let goto pc' := set (Cons (co_seq c) pc' (co_log c)) in
      let next := co_seq c + 1 in
      match co_pc c with
      | CWait =>                                                   (* sequence_barrier.h 64-69, 82-92 *)
          match deps_of r i with
          | [] => if m_cursor s <? next then s else goto (CAvail next (m_cursor s))
          | d :: _ => goto (CDeps 1 (cseq (m_cons s) d))
          end
      | CDeps j m =>
          match deps_of r i !! j with
          | Some d => goto (CDeps (S j) (if cseq (m_cons s) d <? m then cseq (m_cons s) d else m))
          | None => if m <? next then goto CWait else goto (CAvail next m)
          end
      | CAvail seq avail =>                                        (* 217-221, 208-213 *)
          if avail <? seq then goto (CHandle next avail)
          else if m_flags s (flag_index (rg_k r) seq) =? avail_flag (rg_k r) seq then goto (CAvail (seq + 1) avail)
          else goto (CHandle next (seq - 1))
      | CHandle nx avail =>                                        (* 117-125 *)
          if avail <? nx then goto (CSet avail)
          else
            let log := co_log c ++ [Delivery nx (m_slots s (ring_index (rg_k r) nx)) (nx =? avail) throws] in
            if throws then set (Cons (co_seq c) (CSet nx) log)     (* 141-147 *)
            else set (Cons (co_seq c) (CHandle (nx + 1) avail) log)
      | CSet v => set (Cons v CWait (co_log c))
      end
  | None => s
  end.

Inductive mact := AProd (t : nat) (cas_ok : bool) | ACons (i : nat) (throws : bool).
Definition mstep (r : ring) (s : mst) (a : mact) : mst :=
  match a with AProd t ok => prod_step r s t ok | ACons i th => cons_step r s i th end.
(** A new ring, [nc] consumers, all registered before anything is published. *)
Definition mst_new (nc : nat) (progs : list (list claim)) : mst :=
  Mst (-1) (-1) (fun _ => -1) (fun _ => 0) (Prod MIdle <$> progs) (repeat (Cons (-1) CWait []) nc) false [] (fun _ => 0) (fun _ => false).
Definition mrun (r : ring) (s : mst) (acts : list mact) : mst := fold_left (mstep r) acts s.
