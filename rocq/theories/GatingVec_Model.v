(** * Model of the vector of consumer sequences of a ring, at the level of the vector's own memory.
    /repo/high_performance/modules/high_performance/include/klepsydra/high_performance/disruptor4cpp/multi_producer_sequencer.h 93-102, single_producer_sequencer.h 91-100
    (add_gating_sequences: no lock, executed by the consumer's own thread when an event loop, a multiplexer subscriber or listener is started: event_loop.h 80-85,
    data_multiplexer_subscriber.h 82-87, data_multiplexer_listener.h 64-69); utils/util.h 82-91 (get_minimum_sequence: every claim of a publishing thread may scan the vector:
    multi_producer_sequencer.h 154, 187, 238, single_producer_sequencer.h 137, 160, 185).
    push_back is libstdc++'s: with room, construct the element, then increment the end pointer; without, allocate twice the capacity, copy, free the old buffer, then set the three pointers.
    Any number of threads; one step is one access to a pointer, an element or a sequence.
    Simplifications: copying the old elements is one step; the pointer read from the vector and the sequence it points to are read in one step; memory is sequentially consistent
    (the pointers are plain words, so the real program may do worse); remove_gating_sequence, which nothing in the repository calls, is left out (see Gating_Model.v). *)
From stdpp Require Import prelude.
Local Open Scope Z_scope.

Inductive vop := OAdd (i : nat)          (* add_gating_sequences with the sequence of consumer i *)
               | OScan (m : Z).          (* get_minimum_sequence(gating_sequences_, m) *)
Inductive vpc :=
| VIdle
| VAdd1 (i : nat)                        (* multi 97: read the cursor next *)
| VAdd2 (i : nat) (c : Z)                (* 99: set the sequence next *)
| VAdd3 (i : nat)                        (* 100: push_back: is there room? *)
| VAdd4 (i : nat)                        (* the element is constructed: increment the end pointer next *)
| VNew (i : nat) (b : nat) (n : nat)     (* buffer b holds the n old elements and the new one: free the old buffer next *)
| VSetS (i : nat) (b : nat) (n : nat)    (* set _M_start next *)
| VSetF (i : nat) (b : nat) (n : nat)    (* set _M_finish next *)
| VSetE (i : nat) (b : nat) (n : nat)    (* set _M_end_of_storage next *)
| VScan1 (m0 m : Z) (before : list Z)                              (* util.h 85: begin() next; [before]: ghost, the sequences at the call *)
| VScan2 (m0 m : Z) (before : list Z) (b : option nat)             (* end() next *)
| VScan (m0 m : Z) (before : list Z) (b : option nat) (k : nat) (e : option nat * nat). (* the iterator is element k of buffer b *)

Inductive vev :=
| VAdded (i : nat)                       (* add_gating_sequences returned *)
| VScanned (m0 r : Z) (before after : list Z).   (* a scan with initial value m0 returned r *)

Record vst := Vst {
  v_cursor : Z;
  v_seqs : list Z;                       (* the consumers' sequences *)
  v_bufs : list (bool * list (option nat)); (* all buffers ever allocated: not freed yet, elements (None: not constructed) *)
  v_start : option nat;                  (* _M_start: the buffer, None: null *)
  v_finish : option nat * nat;           (* _M_finish: buffer and offset *)
  v_cap : nat;                           (* _M_end_of_storage as an offset *)
  v_thr : list vpc;
  v_ub : bool;                           (* memory was accessed that is freed, not constructed or out of bounds *)
  v_log : list vev
}.
Definition v_new (threads consumers : nat) : vst := Vst (-1) (replicate consumers (-1)) [] None (None, 0%nat) 0 (replicate threads VIdle) false [].

Inductive vact :=
| VBegin (t : nat) (o : vop)             (* an idle thread calls the function *)
| VStep (t : nat)                        (* next step of thread t *)
| VConsume (i : nat) (q : Z)             (* consumer i has handled everything up to q *)
| VCursor (q : Z).                       (* the cursor moves *)

(** Element k of buffer b. *)
Definition v_read (bufs : list (bool * list (option nat))) (b : option nat) (k : nat) : option nat :=
  match b with
  | None => None
  | Some b => match bufs !! b with Some (true, cells) => match cells !! k with Some (Some x) => Some x | _ => None end | _ => None end
  end.
Definition v_free (b : option nat) (bufs : list (bool * list (option nat))) : list (bool * list (option nat)) :=
  match b with None => bufs | Some b => alter (fun x => (false, snd x)) b bufs end.
Definition v_alive (b : option nat) (bufs : list (bool * list (option nat))) : bool :=
  match b with None => true | Some b => match bufs !! b with Some (al, _) => al | None => false end end.
Definition v_cells (b : option nat) (bufs : list (bool * list (option nat))) : list (option nat) :=
  match b with None => [] | Some b => match bufs !! b with Some (_, cs) => cs | None => [] end end.

Definition v_step1 (s : vst) (t : nat) (pc : vpc) : vst :=
  let to pc' := Vst (v_cursor s) (v_seqs s) (v_bufs s) (v_start s) (v_finish s) (v_cap s) (<[t := pc']> (v_thr s)) (v_ub s) (v_log s) in
  let bad := Vst (v_cursor s) (v_seqs s) (v_bufs s) (v_start s) (v_finish s) (v_cap s) (v_thr s) true (v_log s) in
  match pc with
  | VIdle => s
  | VAdd1 i => to (VAdd2 i (v_cursor s))
  | VAdd2 i c => Vst (v_cursor s) (<[i := c]> (v_seqs s)) (v_bufs s) (v_start s) (v_finish s) (v_cap s) (<[t := VAdd3 i]> (v_thr s)) (v_ub s) (v_log s)
  | VAdd3 i =>
      if decide (snd (v_finish s) = v_cap s) then                                              (* no room *)
        if v_alive (v_start s) (v_bufs s) then
          let n := snd (v_finish s) in
          let cells := take n (v_cells (v_start s) (v_bufs s)) ++ [Some i] ++ replicate (n - 1) None in   (* capacity 2n, or 1 *)
          Vst (v_cursor s) (v_seqs s) (v_bufs s ++ [(true, cells)]) (v_start s) (v_finish s) (v_cap s) (<[t := VNew i (length (v_bufs s)) n]> (v_thr s)) (v_ub s) (v_log s)
        else bad
      else
        match v_finish s with
        | (Some b, k) =>
            match v_bufs s !! b with
            | Some (true, cells) =>
                if (k <? length cells)%nat then
                  Vst (v_cursor s) (v_seqs s) (<[b := (true, <[k := Some i]> cells)]> (v_bufs s)) (v_start s) (v_finish s) (v_cap s) (<[t := VAdd4 i]> (v_thr s)) (v_ub s) (v_log s)
                else bad
            | _ => bad
            end
        | (None, _) => bad
        end
  | VAdd4 i => Vst (v_cursor s) (v_seqs s) (v_bufs s) (v_start s) (fst (v_finish s), S (snd (v_finish s))) (v_cap s) (<[t := VIdle]> (v_thr s)) (v_ub s) (v_log s ++ [VAdded i])
  | VNew i b n =>
      if v_alive (v_start s) (v_bufs s) then
        Vst (v_cursor s) (v_seqs s) (v_free (v_start s) (v_bufs s)) (v_start s) (v_finish s) (v_cap s) (<[t := VSetS i b n]> (v_thr s)) (v_ub s) (v_log s)
      else bad                                                                                 (* freed twice *)
  | VSetS i b n => Vst (v_cursor s) (v_seqs s) (v_bufs s) (Some b) (v_finish s) (v_cap s) (<[t := VSetF i b n]> (v_thr s)) (v_ub s) (v_log s)
  | VSetF i b n => Vst (v_cursor s) (v_seqs s) (v_bufs s) (v_start s) (Some b, S n) (v_cap s) (<[t := VSetE i b n]> (v_thr s)) (v_ub s) (v_log s)
  | VSetE i b n => Vst (v_cursor s) (v_seqs s) (v_bufs s) (v_start s) (v_finish s) (n + 1 + (n - 1))%nat (<[t := VIdle]> (v_thr s)) (v_ub s) (v_log s ++ [VAdded i])
  | VScan1 m0 m before => to (VScan2 m0 m before (v_start s))
  | VScan2 m0 m before b => to (VScan m0 m before b 0 (v_finish s))
  | VScan m0 m before b k e =>
      if decide ((b, k) = e) then                                                              (* util.h 90 *)
        Vst (v_cursor s) (v_seqs s) (v_bufs s) (v_start s) (v_finish s) (v_cap s) (<[t := VIdle]> (v_thr s)) (v_ub s) (v_log s ++ [VScanned m0 m before (v_seqs s)])
      else
        match v_read (v_bufs s) b k with                                                       (* 85 *)
        | Some i =>
            let value := default 0 (v_seqs s !! i) in                                          (* 86 *)
            to (VScan m0 (if value <? m then value else m) before b (S k) e)                   (* 87-88 *)
        | None => bad
        end
  end.

Definition v_step (s : vst) (a : vact) : vst :=
  if v_ub s then s else
  match a with
  | VBegin t o =>
      match v_thr s !! t with
      | Some VIdle =>
          let pc := match o with OAdd i => if (i <? length (v_seqs s))%nat then VAdd1 i else VIdle (* no such consumer *) | OScan m => VScan1 m m (v_seqs s) end in
          Vst (v_cursor s) (v_seqs s) (v_bufs s) (v_start s) (v_finish s) (v_cap s) (<[t := pc]> (v_thr s)) (v_ub s) (v_log s)
      | _ => s
      end
  | VStep t => match v_thr s !! t with Some pc => v_step1 s t pc | None => s end
  | VConsume i q =>
      match v_seqs s !! i with
      | Some q0 => if decide (q0 <= q) then Vst (v_cursor s) (<[i := q]> (v_seqs s)) (v_bufs s) (v_start s) (v_finish s) (v_cap s) (v_thr s) (v_ub s) (v_log s) else s
      | None => s
      end
  | VCursor q => Vst q (v_seqs s) (v_bufs s) (v_start s) (v_finish s) (v_cap s) (v_thr s) (v_ub s) (v_log s)
  end.
Definition v_run (s : vst) (acts : list vact) : vst := fold_left v_step acts s.
