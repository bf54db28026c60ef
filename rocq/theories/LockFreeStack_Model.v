(** * Model of kpsr::LockFreeStack
    /repo/core/modules/core/include/klepsydra/core/lock_free_stack.h

    One step of the machine below is one shared-memory access of one thread
    (atomic load, read or write of a node's [index_next], compare-and-swap,
    move of one data element).  Simplifications:
    - accesses are sequentially consistent (the code uses relaxed/acq_rel);
    - the plain reads and writes of [index_next] are treated as atomic (they
      race in C++: see [lfs_index_next_race_reachable] in the proofs);
    - a moved-from data element keeps its value (it is overwritten before
      being read again). *)
From stdpp Require Import base list numbers.
Local Open Scope Z_scope.

(** UNDEF_INDEX, line 30. *)
Definition UNDEF : Z := 65535.
(** Conversion to uint16_t (fields of node_t / head_t, lines 34-43). *)
Definition u16 (x : Z) : Z := x mod 65536.

(** head_t, lines 39-53.  [cnt] is ghost state: the number of successful
    compare-and-swaps on this head so far.  It is never read by the code. *)
Record head_t := Head { aba : Z; idx : Z; cnt : Z }.

(** compare_exchange compares the bytes of head_t: [aba] and [node_index]. *)
Definition head_eqb (a b : head_t) : bool := (aba a =? aba b) && (idx a =? idx b).

Section Model.
Context {T : Type}.

(** The two public operations: push(data), lines 88-97; pop(data), 99-107. *)
Inductive op := OPush (v : T) | OPop.

(** What an operation returns to its caller. *)
Inductive result := RPushed | RPushFull | RPopped (v : T) | RPopEmpty.

(** Program counter and locals of a thread inside push or pop. Both
    operations are [_pop(src); move data; _push(dst)] with src/dst =
    free_nodes/head for push and head/free_nodes for pop. *)
Inductive pc :=
| Idle
| PopLoad (o : op)                              (* line 112: orig = h.load() *)
| PopRead (o : op) (orig : head_t)              (* lines 114-117 *)
| PopCas (o : op) (orig : head_t) (nxt : Z)     (* lines 118-121 *)
| Move (o : op) (i : Z)                         (* line 94 or line 104 *)
| PushLoad (o : op) (i : Z) (r : result)        (* line 127: orig = h.load() *)
| PushSet (o : op) (i : Z) (r : result) (orig : head_t)   (* line 129 *)
| PushCas (o : op) (i : Z) (r : result) (orig : head_t)   (* lines 132-135 *)
| Ub.                                           (* undefined behaviour reached *)

(** Observable history (calls and returns) plus the ghost linearization marks. *)
Inductive event :=
| ECall (t : nat) (o : op)
| ELin (t : nat) (o : op) (r : result)
| ERet (t : nat) (r : result).

Record cfg := Cfg {
  nexts : list Z;        (* node_buffer[i].index_next *)
  data : list T;         (* data_buffer *)
  hd : head_t;           (* head *)
  fr : head_t;           (* free_nodes *)
  thr : list pc;         (* the threads *)
  hist : list event      (* newest first *)
}.

(** Constructor, lines 67-86, for capacity >= 1 (capacity 0, and the writes one by one:
    LfsCtor_Model.v).  [index_next = i + 1] is a
    conversion to uint16_t. The elements after [initFunction] are [d]. *)
Definition init_nexts (cap : Z) : list Z :=
  (fun i => if Z.of_nat i <? cap - 1 then u16 (Z.of_nat i + 1) else UNDEF)
    <$> seq 0 (Z.to_nat cap).
Definition init (d : list T) (nthreads : nat) : cfg :=
  Cfg (init_nexts (Z.of_nat (length d))) d
      (Head 0 0 0)                  (* line 85: head_t(node_buffer, &node_buffer[0]) *)
      (Head 0 UNDEF 0)              (* line 70: free_nodes = head_t() *)
      (replicate nthreads Idle) [].

(** Which head is the source of [_pop] and the destination of [_push]. *)
Definition src (o : op) (s : cfg) : head_t := match o with OPush _ => fr s | OPop => hd s end.
Definition dst (o : op) (s : cfg) : head_t := match o with OPush _ => hd s | OPop => fr s end.
Definition set_src (o : op) (h : head_t) (s : cfg) : cfg :=
  match o with
  | OPush _ => Cfg (nexts s) (data s) (hd s) h (thr s) (hist s)
  | OPop => Cfg (nexts s) (data s) h (fr s) (thr s) (hist s)
  end.
Definition set_dst (o : op) (h : head_t) (s : cfg) : cfg :=
  match o with
  | OPush _ => Cfg (nexts s) (data s) h (fr s) (thr s) (hist s)
  | OPop => Cfg (nexts s) (data s) (hd s) h (thr s) (hist s)
  end.
Definition set_pc (t : nat) (p : pc) (s : cfg) : cfg :=
  Cfg (nexts s) (data s) (hd s) (fr s) (<[t:=p]> (thr s)) (hist s).
Definition set_next (i : Z) (n : Z) (s : cfg) : cfg :=
  Cfg (<[Z.to_nat i:=n]> (nexts s)) (data s) (hd s) (fr s) (thr s) (hist s).
Definition set_data (i : Z) (v : T) (s : cfg) : cfg :=
  Cfg (nexts s) (<[Z.to_nat i:=v]> (data s)) (hd s) (fr s) (thr s) (hist s).
Definition add_ev (e : event) (s : cfg) : cfg :=
  Cfg (nexts s) (data s) (hd s) (fr s) (thr s) (e :: hist s).

(** Head written by a successful CAS: [next.aba = orig.aba + 1], lines 116, 130. *)
Definition bump (cur orig : head_t) (i : Z) : head_t := Head (u16 (aba orig + 1)) i (cnt cur + 1).

(** One step of thread [t], which is at [p]. [spur]: compare_exchange_weak may
    fail spuriously. *)
Definition step_pc (t : nat) (p : pc) (spur : bool) (s : cfg) : cfg :=
  match p with
  | Idle => s
  | Ub => s
  | PopLoad o => set_pc t (PopRead o (src o s)) s
  | PopRead o orig =>
      if idx orig =? UNDEF then                       (* lines 114-115, then 91-92 / 102-103 *)
        let r := match o with OPush _ => RPushFull | OPop => RPopEmpty end in
        add_ev (ERet t r) (set_pc t Idle s)
      else match nexts s !! Z.to_nat (idx orig) with  (* line 117 *)
           | None => set_pc t Ub s
           | Some n => set_pc t (PopCas o orig n) s
           end
  | PopCas o orig n =>
      if negb spur && head_eqb (src o s) orig then
        let s1 := set_pc t (Move o (idx orig)) (set_src o (bump (src o s) orig n) s) in
        match o with
        | OPush _ => s1
        | OPop => match data s !! Z.to_nat (idx orig) with   (* ghost: a pop takes effect here *)
                  | Some v => add_ev (ELin t OPop (RPopped v)) s1
                  | None => set_pc t Ub s
                  end
        end
      else set_pc t (PopRead o (src o s)) s           (* failed CAS reloads orig *)
  | Move o i =>
      match o with
      | OPush v => set_pc t (PushLoad o i RPushed) (set_data i v s)          (* line 94 *)
      | OPop => match data s !! Z.to_nat i with                              (* line 104 *)
                | None => set_pc t Ub s
                | Some v => set_pc t (PushLoad o i (RPopped v)) s
                end
      end
  | PushLoad o i r => set_pc t (PushSet o i r (dst o s)) s
  | PushSet o i r orig => set_pc t (PushCas o i r orig) (set_next i (idx orig) s)
  | PushCas o i r orig =>
      if negb spur && head_eqb (dst o s) orig then
        let s1 := set_dst o (bump (dst o s) orig i) s in
        let s2 := match o with OPush _ => add_ev (ELin t o RPushed) s1 | OPop => s1 end in
        add_ev (ERet t r) (set_pc t Idle s2)
      else set_pc t (PushSet o i r (dst o s)) s
  end.

(** Ghost: a failing operation takes effect at the load that saw the empty
    list (line 112, or the reload by a failed CAS, lines 118-121). *)
Definition lin_fail (t : nat) (o : op) (s : cfg) : cfg :=
  if idx (src o s) =? UNDEF then
    add_ev (ELin t o (match o with OPush _ => RPushFull | OPop => RPopEmpty end)) s
  else s.

Inductive act := ACall (t : nat) (o : op) | AStep (t : nat) (spur : bool).

Definition loads (p : pc) (spur : bool) (s : cfg) : option op :=
  match p with
  | PopLoad o => Some o
  | PopCas o orig _ => if negb spur && head_eqb (src o s) orig then None else Some o
  | _ => None
  end.

Definition exec (s : cfg) (a : act) : cfg :=
  match a with
  | ACall t o =>
      match thr s !! t with
      | Some Idle => add_ev (ECall t o) (set_pc t (PopLoad o) s)
      | _ => s
      end
  | AStep t spur =>
      match thr s !! t with
      | Some p =>
          match loads p spur s with
          | Some o => lin_fail t o (step_pc t p spur s)
          | None => step_pc t p spur s
          end
      | None => s
      end
  end.

Definition run (s : cfg) (acts : list act) : cfg := fold_left exec acts s.

End Model.
Arguments op : clear implicits.
Arguments result : clear implicits.
Arguments pc : clear implicits.
Arguments event : clear implicits.
Arguments cfg : clear implicits.
Arguments act : clear implicits.
