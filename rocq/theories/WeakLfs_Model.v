(** * Model of the lock-free stack on weak memory.
    /repo/core/modules/core/include/klepsydra/core/lock_free_stack.h 30-53 (node_t, head_t), 67-86 (constructor), 88-107 (push, pop), 110-136 (_pop, _push).
    Any number of threads make lists of calls of push and pop, after the stack has been built and handed to them. One step is one memory event (WeakMem.v) or a relaxed load, which orders nothing and so is
    no event: it reads any earlier write of its location. head and free_nodes are atomic; a successful compare_exchange_weak is an acquire and release read-modify-write of the latest value, a failed one an
    acquire load of any. index_next and the elements are plain objects; a read of index_next that is not ordered after the latest write may return any earlier value.
    An element is a number; -1 is what std::move leaves behind (a null std::unique_ptr, in a SmartObjectPool).
    Simplifications: a read of an element returns the latest write (it matters only if there is a race, see C201); what the constructor wrote is not in the trace, but the initial values of the two heads are. *)
From stdpp Require Import prelude.
From Verif Require Import WeakMem.
Local Open Scope Z_scope.
Inductive lloc := LHead | LFree.
#[global] Instance lloc_eq_dec : EqDecision lloc. Proof. solve_decision. Defined.
Inductive lobj := XNext (i : Z) | XData (i : Z).
#[global] Instance lobj_eq_dec : EqDecision lobj. Proof. solve_decision. Defined.
Notation lev := (wev lloc lobj Z).
(** head_t, 40-53: the tag and the index of a node, 16 bits each. *)
Definition undef : Z := 65535.                                                    (* 30 *)
Definition enc (tag i : Z) : Z := (tag mod 65536) * 65536 + i.
Definition tag_of (v : Z) : Z := v / 65536.
Definition idx_of (v : Z) : Z := v mod 65536.
Inductive lop := LPush (v : Z) | LPop.
Definition takes_from (o : lop) : lloc := match o with LPush _ => LFree | LPop => LHead end.   (* 91, 101 *)
Definition gives_to (o : lop) : lloc := match o with LPush _ => LHead | LPop => LFree end.     (* 95, 105 *)
Inductive lpc :=
| LIdle                            (* before the relaxed load of _pop, 112 *)
| LNext (orig : Z)                 (* 114-117 *)
| LCas (orig nxt : Z)              (* 118 *)
| LData (node : Z)                 (* 94, 104 *)
| LMoved (node v : Z)              (* 104: the element has been read, what is left behind is written *)
| LGive (node v : Z)               (* before the relaxed load of _push, 127 *)
| LSet (node v orig : Z)           (* 129 *)
| LGcas (node v orig : Z).         (* 132 *)
Inductive lres := Pushed | Full | Popped (v : Z) | Empty.
Record lthread := Lthread { lt_pc : lpc; lt_todo : list lop }.
Record lst := Lst { l_tr : list lev; l_head : nat; l_free : nat (* the latest writes of the two heads *); l_thr : list lthread; l_log : list (nat * lres) }.
Definition l_last (s : lst) (l : lloc) : nat := match l with LHead => l_head s | LFree => l_free s end.
(** The value that event [from] wrote to [l]; that it wrote to a plain object. *)
Definition l_value (tr : list lev) (l : lloc) (from : nat) : option Z :=
  match tr !! from with
  | Some (Ev _ (AWrite l' v)) => if decide (l' = l) then Some v else None
  | Some (Ev _ (ARmw l' _ v)) => if decide (l' = l) then Some v else None
  | _ => None
  end.
Definition l_plain (tr : list lev) (x : lobj) (from : nat) : option Z :=
  match tr !! from with Some (Ev _ (DWrite y v)) => if decide (y = x) then Some v else None | _ => None end.
(** The constructor, 75-85. *)
Definition next0 (cap i : Z) : Z := if i =? cap - 1 then undef else i + 1.
Definition l_content (tr : list lev) (i : Z) : Z :=
  fold_left (fun o e => match ev_op e with DWrite y v => if decide (y = XData i) then v else o | _ => o end) tr i.
Definition l_new (progs : list (list lop)) : lst :=
  Lst [Ev 0 (AWrite LHead (enc 0 0)); Ev 0 (AWrite LFree (enc 0 undef))] 0 1 (Lthread LIdle <$> progs) [].
Definition l_tid (t : nat) : nat := S t.
(** [LStep t from ok]: a step of thread t; [from]: what it reads from (an index outside the trace: the constructor's value of index_next); [ok]: the compare_exchange does not fail. *)
Inductive lact := LStep (t : nat) (from : nat) (ok : bool).
Definition l_emit (s : lst) (o : option lev) (t : nat) (th : lthread) : lst :=
  Lst (l_tr s ++ match o with Some e => [e] | None => [] end) (l_head s) (l_free s) (<[t := th]> (l_thr s)) (l_log s).
(** A successful compare_exchange_weak of [l]. *)
Definition l_cas (s : lst) (t : nat) (l : lloc) (v : Z) (th : lthread) (log : list (nat * lres)) : lst :=
  let n := length (l_tr s) in
  Lst (l_tr s ++ [Ev (l_tid t) (ARmw l (l_last s l) v)]) (match l with LHead => n | LFree => l_head s end) (match l with LFree => n | LHead => l_free s end)
    (<[t := th]> (l_thr s)) (l_log s ++ log).
Definition l_tstep (cap : Z) (s : lst) (t : nat) (from : nat) (ok : bool) (pc : lpc) (o : lop) (rest : list lop) : lst :=
  let goto e pc' := l_emit s e t (Lthread pc' (o :: rest)) in
  let retry l k := match l_value (l_tr s) l from with Some v => goto (Some (Ev (l_tid t) (ARead l from v))) (k v) | None => s end in
  match pc with
  | LIdle => match l_value (l_tr s) (takes_from o) from with Some v => goto None (LNext v) | None => s end
  | LNext orig =>
      if idx_of orig =? undef
      then Lst (l_tr s) (l_head s) (l_free s) (<[t := Lthread LIdle rest]> (l_thr s)) (l_log s ++ [(t, match o with LPush _ => Full | LPop => Empty end)])
      else let v := default (next0 cap (idx_of orig)) (l_plain (l_tr s) (XNext (idx_of orig)) from) in
           goto (Some (Ev (l_tid t) (DRead (XNext (idx_of orig)) v))) (LCas orig v)
  | LCas orig nxt =>
      if ok && bool_decide (l_value (l_tr s) (takes_from o) (l_last s (takes_from o)) = Some orig)
      then l_cas s t (takes_from o) (enc (tag_of orig + 1) nxt) (Lthread (LData (idx_of orig)) (o :: rest)) []
      else retry (takes_from o) LNext
  | LData node =>
      match o with
      | LPush v => goto (Some (Ev (l_tid t) (DWrite (XData node) v))) (LGive node v)
      | LPop => let v := l_content (l_tr s) node in goto (Some (Ev (l_tid t) (DRead (XData node) v))) (LMoved node v)
      end
  | LMoved node v => goto (Some (Ev (l_tid t) (DWrite (XData node) (-1)))) (LGive node v)
  | LGive node v => match l_value (l_tr s) (gives_to o) from with Some w => goto None (LSet node v w) | None => s end
  | LSet node v orig => goto (Some (Ev (l_tid t) (DWrite (XNext node) (idx_of orig)))) (LGcas node v orig)
  | LGcas node v orig =>
      if ok && bool_decide (l_value (l_tr s) (gives_to o) (l_last s (gives_to o)) = Some orig)
      then l_cas s t (gives_to o) (enc (tag_of orig + 1) node) (Lthread LIdle rest) [(t, match o with LPush _ => Pushed | LPop => Popped v end)]
      else retry (gives_to o) (LSet node v)
  end.
Definition l_step (cap : Z) (s : lst) (a : lact) : lst :=
  match a with LStep t from ok =>
    match l_thr s !! t with Some (Lthread pc (o :: rest)) => l_tstep cap s t from ok pc o rest | _ => s end
  end.
Definition l_run (cap : Z) (progs : list (list lop)) (acts : list lact) : lst := fold_left (l_step cap) acts (l_new progs).
