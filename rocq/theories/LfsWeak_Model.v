(** * Model of kpsr::LockFreeStack on weak memory.
    /repo/core/modules/core/include/klepsydra/core/lock_free_stack.h 64-142.
    An operational model of C++ atomics with views: every atomic location has the history of its writes; a thread has a view, the position of the latest write it must have seen for each location;
    a load reads any write at or after the view; an acquire load of a write made by a release operation adds the view that write carries; a read-modify-write reads the latest write.
    (Promise-free: no load reads a write that has not been executed yet.) The heads are written by read-modify-writes with acquire and release only (after the constructor, which happens before everything else).
    [index_next] (34) is a plain field; here it is a relaxed atomic, which is the least the code can mean (C01_lfs_index_next_race_refuted, C88: as written it is a data race).
    The elements are plain: two accesses of different threads must be ordered (both pop and push modify the element: 94, 104 moves out of it).
    [acq]: the memory order of the load at 112, acquire or relaxed. In the code it is relaxed ([acq = false]), as is the one at 127.
    Capacities from 1 to 65535; an index is a natural number, None is UNDEF_INDEX. *)
From stdpp Require Import prelude.
From Verif Require Import LockFreeStack_Model.
Local Open Scope nat_scope.
(** The view of a thread, or the one a write carries. true: head; false: free_nodes. *)
Record view := View { vH : bool -> nat; vN : nat -> nat; vD : nat -> nat }.
Definition vzero : view := View (fun _ => 0) (fun _ => 0) (fun _ => 0).
Definition vjoin (v w : view) : view := View (fun b => vH v b `max` vH w b) (fun i => vN v i `max` vN w i) (fun i => vD v i `max` vD w i).
Definition upd {A B} `{EqDecision A} (f : A -> B) (a : A) (b : B) : A -> B := fun x => if decide (x = a) then b else f x.
Definition see_h (v : view) (b : bool) (n : nat) : view := View (upd (vH v) b n) (vN v) (vD v).
Definition see_n (v : view) (i n : nat) : view := View (vH v) (upd (vN v) i n) (vD v).
Definition see_d (v : view) (i n : nat) : view := View (vH v) (vN v) (upd (vD v) i n).
(** A write to a head: head_t (36-51) and the view it releases. *)
Record msg := Msg { m_aba : Z; m_idx : option nat; m_view : view }.
Section Model.
  Context {T : Type}.
  (** The local [orig] is given by its position in the history of the head. *)
  Inductive lpc :=
  | LIdle
  | LPopLoad (o : op T)                                 (* 112 *)
  | LPopRead (o : op T) (ts : nat)                      (* 114-117 *)
  | LPopCas (o : op T) (ts : nat) (nxt : option nat)    (* 118-121 *)
  | LMove (o : op T) (i : nat)                          (* 94, 104 *)
  | LPushLoad (o : op T) (i : nat) (v : T)              (* 127; v: the element pushed or popped *)
  | LPushSet (o : op T) (i : nat) (v : T) (ts : nat)    (* 129 *)
  | LPushCas (o : op T) (i : nat) (v : T) (ts : nat).   (* 132-135 *)
  Record lst := Lst {
    l_h : bool -> list msg;            (* the writes to head and free_nodes, oldest first *)
    l_nx : list (list (option nat));   (* the writes to index_next of each node, oldest first *)
    l_data : list T;                   (* data_buffer *)
    l_dts : nat -> nat;                (* the number of accesses to each element so far *)
    l_thr : list (lpc * view);
    l_race : bool;                     (* some access to an element, or a write to an index_next, was not ordered after all earlier ones *)
    l_pushed : list T;                 (* the elements of the pushes that returned true *)
    l_popped : list T;                 (* the elements returned by pops *)
    l_failed : nat                     (* the operations that returned false *)
  }.
  (** Constructor: 64-83. *)
  Definition l_init (d : list T) (n : nat) : lst :=
    Lst (fun b => [Msg 0 (if b then Some 0 else None) vzero])
        ((fun i => [if decide (S i < length d) then Some (S i) else None]) <$> seq 0 (length d))
        d (fun _ => 0) (replicate n (LIdle, vzero)) false [] [] 0.
  Definition o_src (o : op T) : bool := match o with OPush _ => false | OPop => true end.
  Definition o_dst (o : op T) : bool := negb (o_src o).
  Definition l_goto (s : lst) (t : nat) (p : lpc) (v : view) : lst :=
    Lst (l_h s) (l_nx s) (l_data s) (l_dts s) (<[t := (p, v)]> (l_thr s)) (l_race s) (l_pushed s) (l_popped s) (l_failed s).
  Definition l_fail (s : lst) : lst := Lst (l_h s) (l_nx s) (l_data s) (l_dts s) (l_thr s) (l_race s) (l_pushed s) (l_popped s) (S (l_failed s)).
  Definition l_write_h (s : lst) (b : bool) (m : msg) : lst :=
    Lst (upd (l_h s) b (l_h s b ++ [m])) (l_nx s) (l_data s) (l_dts s) (l_thr s) (l_race s) (l_pushed s) (l_popped s) (l_failed s).
  Definition l_return (s : lst) (o : op T) (v : T) : lst :=
    match o with
    | OPush _ => Lst (l_h s) (l_nx s) (l_data s) (l_dts s) (l_thr s) (l_race s) (l_pushed s ++ [v]) (l_popped s) (l_failed s)
    | OPop => Lst (l_h s) (l_nx s) (l_data s) (l_dts s) (l_thr s) (l_race s) (l_pushed s) (l_popped s ++ [v]) (l_failed s)
    end.
  (** A load of head [b] that reads write number [from]. *)
  Definition l_load (acq : bool) (s : lst) (b : bool) (v : view) (from : nat) : option view :=
    match l_h s b !! from with
    | Some m => if decide (vH v b <= from) then Some (let w := see_h v b from in if acq then vjoin w (m_view m) else w) else None
    | None => None
    end.
  (** compare_exchange_weak compares tag and index (118, 132) with the latest write; if it succeeds it reads it (acquire) and adds a write (release). *)
  Definition l_cas (s : lst) (b : bool) (v : view) (ts : nat) (idx : option nat) : option (msg * view) :=
    match l_h s b !! ts, last (l_h s b) with
    | Some o, Some c =>
        if decide (m_aba o = m_aba c /\ m_idx o = m_idx c)
        then let w := see_h (vjoin v (m_view c)) b (length (l_h s b)) in Some (Msg (u16 (m_aba o + 1)) idx w, w)
        else None
    | _, _ => None
    end.
  (** A step of thread t; [from]: the write an atomic load reads; [spur]: compare_exchange_weak fails spuriously. A step that is not possible changes nothing. *)
  Definition l_step_pc (acq : bool) (s : lst) (t : nat) (p : lpc) (v : view) (from : nat) (spur : bool) : lst :=
    match p with
    | LIdle => s
    | LPopLoad o => match l_load acq s (o_src o) v from with Some w => l_goto s t (LPopRead o from) w | None => s end
    | LPopRead o ts =>
        match m_idx <$> (l_h s (o_src o) !! ts) with
        | Some (Some i) =>
            match l_nx s !! i ≫= fun h => h !! from with
            | Some nxt => if decide (vN v i <= from) then l_goto s t (LPopCas o ts nxt) (see_n v i from) else s
            | None => s
            end
        | Some None => l_fail (l_goto s t LIdle v)
        | None => s
        end
    | LPopCas o ts nxt =>
        match (if spur then None else l_cas s (o_src o) v ts nxt), m_idx <$> (l_h s (o_src o) !! ts) with
        | Some (m, w), Some (Some i) => l_goto (l_write_h s (o_src o) m) t (LMove o i) w
        | _, _ => match l_load true s (o_src o) v from with Some w => l_goto s t (LPopRead o from) w | None => s end   (* 121: the failure order is acquire *)
        end
    | LMove o i =>
        match l_data s !! i with
        | Some x =>
            let y := match o with OPush z => z | OPop => x end in
            Lst (l_h s) (l_nx s) (<[i := y]> (l_data s)) (upd (l_dts s) i (S (l_dts s i))) (<[t := (LPushLoad o i y, see_d v i (S (l_dts s i)))]> (l_thr s))
                (l_race s || bool_decide (vD v i <> l_dts s i)) (l_pushed s) (l_popped s) (l_failed s)
        | None => s
        end
    | LPushLoad o i y => match l_load false s (o_dst o) v from with Some w => l_goto s t (LPushSet o i y from) w | None => s end
    | LPushSet o i y ts =>
        match m_idx <$> (l_h s (o_dst o) !! ts), l_nx s !! i with
        | Some idx, Some h =>
            Lst (l_h s) (<[i := h ++ [idx]]> (l_nx s)) (l_data s) (l_dts s) (<[t := (LPushCas o i y ts, see_n v i (length h))]> (l_thr s))
                (l_race s || bool_decide (S (vN v i) <> length h)) (l_pushed s) (l_popped s) (l_failed s)
        | _, _ => s
        end
    | LPushCas o i y ts =>
        match (if spur then None else l_cas s (o_dst o) v ts (Some i)) with
        | Some (m, w) => l_return (l_goto (l_write_h s (o_dst o) m) t LIdle w) o y
        | None => match l_load true s (o_dst o) v from with Some w => l_goto s t (LPushSet o i y from) w | None => s end
        end
    end.
  Inductive lact := LCall (t : nat) (o : op T) | LStep (t : nat) (from : nat) (spur : bool).
  Definition l_exec (acq : bool) (s : lst) (a : lact) : lst :=
    match a with
    | LCall t o => match l_thr s !! t with Some (LIdle, v) => l_goto s t (LPopLoad o) v | _ => s end
    | LStep t from spur => match l_thr s !! t with Some (p, v) => l_step_pc acq s t p v from spur | None => s end
    end.
  Definition l_run (acq : bool) (s : lst) (acts : list lact) : lst := fold_left (l_exec acq) acts s.
  (** What the stack holds: the elements found from the latest head along the latest index_next. *)
  Fixpoint walk (nx : list (list (option nat))) (d : list T) (h : option nat) (fuel : nat) : list T :=
    match fuel, h with
    | S k, Some i => match d !! i with Some x => x :: walk nx d (default None (nx !! i ≫= last)) k | None => [] end
    | _, _ => []
    end.
  Definition l_content (s : lst) : list T := walk (l_nx s) (l_data s) (last (l_h s true) ≫= m_idx) (length (l_data s)).
  (** No compare_exchange meets a tag that has gone round: the write that was loaded is less than 2^16 writes old. *)
  Definition l_not_wrapped (s : lst) (a : lact) : Prop :=
    match a with
    | LStep t _ _ => match l_thr s !! t with Some (LPopCas o ts _, _) => (Z.of_nat (length (l_h s (o_src o))) <= Z.of_nat ts + 65536)%Z | _ => True end
    | LCall _ _ => True
    end.
  Fixpoint l_no_wrap (acq : bool) (s : lst) (acts : list lact) : Prop :=
    match acts with [] => True | a :: r => l_not_wrapped s a /\ l_no_wrap acq (l_exec acq s a) r end.
End Model.
Arguments lpc : clear implicits.
Arguments lst : clear implicits.
Arguments lact : clear implicits.
