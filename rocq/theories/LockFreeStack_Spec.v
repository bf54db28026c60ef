(** * Specification of a concurrent bounded stack.
    An abstract object whose operations take effect atomically, at one
    instant ([ELin]) between their call and their return. *)
From stdpp Require Import base list numbers.
From Verif Require Import LockFreeStack_Model.

Section Spec.
Context {T : Type}.

(** What the abstract object knows of each thread. *)
Inductive status := SIdle | SCalled (o : op T) | SDone (r : result T).

(** Number of threads that are storing an element (push called, not yet
    effective) or removing one (pop effective, not yet returned). *)
Fixpoint busy (sts : list status) : nat :=
  match sts with
  | [] => 0
  | SCalled (OPush _) :: sts' | SDone (RPopped _) :: sts' => S (busy sts')
  | _ :: sts' => busy sts'
  end.

(** [sstep cap (st, sts) e (st', sts')]: event [e] is allowed when the stack
    holds [st] (top first). *)
Inductive sstep (cap : nat) : list T * list status -> event T -> list T * list status -> Prop :=
| s_call st sts t o :
    sts !! t = Some SIdle ->
    sstep cap (st, sts) (ECall t o) (st, <[t:=SCalled o]> sts)
| s_push st sts t v :           (* a push takes effect: there is room, v becomes the top *)
    sts !! t = Some (SCalled (OPush v)) -> (length st < cap)%nat ->
    sstep cap (st, sts) (ELin t (OPush v) RPushed) (v :: st, <[t:=SDone RPushed]> sts)
| s_pop st sts t v :            (* a pop takes the top *)
    sts !! t = Some (SCalled OPop) ->
    sstep cap (v :: st, sts) (ELin t OPop (RPopped v)) (st, <[t:=SDone (RPopped v)]> sts)
| s_empty sts t :               (* a pop fails only when the stack is empty *)
    sts !! t = Some (SCalled OPop) ->
    sstep cap ([], sts) (ELin t OPop RPopEmpty) ([], <[t:=SDone RPopEmpty]> sts)
| s_full st sts t v :           (* a push fails only when the elements plus the *other* *)
    sts !! t = Some (SCalled (OPush v)) ->      (* such operations fill the stack *)      
    (cap < length st + busy sts)%nat ->         (* ([busy] counts the caller too) *)
    sstep cap (st, sts) (ELin t (OPush v) RPushFull) (st, <[t:=SDone RPushFull]> sts)
| s_ret st sts t r :            (* the value returned is the one of the effect *)
    sts !! t = Some (SDone r) ->
    sstep cap (st, sts) (ERet t r) (st, <[t:=SIdle]> sts).

(** A history, oldest event first, is a behaviour of the abstract stack. *)
Inductive srun (cap : nat) : list T * list status -> list (event T) -> list T * list status -> Prop :=
| srun_nil x : srun cap x [] x
| srun_snoc x h y e z : srun cap x h y -> sstep cap y e z -> srun cap x (h ++ [e]) z.

(** Elements pushed / popped according to the returns and calls seen by users. *)
Fixpoint taken (h : list (event T)) : list T :=
  match h with
  | [] => []
  | ELin _ _ (RPopped v) :: h' => v :: taken h'
  | _ :: h' => taken h'
  end.
Fixpoint stored (h : list (event T)) : list T :=
  match h with
  | [] => []
  | ELin _ (OPush v) RPushed :: h' => v :: stored h'
  | _ :: h' => stored h'
  end.

(** The tag read before a compare-and-swap is not too old: fewer than 2^16
    updates of that head happened since it was read. *)
Definition not_wrapped (s : cfg T) (a : act T) : Prop :=
  match a with
  | AStep t _ => match thr s !! t with
                 | Some (PopCas o orig _) => (cnt (src o s) - cnt orig < 65536)%Z
                 | _ => True
                 end
  | ACall _ _ => True
  end.
Fixpoint no_wrap (s : cfg T) (acts : list (act T)) : Prop :=
  match acts with
  | [] => True
  | a :: acts' => not_wrapped s a /\ no_wrap (exec s a) acts'
  end.

(** Sequential bounded stack (top first). *)
Definition seq_stack (cap : nat) (st : list T) (o : op T) : list T * result T :=
  match o with
  | OPush v => if (length st <? cap)%nat then (v :: st, RPushed) else (st, RPushFull)
  | OPop => match st with v :: st' => (st', RPopped v) | [] => ([], RPopEmpty) end
  end.
Fixpoint seq_results (cap : nat) (st : list T) (ops : list (op T)) : list (result T) :=
  match ops with
  | [] => []
  | o :: ops' => let '(st', r) := seq_stack cap st o in r :: seq_results cap st' ops'
  end.

(** Values returned to the callers, oldest first, from a history oldest first. *)
Fixpoint returns (h : list (event T)) : list (result T) :=
  match h with
  | [] => []
  | ERet _ r :: h' => r :: returns h'
  | _ :: h' => returns h'
  end.
(** Thread [t] calls [o] and runs alone until it returns (7 accesses suffice
    without interference). *)
Definition alone (t : nat) (o : op T) : list (act T) := ACall t o :: replicate 7 (AStep t false).
End Spec.
Arguments status : clear implicits.
