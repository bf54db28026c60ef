(** * Model of the constructor of the lock-free stack, write by write.
    /repo/core/modules/core/include/klepsydra/core/lock_free_stack.h 66-86. size_t has 64 bits.
    [f]: the effect of initFunction on an element (None: no function was given). An access outside the two arrays ends the model ([c_oob]).
    Simplifications: failing allocations throw (bad_alloc, length_error) and are left out; initFunction does not throw. *)
From stdpp Require Import prelude.
From Coq Require Import ZArith Lia.
From Verif Require Import LockFreeStack_Model.
Local Open Scope Z_scope.

Section ctor.
Context {T : Type}.
Record ctor := Ctor {
  c_nexts : list (option Z);      (* index_next of node_buffer; None: never written *)
  c_data : list T;                (* data_buffer *)
  c_calls : list Z;               (* ghost: the elements given to initFunction, in order *)
  c_oob : bool
}.
(** Lines 77-80 and 82-85: initFunction(data_buffer[i]); node_buffer[i].index_next = v. *)
Definition c_write (f : option (T -> T)) (s : ctor) (i v : Z) : ctor :=
  if c_oob s then s else
  if (0 <=? i) && (i <? Z.of_nat (length (c_data s))) then
    Ctor (<[Z.to_nat i := Some v]> (c_nexts s)) (match f with Some g => alter g (Z.to_nat i) (c_data s) | None => c_data s end)
         (match f with Some _ => c_calls s ++ [i] | None => c_calls s end) false
  else Ctor (c_nexts s) (c_data s) (c_calls s) true.
Definition u64 (x : Z) : Z := x mod 2 ^ 64.
(** The loop of line 76: realCapacity - 1 is a subtraction of size_t. *)
Definition c_loop (f : option (T -> T)) (n : nat) (s : ctor) : ctor := fold_left (fun s i => c_write f s (Z.of_nat i) (u16 (Z.of_nat i + 1))) (seq 0 n) s.
(** [d0]: the default constructed element (resize, line 75). *)
Definition construct (f : option (T -> T)) (d0 : T) (cap : Z) : ctor :=
  c_write f (c_loop f (Z.to_nat (u64 (cap - 1))) (Ctor (replicate (Z.to_nat cap) None) (replicate (Z.to_nat cap) d0) [] false)) (u64 (cap - 1)) UNDEF.
End ctor.
Arguments ctor : clear implicits.
