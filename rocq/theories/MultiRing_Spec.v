(** * Vocabulary for the statements about the multi-producer ring. *)
From stdpp Require Import prelude list_numbers.
From Verif Require Import MultiRing_Model.
Local Open Scope Z_scope.

(** Results of one thread's calls, and a call matching its result. *)
Definition results_of (t : nat) (l : list (nat * presult)) : list presult := (filter (fun p => p.1 = t) l).*2.
Definition matches (c : claim) (res : presult) : Prop :=
  match res with
  | RClaimed lo vals => vals = cl_vals c
  | RRefused => cl_blocking c = false
  | RBadArg => cl_vals c = []
  end.
(** Granted claims in the order of granting, and the events they are for: event number k is for sequence k. *)
Definition granted (l : list (nat * presult)) : list (Z * list Z) :=
  omap (fun p => match p.2 with RClaimed lo vals => Some (lo, vals) | _ => None end) l.
Definition granted_events (l : list (nat * presult)) : list Z := concat ((granted l).*2).
(** Consecutive, without gap or overlap. *)
Fixpoint contiguous (next : Z) (l : list (Z * list Z)) : option Z :=
  match l with
  | [] => Some next
  | (lo, vals) :: l => if (lo =? next) && negb (bool_decide (vals = [])) then contiguous (lo + Z.of_nat (length vals)) l else None
  end.
(** There is not room for n more events: some consumer that holds back the producers would be overrun. *)
Definition no_room (r : ring) (s : mst) (n : Z) : Prop :=
  exists g, g ∈ rg_gating r /\ cseq (m_cons s) g < m_cursor s + n - rsize (rg_k r).
(** Thread t is inside the call for claim c; todo are its calls after this one. *)
Definition in_call (s : mst) (t : nat) (c : claim) (todo : list claim) : Prop := exists pc, m_prods s !! t = Some (Prod pc (c :: todo)) /\ pc <> MIdle.
(** The claims all go through next(n) (the blocking call). *)
Definition only_next (progs : list (list claim)) : Prop := Forall (Forall (fun c => cl_blocking c = true)) progs.
(** Every producer is between two calls. *)
Definition producers_idle (s : mst) : Prop := forall t p, m_prods s !! t = Some p -> pr_pc p = MIdle.
