(** * Specification for several threads that publish through one data multiplexer. *)
From stdpp Require Import prelude.
From Verif Require Import MuxPub_Model.
Local Open Scope Z_scope.
(** Where the calls of thread t stand: no call is under way. *)
Definition not_calling (s : mst) (t : nat) : Prop := forall pc r, m_pub s !! t = Some (pc, r) -> pc = MIdle.
(** Calls do not overlap: a thread calls publish only while no other thread is inside publish (for example because they share a mutex). *)
Fixpoint no_overlap (size : Z) (s : mst) (acts : list mact) : Prop :=
  match acts with
  | [] => True
  | a :: acts' => match a with MPub t => not_calling s t -> forall u, not_calling s u | MCons _ => True end /\ no_overlap size (m_step size s a) acts'
  end.
(** The events published, in the order in which the calls returned. *)
Definition published (h : list mev) : list Z := omap (fun e => match e with MAcc _ v => Some v | MRef _ _ => None end) h.
(** The events with which thread t has called publish and got an answer. *)
Definition answered (t : nat) (h : list mev) : list Z :=
  omap (fun e => match e with MAcc u v | MRef u v => if decide (u = t) then Some v else None end) h.
(** What thread t is publishing now. *)
Definition current (pc : mpc) : list Z :=
  match pc with MIdle => [] | MCached v _ | MScan v _ | MAdd v | MStore v _ | MSlot v _ | MPubl v _ => [v] end.
Definition pub_steps (t : nat) (acts : list mact) : nat := length (List.filter (fun a => match a with MPub u => bool_decide (u = t) | MCons _ => false end) acts).
