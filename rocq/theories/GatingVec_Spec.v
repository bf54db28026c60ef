(** * Specification for the vector of consumer sequences. *)
From stdpp Require Import prelude.
From Verif Require Import GatingVec_Model.
Local Open Scope Z_scope.
Definition adding (pc : vpc) : bool := match pc with VIdle | VScan1 _ _ _ | VScan2 _ _ _ _ | VScan _ _ _ _ _ _ => false | _ => true end.
Definition all_idle (s : vst) : Prop := Forall (fun pc => pc = VIdle) (v_thr s).
Definition none_adding (s : vst) : Prop := Forall (fun pc => adding pc = false) (v_thr s).
(** Consumers are started while nobody publishes and no other consumer is being started; and nobody publishes before the start has finished. *)
Fixpoint calm_starts (s : vst) (acts : list vact) : Prop :=
  match acts with
  | [] => True
  | a :: acts' => match a with VBegin _ (OAdd _) => all_idle s | VBegin _ (OScan _) => none_adding s | _ => True end /\ calm_starts (v_step s a) acts'
  end.
(** The consumers whose registration had returned, in order (with repetitions: a consumer that is restarted registers again). *)
Definition registered (h : list vev) : list nat := omap (fun e => match e with VAdded i => Some i | _ => None end) h.
(** A scan from the value m0 with result r: r is at most m0 and at most the sequence every registered consumer has when it returns,
    and not less than both m0 and what all registered consumers had when it was called. *)
Definition scan_ok (regs : list nat) (m0 r : Z) (before after : list Z) : Prop :=
  r <= m0 /\ (forall i q, i ∈ regs -> after !! i = Some q -> r <= q) /\
  (r = m0 \/ exists i q, i ∈ regs /\ before !! i = Some q /\ q <= r).
Definition scans_ok (h : list vev) : Prop := forall h1 h2 m0 r before after, h = h1 ++ VScanned m0 r before after :: h2 -> scan_ok (registered h1) m0 r before after.
