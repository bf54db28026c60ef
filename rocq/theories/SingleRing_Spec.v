(** * Vocabulary for the statements about the single-producer ring. *)
From stdpp Require Import prelude list_numbers.
From Verif Require Import MultiRing_Model SingleRing_Model.
Local Open Scope Z_scope.

(** Granted claims in order, and the contents they are for. *)
Definition s_granted (l : list sres) : list (Z * list (wkind * Z)) := omap (fun x => match x with SClaimed lo vals => Some (lo, vals) | _ => None end) l.
Definition s_contents (l : list sres) : list Z := concat ((fun p => p.2.*2) <$> s_granted l).
Fixpoint s_contiguous (next : Z) (l : list (Z * list (wkind * Z))) : option Z :=
  match l with
  | [] => Some next
  | (lo, vals) :: l => if (lo =? next) && negb (bool_decide (vals = [])) then s_contiguous (lo + Z.of_nat (length vals)) l else None
  end.
(** A registered consumer: it holds back the producer. *)
Definition registered (c : scons) : Prop := match sc_pc c with SNew | SReg _ => False | _ => True end.
(** Not room for n more events. *)
Definition s_no_room (r : sring) (s : sst) (n : Z) : Prop := exists g, g ∈ s_gating s /\ scseq (s_cons s) g < s_next s + n - rsize (sr_k r).
(** The producer is inside the call at the head of its program. *)
Definition s_in_call (s : sst) (vals : list (wkind * Z)) (pub : bool) (rest : list sop) : Prop := s_todo s = SClaim false vals pub :: rest.
(** Every registration of the run takes effect when nothing is claimed beyond what it saw as the cursor (in particular: all registrations before
    the first claim; or registrations by the producer thread when it has published everything). *)
Definition calm_registrations (r : sring) (s : sst) (acts : list sact) : Prop :=
  forall a1 i th a2 c v, acts = a1 ++ SC i th :: a2 -> s_cons (srun r s a1) !! i = Some c -> sc_pc c = SReg v -> s_next (srun r s a1) = v.
(** Every registration is atomic (nothing is published between its two steps) and every claim is published before the next one. *)
Definition atomic_registrations (r : sring) (s : sst) (acts : list sact) : Prop :=
  forall a1 i th a2 c v, acts = a1 ++ SC i th :: a2 -> s_cons (srun r s a1) !! i = Some c -> sc_pc c = SReg v -> s_cursor (srun r s a1) = v.
Definition publishes_each (prog : list sop) : Prop := Forall (fun op => match op with SClaim _ vals pub => pub = true /\ Forall (fun x => x.1 <> WSkip) vals | SPublish => True end) prog.
(** No process function throws; if the slots share one object then every publication makes a new one. *)
Definition clean (shared_model : bool) (prog : list sop) : Prop :=
  Forall (fun op => match op with SClaim _ vals _ => Forall (fun x => x.1 <> WSkip /\ (shared_model = true -> x.1 = WFresh)) vals | SPublish => True end) prog.
Definition only_fresh (prog : list sop) : Prop :=
  Forall (fun op => match op with SClaim _ vals _ => Forall (fun x => x.1 = WFresh) vals | SPublish => True end) prog.
(** The data multiplexer's view of a listener: events given to the callbacks, number of events counted as discarded. *)
Definition mux_delivered (c : scons) : list sdel := filter (fun d => e_end d = true) (sc_log c).
Definition mux_discarded (c : scons) : nat := length (filter (fun d => e_end d = false) (sc_log c)).
(** The claims of a program, and the outcomes of claims in a log. *)
Definition claims (prog : list sop) : list (bool * list (wkind * Z)) := omap (fun op => match op with SClaim b vals _ => Some (b, vals) | SPublish => None end) prog.
Definition outcomes (l : list sres) : list sres := omap (fun x => match x with SPublished _ => None | _ => Some x end) l.
Definition smatches (op : bool * list (wkind * Z)) (res : sres) : Prop :=
  match res with SClaimed _ vals => vals = op.2 | SRefused => op.1 = false | SBadArg => op.2 = [] | SPublished _ => False end.
