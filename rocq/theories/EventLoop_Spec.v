(** * Vocabulary for the event loop: read off the log of what happened. *)
From stdpp Require Import prelude strings.
From Verif Require Import EventLoop_Model.
Local Open Scope Z_scope.

(** Publications that were accepted, in the order of acceptance; those refused by thread t; publications made by thread t, in order. *)
Definition accepted (h : list elev) : list Z := omap (fun e => match e with VAccept _ z _ => Some z | _ => None end) h.
Definition published_by (t : nat) (h : list elev) : list Z :=
  omap (fun e => match e with VAccept u z _ | VRefuse u z => if decide (u = t) then Some z else None | _ => None end) h.
(** Number of refused publications through publisher object p. *)
Definition refusals (g : elcfg) (p : nat) (h : list elev) : Z :=
  Z.of_nat (length (List.filter (fun e => match e with VRefuse _ z => bool_decide ((ec_pub g z).1 = p) | _ => false end) h)).
(** What the loop handled, in order. *)
Definition dispatched (h : list elev) : list (Z * string * option Z) :=
  omap (fun e => match e with VDispatch q n d => Some (q, n, d) | _ => None end) h.
(** How often listener cb of subscriber u was called for event number q. *)
Definition calls (q : Z) (u cb : nat) (h : list elev) : nat :=
  length (List.filter (fun e => match e with VCall q' u' cb' _ => bool_decide (q' = q /\ u' = u /\ cb' = cb) | _ => false end) h).
(** Event names of the subscribers, in order of creation. *)
Definition sub_names (h : list elev) : list string := omap (fun e => match e with VNewSub n => Some n | _ => None end) h.
(** Listener cb is registered with subscriber u after h. *)
Definition reg_step (u cb : nat) (b : bool) (e : elev) : bool :=
  match e with
  | VReg u' cb' => b || bool_decide (u' = u /\ cb' = cb)
  | VUnreg u' cb' => b && negb (bool_decide (u' = u /\ cb' = cb))
  | _ => b
  end.
Definition is_reg (u cb : nat) (h : list elev) : bool := fold_left (reg_step u cb) h false.
(** Every listener is registered at most once. *)
Definition unique_listeners (h : list elev) : Prop :=
  NoDup (omap (fun e => match e with VReg u cb => Some (u, cb) | _ => None end) h).
(** No listener ever threw. *)
Definition no_throw (h : list elev) : Prop := forall q, VThrew q ∉ h.
(** Publisher object p is used by one thread only. *)
Definition one_user (g : elcfg) (progs : list (list Z)) (p : nat) : Prop :=
  forall t u l m z y, progs !! t = Some l -> progs !! u = Some m -> z ∈ l -> y ∈ m -> (ec_pub g z).1 = p -> (ec_pub g y).1 = p -> t = u.
(** What the loop should hand out for the accepted publications: number, event name and data of each, in order. *)
Definition numbered (g : elcfg) (l : list Z) : list (Z * string * option Z) := imap (fun i z => (Z.of_nat i, ev_name g z, Some (ev_data g z))) l.
(** No publisher is in the catch block that counts a refused publication. *)
Definition none_counting (s : elst) : Prop := Forall (fun d => d = DNone) (el_dpc s).
(** A slot of the ring still refers to the data of an event. *)
Definition ring_holds (s : elst) (idx : Z) : Prop := w_data (el_wr s idx) <> None.
(** Schedules: every round has a step of the loop; no subscription changes. *)
Definition loop_runs (round : list elact) : Prop := exists th, ELoop th ∈ round.
Definition no_subscription_change (round : list elact) : Prop := Forall (fun a => match a with ELoop _ | EProd _ _ => True | _ => False end) round.
