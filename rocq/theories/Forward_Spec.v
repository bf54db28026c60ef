(** * What C107 says of a network of providers: small definitions for the statements. *)
From stdpp Require Import prelude.
From Verif Require Import Forward_Model.
Section Spec.
  Context {V : Type}.
  (** The values of entries that came from [p]. *)
  Definition src_eq (a b : src) : bool := match a, b with SrcNode i, SrcNode j => i =? j | SrcExt i, SrcExt j => i =? j | _, _ => false end.
  Definition from_src (p : src) (l : list (src * V)) : list V := snd <$> List.filter (fun e => src_eq (e.1) p) l.
  (** What a list of publications sends to node j. *)
  Definition sent_to (j : nat) (l : list (nat * V)) : list V := snd <$> List.filter (fun e => e.1 =? j) l.
  (** Everything the listeners of node i publish for the events they were given. *)
  Definition all_out (out : nat -> V -> list (nat * V)) (i : nat) (log : list (src * V)) : list (nat * V) := concat ((fun e => out i (e.2)) <$> log).
  (** Events go from lower to higher nodes only: no cycles. *)
  Definition forward_only (n : nat) (out : nat -> V -> list (nat * V)) : Prop := forall i v j w, (j, w) ∈ out i v -> i < j < n.
  Definition in_net (n : nat) (ext : list (list (nat * V))) : Prop := forall p j v, p ∈ ext -> (j, v) ∈ p -> j < n.
  (** A round: steps of every provider, every other publisher and the stopping thread, in any order, any number of times. *)
  Definition fair_round (n m : nat) (r : list fact) : Prop := (forall i, i < n -> FPoll i ∈ r) /\ (forall t, t < m -> FExt t ∈ r) /\ FCtl ∈ r.
End Spec.
