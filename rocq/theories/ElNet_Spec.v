(** * What C109 says of event loops whose listeners publish: small definitions for the statements (from_src, sent_to, all_out, in_net: Forward_Spec). *)
From stdpp Require Import prelude.
From Verif Require Import Forward_Model Forward_Spec ElNet_Model.
Section Spec.
  Context {V : Type}.
  (** The accepted ones of a list of publications. *)
  Definition accepted (l : list ((src * V) * bool)) : list (src * V) := fst <$> List.filter snd l.
  Definition refused (l : list ((src * V) * bool)) : list (src * V) := fst <$> List.filter (fun x => negb x.2) l.
  (** Every event triggers finitely many publications, directly and indirectly: [total i v] many, if it is handled by loop i. Cycles, and publications to the own loop, are possible. *)
  Definition finite_cascade (out : nat -> V -> list (nat * V)) : Prop := exists total : nat -> V -> nat, forall i v, sum_list_with (fun e => 1 + total (e.1) (e.2)) (out i v) <= total i v.
  (** A round: steps of every loop, every other publisher and the stopping thread, in any order, any number of times. *)
  Definition fair_lround (n m : nat) (r : list lact) : Prop := (forall i, i < n -> exists k, LPoll i k ∈ r) /\ (forall t, t < m -> LExt t ∈ r) /\ LCtl ∈ r.
End Spec.
