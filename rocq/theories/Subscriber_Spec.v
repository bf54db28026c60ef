(** * Specification of the subscriber: a list of (listener name, callback). *)
From stdpp Require Import prelude strings.
From Verif Require Import Subscriber_Model.

Definition has (n : string) (g : list (string * nat)) : Prop := n ∈ fst <$> g.
Global Instance has_dec n g : Decision (has n g).
Proof. unfold has. apply _. Defined.

Definition subspec_step (g : list (string * nat)) (o : sop) : list (string * nat) * sres :=
  match o with
  | SubReg n cb => (if decide (has n g) then g else g ++ [(n, cb)], RNone)
  | SubRemove n => (filter (fun p => p.1 <> n) g, RNone)
  | SubPublish => (g, RCalled (snd <$> g))
  | SubStats _ => (g, RNone)
  end.
Fixpoint subspec_run (g : list (string * nat)) (os : list sop) : list (string * nat) * list sres :=
  match os with
  | [] => (g, [])
  | o :: os' => let '(g', r) := subspec_step g o in let '(g'', l) := subspec_run g' os' in (g'', r :: l)
  end.

(** Statistics are only asked of registered names; and, if [nodup], a name is
    not registered again while it is registered. *)
Fixpoint polite (nodup : bool) (g : list (string * nat)) (os : list sop) : Prop :=
  match os with
  | [] => True
  | o :: os' =>
      match o with
      | SubStats n => has n g
      | SubReg n _ => nodup = true -> ~ has n g
      | _ => True
      end /\ polite nodup (subspec_step g o).1 os'
  end.
