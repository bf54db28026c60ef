(** * Specification of the unsafe emitters: registries of live listeners. *)
From stdpp Require Import prelude strings.
From Verif Require Import UnsafeEmitters_Model.

(** A live listener of the multi-listener emitter. [r_disc]: number of
    discards since registration, if it was registered with a container. *)
Record reg := Reg { r_id : nat; r_name : string; r_event : string; r_cb : nat; r_disc : option nat }.
(** The registry, in registration order, and the next id. *)
Record registry := Registry { rs : list reg; next : nat }.
Definition registry_new : registry := Registry [] 0.

Definition named (n : string) (l : list reg) : list reg := filter (fun r => r_name r = n) l.
Definition of_event (e : string) (l : list reg) : list reg := filter (fun r => r_event r = e) l.

Definition spec_step (g : registry) (o : mop) : registry * mout :=
  match o with
  | MOn cont n e cb =>
      match named n (rs g) with
      | r :: _ => (g, OId (r_id r))
      | [] => (Registry (rs g ++ [Reg (next g) n e cb (if cont then Some 0 else None)]) (S (next g)), OId (next g))
      end
  | MRemove _ id => (Registry (filter (fun r => r_id r <> id) (rs g)) (next g), OUnit)
  | MRemoveAll _ => (Registry [] 0, OUnit)
  | MEmit e => (g, OEmit (Called (r_cb <$> of_event e (rs g))))
  | MDiscard e => (Registry ((fun r => if decide (r_event r = e) then Reg (r_id r) (r_name r) (r_event r) (r_cb r) (S <$> r_disc r) else r) <$> rs g) (next g), OUnit)
  end.
Fixpoint spec_run (g : registry) (os : list mop) : registry * list mout :=
  match os with
  | [] => (g, [])
  | o :: os' => let '(g', r) := spec_step g o in let '(g'', l) := spec_run g' os' in (g'', r :: l)
  end.

(** Single-listener emitter: an optional listener (event, callback). *)
Definition sspec_step (g : option (string * nat)) (o : mop) : option (string * nat) * sout :=
  match o with
  | MOn _ _ e cb => (match g with Some _ => g | None => Some (e, cb) end, SId 0)
  | MRemove _ id => (match id with 0 => None | _ => g end, SUnit)
  | MRemoveAll _ => (None, SUnit)
  | MEmit e => (g, SEmit (match g with
                          | Some (e', cb) => if decide (e = e') then SCalled cb else SNothing
                          | None => SNothing end))
  | MDiscard _ => (g, SUnit)
  end.
Fixpoint sspec_run (g : option (string * nat)) (os : list mop) : option (string * nat) * list sout :=
  match os with
  | [] => (g, [])
  | o :: os' => let '(g', r) := sspec_step g o in let '(g'', l) := sspec_run g' os' in (g'', r :: l)
  end.
