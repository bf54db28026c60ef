(** * Model of consumers that come, end and go on a single-producer ring.
    /repo/high_performance/modules/high_performance/include/klepsydra/high_performance/disruptor4cpp/single_producer_sequencer.h 88-115 (add_gating_sequences, remove_gating_sequence),
    130-144 (has_available_capacity), 173-182 (try_next), 195-199 (publish), utils/util.h 89-98; data_multiplexer_publisher.h 95-108 (internalPublish);
    data_multiplexer_subscriber.h 62-122: the subscriber's thread registers its sequence; it ends when halted or when a listener throws something that is no std::exception
    (batch_event_processor.h 149-152); the destructor does not call remove_gating_sequence, nor does anything else in the repository.
    Simplifications: each call is one step (the interleavings inside are in SingleRing_Model.v); memory of a destroyed consumer keeps its last value when read (reading it is recorded). *)
From stdpp Require Import prelude.
Local Open Scope Z_scope.
Inductive cstat := CLive | CEnded | CFreed.
Global Instance cstat_eq_dec : EqDecision cstat. Proof. solve_decision. Defined.
Inductive gev := GAccepted (q : Z) | GRefused.
Global Instance gev_eq_dec : EqDecision gev. Proof. solve_decision. Defined.
Record gst := Gst {
  g_next : Z;                      (* next_value_, and the cursor between publications *)
  g_cached : Z;                    (* cached_value_ *)
  g_gating : list nat;             (* gating_sequences_: which consumer each pointer points to *)
  g_cons : list (Z * cstat);       (* the consumers ever created: sequence, state *)
  g_touched : list nat;            (* ghost: destroyed consumers whose memory was read *)
  g_log : list gev
}.
Definition g_new : gst := Gst (-1) (-1) [] [] [] [].
Inductive gact :=
| GAdd                             (* a new consumer is created and registers *)
| GConsume (i : nat) (q : Z)       (* consumer i finishes a batch: everything up to q *)
| GEnd (i : nat)                   (* its thread ends *)
| GFree (i : nat)                  (* it is destroyed *)
| GRemove (i : nat)                (* remove_gating_sequence *)
| GPublish.
Definition seq_of (s : gst) (i : nat) : Z := match g_cons s !! i with Some (q, _) => q | None => 0 end.
Definition stat_of (s : gst) (i : nat) : option cstat := snd <$> g_cons s !! i.
Definition g_min (s : gst) : Z := foldr (fun i m => Z.min (seq_of s i) m) (g_next s) (g_gating s).
Definition is_freed (s : gst) (i : nat) : bool := bool_decide (stat_of s i = Some CFreed).
Definition g_step (size : Z) (s : gst) (a : gact) : gst :=
  match a with
  | GAdd => Gst (g_next s) (g_cached s) (g_gating s ++ [length (g_cons s)]) (g_cons s ++ [(g_next s, CLive)]) (g_touched s) (g_log s)
  | GConsume i q =>
      match g_cons s !! i with
      | Some (q0, CLive) => if decide (q0 < q <= g_next s) then Gst (g_next s) (g_cached s) (g_gating s) (<[i := (q, CLive)]> (g_cons s)) (g_touched s) (g_log s) else s
      | _ => s
      end
  | GEnd i => match g_cons s !! i with Some (q, CLive) => Gst (g_next s) (g_cached s) (g_gating s) (<[i := (q, CEnded)]> (g_cons s)) (g_touched s) (g_log s) | _ => s end
  | GFree i => match g_cons s !! i with Some (q, CEnded) => Gst (g_next s) (g_cached s) (g_gating s) (<[i := (q, CFreed)]> (g_cons s)) (g_touched s) (g_log s) | _ => s end
  | GRemove i => Gst (g_next s) (g_cached s) (List.filter (fun j => negb (j =? i)%nat) (g_gating s)) (g_cons s) (g_touched s) (g_log s)
  | GPublish =>
      let wrap := g_next s + 1 - size in
      let scan := (g_cached s <? wrap) || (g_next s <? g_cached s) in
      let cached := if scan then g_min s else g_cached s in
      let touched := if scan then g_touched s ++ List.filter (is_freed s) (g_gating s) else g_touched s in
      if scan && (cached <? wrap) then Gst (g_next s) cached (g_gating s) (g_cons s) touched (g_log s ++ [GRefused])
      else Gst (g_next s + 1) cached (g_gating s) (g_cons s) touched (g_log s ++ [GAccepted (g_next s + 1)])
  end.
Definition g_run (size : Z) (acts : list gact) : gst := fold_left (g_step size) acts g_new.
