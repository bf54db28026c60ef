(** * Model of the arithmetic of the rings.
    /repo/high_performance/modules/high_performance/include/klepsydra/high_performance/disruptor4cpp/: ring_buffer.h 71-72 (accepted sizes), 103-111 (indexing), utils/util.h 58-97
    (minimum of sequences, log2), fixed_sequence_group.h 86-90, multi_producer_sequencer.h 185-190, 230-231, 253-258 and single_producer_sequencer.h 182-188 (remaining_capacity, flags).
    std::size_t has 64 bits. Sequences are integers (2^63 events are out of reach). *)
From stdpp Require Import prelude.
Local Open Scope Z_scope.
(** ring_buffer.h 71: (BufferSize & (~BufferSize + 1)) == BufferSize, in 64-bit unsigned arithmetic. *)
Definition size_accepted (n : Z) : bool := Z.land n ((2^64 - 1 - n + 1) mod 2^64) =? n.
(** util.h 93-97: log2, a recursive constexpr function that throws; as an evaluation relation: [log2_eval v r]: log2(v) gives r (None: throws). C++ division by 2 of a positive int. *)
Inductive log2_eval : Z -> option Z -> Prop :=
| L2_bad v : v <= 0 -> log2_eval v None
| L2_one v : 0 < v -> v / 2 = 1 -> log2_eval v (Some 1)
| L2_rec v r : 0 < v -> v / 2 <> 1 -> log2_eval (v / 2) r -> log2_eval v (match r with Some k => Some (k + 1) | None => None end).
(** ring_buffer.h 103-111 *)
Definition slot (size seq : Z) : Z := Z.land seq (size - 1).
(** multi_producer_sequencer.h 253-256, without the cut to 32 bits (which is in MultiRing_Model.v) *)
Definition lap (shift seq : Z) : Z := Z.shiftr seq shift.
(** util.h 65-74, 83-91: the values the sequences had when they were read, in order *)
Definition minimum_sequence (values : list Z) (minimum : Z) : Z := fold_left (fun m v => if v <? m then v else m) values minimum.
Definition LLONG_MAX : Z := 2^63 - 1.
(** fixed_sequence_group.h 86-90 *)
Definition group_get (values : list Z) : Z := match values with [v] => v | _ => minimum_sequence values LLONG_MAX end.
(** multi_producer_sequencer.h 185-190: the cursor is read, then the gating sequences one by one, then the cursor again. *)
Definition remaining_multi (size cursor1 : Z) (values : list Z) (cursor2 : Z) : Z := size - (cursor2 - minimum_sequence values cursor1).
(** single_producer_sequencer.h 182-188: next_value_ belongs to the calling (producer) thread. *)
Definition remaining_single (size next : Z) (values : list Z) : Z := size - (next - minimum_sequence values next).
