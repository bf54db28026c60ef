(** * C45: the trivial-copy mapper; the identity mapper; reading a received message through the stream buffer. *)
From stdpp Require Import prelude.
From Verif Require Import Mapper_Model.

Lemma mapM_seq {A} (v : list A) a n : a + n <= length v -> mapM (fun i => v !! i) (seq a n) = Some (take n (drop a v)).
Proof.
  revert a. induction n as [|n IH]; intros a H; [by rewrite take_0|]. cbn [seq]. destruct (lookup_lt_is_Some_2 v a) as [x Hx]; [lia|].
  change (mapM (fun i => v !! i) (a :: seq (S a) n)) with (x ← v !! a; k ← mapM (fun i => v !! i) (seq (S a) n); mret (x :: k)). rewrite Hx. cbn [mbind option_bind]. rewrite IH by lia. cbn. rewrite (drop_S v x a) by done. done.
Qed.
Lemma mapM_seq_none {A} (v : list A) a n : length v < a + n -> a <= length v -> mapM (fun i => v !! i) (seq a n) = None.
Proof.
  revert a. induction n as [|n IH]; intros a H Ha; [lia|]. cbn [seq]. change (mapM (fun i => v !! i) (a :: seq (S a) n)) with (x ← v !! a; k ← mapM (fun i => v !! i) (seq (S a) n); mret (x :: k)).
  destruct (v !! a) as [x|] eqn:E; [|done]. cbn [mbind option_bind]. apply lookup_lt_Some in E. by rewrite IH by lia.
Qed.
(** The value of a type of n bytes comes back, also when the receiver's message is longer (the rest is not looked at). *)
Theorem C45_round_trip event old extra : vc_from (length event) (vc_to event old ++ extra) = Some event.
Proof. unfold vc_from, memcpy_from, vc_to. rewrite mapM_seq by (rewrite app_length; lia). rewrite drop_0. by rewrite take_app. Qed.
(** Mapping back is defined exactly for the messages that are long enough, and gives their first bytes. *)
Theorem C98_bounds n message event : vc_from n message = Some event <-> n <= length message /\ event = take n message.
Proof.
  unfold vc_from, memcpy_from. destruct (decide (n <= length message)) as [H|H].
  - rewrite mapM_seq by done. rewrite drop_0. split; [intros [= <-]; done|intros [_ ->]; done].
  - rewrite mapM_seq_none by lia. split; [done|intros [? _]; lia].
Qed.
(** A shorter message is read beyond its end. *)
Theorem C98_short_message_refuted n message : length message < n -> vc_from n message = None.
Proof. intros H. unfold vc_from, memcpy_from. apply mapM_seq_none; lia. Qed.
Theorem C45_identity {T} (e old old' : T) : id_from (id_to e old) old' = e.
Proof. reflexivity. Qed.
Example C45_case : vc_from 4 (vc_to [1; 0; 255; 7]%Z [9]%Z) = Some [1; 0; 255; 7]%Z /\ vc_from 4 [1; 2; 3]%Z = None.
Proof. done. Qed.

(** Reading through the stream buffer: whatever the sequence of reads, no byte outside of the message is touched, and the bytes delivered are the message in order. *)
Definition nc_reads (b : ncbuf) (ns : list nat) : list (option (list Z)) * ncbuf := fold_left (fun '(out, b) n => let '(r, b') := nc_read b n in (out ++ [r], b')) ns ([], b).
Theorem C45_stream_in_bounds data ns :
  let '(out, b) := nc_reads (nc_new data (length data)) ns in
  exists chunks, out = Some <$> chunks /\ concat chunks = take (nc_pos b) data /\ nc_pos b = Nat.min (sum_list ns) (length data).
Proof.
  assert (H : let '(out, b) := nc_reads (nc_new data (length data)) ns in nc_data b = data /\ nc_end b = length data /\
    exists chunks, out = Some <$> chunks /\ concat chunks = take (nc_pos b) data /\ nc_pos b = Nat.min (sum_list ns) (length data)).
  2:{ destruct (nc_reads _ _) as [out b]. tauto. }
  unfold nc_reads. induction ns as [|n ns IH] using rev_ind; [cbn; split_and!; [done|done|]; exists []; done|].
  rewrite fold_left_app. cbn [fold_left]. destruct (fold_left _ ns _) as [out b]. destruct IH as (H1 & H2 & chunks & H3 & H4 & H5). unfold nc_read. cbn [nc_data nc_end nc_pos]. rewrite H1, H2. split_and!; [done|done|].
  set (k := Nat.min n (length data - nc_pos b)). rewrite mapM_seq by lia. exists (chunks ++ [take k (drop (nc_pos b) data)]). rewrite fmap_app, H3. split; [done|]. split.
  - rewrite concat_app, H4. cbn. rewrite app_nil_r. rewrite take_take_drop. done.
  - rewrite sum_list_with_app. cbn. lia.
Qed.
Print Assumptions C45_round_trip.
Print Assumptions C98_bounds.
Print Assumptions C98_short_message_refuted.
Print Assumptions C45_identity.
Print Assumptions C45_stream_in_bounds.
