(** * C84: sizes, slots and capacity of rings. *)
From stdpp Require Import prelude.
From Coq Require Import ZArith Lia ZifyBool.
From Verif Require Import Base RingUtil_Model.
Local Open Scope Z_scope.
(** ** Slots *)
Theorem C84_slot : forall k seq, 0 <= k -> slot (2^k) seq = seq mod 2^k /\ 0 <= slot (2^k) seq < 2^k.
Proof. intros k seq Hk. unfold slot. replace (2^k - 1) with (Z.ones k) by (rewrite Z.ones_equiv; lia). rewrite Z.land_ones by done. split; [done|]. apply Z.mod_pos_bound. by apply Z.pow_pos_nonneg. Qed.
(** Two sequences share a slot exactly when they are a whole number of laps apart; slot and lap identify the sequence. *)
Theorem C84_slot_and_lap : forall k a b, 0 <= k -> (slot (2^k) a = slot (2^k) b /\ lap k a = lap k b) <-> a = b.
Proof.
  intros k a b Hk. split; [|by intros ->]. intros [H1 H2]. destruct (C84_slot k a Hk) as [Ea _], (C84_slot k b Hk) as [Eb _]. rewrite Ea, Eb in H1. unfold lap in H2. rewrite !Z.shiftr_div_pow2 in H2 by done.
  assert (Hp : 2^k <> 0) by (apply Z.pow_nonzero; lia). rewrite (Z.div_mod a (2^k) Hp), (Z.div_mod b (2^k) Hp). congruence.
Qed.
Theorem C84_slot_shared : forall k a b, 0 <= k -> slot (2^k) a = slot (2^k) b <-> exists laps, a = b + laps * 2^k.
Proof.
  intros k a b Hk. destruct (C84_slot k a Hk) as [-> _], (C84_slot k b Hk) as [-> _]. assert (Hp : 2^k <> 0) by (apply Z.pow_nonzero; lia). split.
  - intros H. exists (a / 2^k - b / 2^k). pose proof (Z.div_mod a (2^k) Hp). pose proof (Z.div_mod b (2^k) Hp). lia.
  - intros [l ->]. by rewrite Z_mod_plus_full.
Qed.
(** Fewer than a ring's size apart: different slots (no event overwrites a younger one of the same lap). *)
Theorem C84_window : forall k a b, 0 <= k -> a < b < a + 2^k -> slot (2^k) a <> slot (2^k) b.
Proof. intros k a b Hk H E. apply C84_slot_shared in E as [l E]; [|done]. assert (0 < 2^k) by (by apply Z.pow_pos_nonneg). assert (l = 0 \/ l >= 1 \/ l <= -1) as [ | [|]] by lia; nia. Qed.
(** ** Accepted sizes *)
Lemma pow2_split n : 0 < n -> exists k m, 0 <= k /\ n = 2^k * (2 * m + 1) /\ 0 <= m.
Proof.
  intros Hn. assert (G : forall b x, 0 < x <= b -> exists k m, 0 <= k /\ x = 2^k * (2 * m + 1) /\ 0 <= m); [|apply (G n n); lia].
  clear. intros b. assert (Hb : 0 <= b \/ b < 0) by lia. destruct Hb as [Hb|Hb]; [|intros; lia]. revert b Hb. apply (Z_lt_induction (fun b => forall x, 0 < x <= b -> exists k m, 0 <= k /\ x = 2^k * (2 * m + 1) /\ 0 <= m)).
  intros b IH x Hx. destruct (Z.even x) eqn:E.
  - apply Z.even_spec in E as [y ->]. destruct (IH y ltac:(lia) y ltac:(lia)) as (k & m & Hk & -> & Hm). exists (k + 1), m. split; [lia|]. split; [|done]. rewrite Z.pow_add_r by lia. lia.
  - assert (Z.odd x = true) as Ho by (by rewrite <-Z.negb_even, E). apply Z.odd_spec in Ho as [m ->]. exists 0, m. cbn. lia.
Qed.
(** The check at compile time accepts the powers of two - and zero. *)
Theorem C84_size_accepted : forall n, 0 <= n < 2^64 -> size_accepted n = true <-> n = 0 \/ exists k, 0 <= k < 64 /\ n = 2^k.
Proof.
  intros n Hn. unfold size_accepted. rewrite Z.eqb_eq. replace (2^64 - 1 - n + 1) with (-n + 1 * 2^64) by lia. rewrite Z_mod_plus_full. destruct (decide (n = 0)) as [->|Hz].
  - split; [by left|done].
  - destruct (pow2_split n ltac:(lia)) as (k & m & Hk & E & Hm).
    (* n land (-n) is the lowest set bit of n *)
    assert (L : Z.land n ((-n) mod 2^64) = 2^k).
    { rewrite <-Z.land_ones by lia. rewrite Z.land_assoc. 
      assert (L : Z.land n (-n) = 2^k).
      { rewrite E. replace (- (2^k * (2 * m + 1))) with ((- (2 * m + 1)) * 2^k) by lia. replace (2^k * (2 * m + 1)) with ((2 * m + 1) * 2^k) by lia. rewrite <-!Z.shiftl_mul_pow2 by done. rewrite <-Z.shiftl_land.
        rewrite Z.shiftl_mul_pow2 by done. replace (Z.land (2 * m + 1) (- (2 * m + 1))) with 1; [lia|].
        symmetry. apply Z.bits_inj'. intros i Hi. rewrite Z.land_spec. replace (- (2 * m + 1)) with (Z.lnot (2 * m)) by (unfold Z.lnot; lia). rewrite Z.lnot_spec by done.
        destruct (decide (i = 0)) as [->|Hi0]; [by rewrite Z.testbit_odd_0, Z.testbit_even_0|].
        replace i with (Z.succ (i - 1)) by lia. rewrite Z.testbit_odd_succ, Z.testbit_even_succ by lia. replace (Z.testbit 1 (Z.succ (i - 1))) with false; [by destruct (Z.testbit m (i - 1))|].
        symmetry. change 1 with (2 * 0 + 1). rewrite Z.testbit_odd_succ by lia. apply Z.bits_0. }
      rewrite L. rewrite Z.land_ones by lia. apply Z.mod_small. split; [by apply Z.pow_nonneg|]. nia. }
    rewrite L. split.
    + intros H. right. exists k. split; [|lia]. split; [done|]. apply (Z.pow_lt_mono_r_iff 2); lia.
    + intros [->|(j & Hj & ->)]; [lia|].
      assert (m = 0) as ->; [|lia]. destruct (decide (m = 0)) as [|Hm0]; [done|exfalso].
      assert (Hlt : k < j) by (apply (Z.pow_lt_mono_r_iff 2); [lia..|]; assert (0 < 2^k) by (by apply Z.pow_pos_nonneg); nia).
      replace j with (k + (j - k)) in E by lia. rewrite Z.pow_add_r in E by lia. assert (0 < 2^k) by (by apply Z.pow_pos_nonneg). assert (E2 : 2^(j-k) = 2 * m + 1) by nia.
      replace (j - k) with (Z.succ (j - k - 1)) in E2 by lia. rewrite Z.pow_succ_r in E2 by lia. lia.
Qed.
(** ** log2 *)
Lemma log2_none v r : log2_eval v r -> v <= 1 -> r = None.
Proof.
  induction 1 as [v Hv|v Hv H1|v r Hv H1 Hr IH]; intros H; [done| |].
  - assert (v = 1) as -> by lia. done.
  - assert (v = 1) as -> by lia. rewrite IH; [done|]. by vm_compute.
Qed.
(** For sizes of at least two it is the logarithm; every power of two from 2 on gets its exponent. *)
Theorem C84_log2 : forall v r, 2 <= v -> log2_eval v r -> r = Some (Z.log2 v).
Proof.
  intros v r Hv H. revert Hv. induction H as [v H|v H H1|v r H H1 Hr IH]; intros Hv; [lia| |].
  - f_equal. symmetry. pose proof (Z_div_mod_eq_full v 2) as E. pose proof (Z.mod_pos_bound v 2 ltac:(lia)) as B. apply Z.log2_unique; [lia|]. change (2 ^ 1) with 2. change (2 ^ Z.succ 1) with 4. lia.
  - pose proof (Z_div_mod_eq_full v 2) as E. pose proof (Z.mod_pos_bound v 2 ltac:(lia)) as B. assert (H2 : 2 <= v / 2) by lia. rewrite IH by done. f_equal.
    replace v with (2 * (v / 2) + v mod 2) at 2 by lia. destruct (Z.eq_dec (v mod 2) 0) as [->|H0].
    + rewrite Z.add_0_r, Z.log2_double by lia. lia.
    + replace (v mod 2) with 1 by lia. rewrite Z.log2_succ_double by lia. lia.
Qed.
Theorem C84_log2_terminates : forall v, exists r, log2_eval v r.
Proof.
  intros v. destruct (decide (v <= 0)) as [|Hv]; [eexists; by apply L2_bad|]. assert (Hv' : 0 <= v) by lia. revert v Hv' Hv. 
  apply (Z_lt_induction (fun v => ~ v <= 0 -> exists r, log2_eval v r)). intros v IH Hv. destruct (decide (v / 2 = 1)); [eexists; apply L2_one; [lia|done]|].
  destruct (decide (v / 2 <= 0)) as [Hz|Hz]; [eexists; apply L2_rec; [lia|done|by apply L2_bad]|].
  destruct (IH (v / 2) ltac:(split; [lia|apply Z.div_lt; lia]) Hz) as [r Hr]. eexists. apply L2_rec; [lia|done|exact Hr].
Qed.
Theorem C84_log2_pow : forall k r, 1 <= k -> log2_eval (2^k) r -> r = Some k.
Proof. intros k r Hk H. apply C84_log2 in H; [by rewrite Z.log2_pow2 in H by lia|]. replace k with (Z.succ (k - 1)) by lia. rewrite Z.pow_succ_r by lia. assert (0 < 2^(k-1)) by (apply Z.pow_pos_nonneg; lia). lia. Qed.
(** A ring of one event is accepted by the check, and has no logarithm: the multi-producer ring with it cannot be compiled (the recursion reaches the throw); *)
Theorem C104_size_one_refuted : size_accepted 1 = true /\ forall r, log2_eval 1 r -> r = None.
Proof. split; [done|]. intros r H. by eapply log2_none. Qed.
(** and with size 0, also accepted, every index is outside of the (empty) array. *)
Theorem C104_size_zero_refuted : size_accepted 0 = true /\ forall seq, slot 0 seq = seq.
Proof. split; [done|]. intros seq. unfold slot. cbn. by rewrite Z.land_m1_r. Qed.
(** ** The minimum of sequences *)
Lemma min_le l m : minimum_sequence l m <= m /\ Forall (fun v => minimum_sequence l m <= v) l.
Proof.
  unfold minimum_sequence. revert m. induction l as [|v l IH]; intros m; [done|]. cbn. destruct (IH (if v <? m then v else m)) as [H1 H2]. split; [destruct (Z.ltb_spec v m); lia|]. constructor; [destruct (Z.ltb_spec v m); lia|done].
Qed.
Lemma min_in l m : minimum_sequence l m = m \/ minimum_sequence l m ∈ l.
Proof. unfold minimum_sequence. revert m. induction l as [|v l IH]; intros m; [by left|]. cbn. destruct (IH (if v <? m then v else m)) as [H|H]; [|by right; right]. rewrite H. destruct (v <? m); [right; left|by left]. Qed.
Theorem C84_minimum : forall l m x, minimum_sequence l m = x <-> (x = m \/ x ∈ l) /\ x <= m /\ Forall (fun v => x <= v) l.
Proof.
  intros l m x. split; [intros <-; split; [apply min_in|apply min_le]|]. intros (Hin & Hm & Hl). destruct (min_le l m) as [H1 H2]. rewrite Forall_forall in Hl, H2.
  destruct (min_in l m) as [H|H], Hin as [->|Hin]; try lia.
  - specialize (H2 _ Hin). lia.
  - specialize (Hl _ H). lia.
  - specialize (Hl _ H). specialize (H2 _ Hin). lia.
Qed.
Theorem C84_group : forall l, l <> [] -> Forall (fun v => v <= 9223372036854775807) l -> group_get l ∈ l /\ Forall (fun v => group_get l <= v) l.
Proof.
  change 9223372036854775807 with LLONG_MAX. intros l Hl Hm. unfold group_get. destruct l as [|v [|w l]]; [done|split; [left|by constructor]|]. destruct (min_in (v :: w :: l) LLONG_MAX) as [H|H]; [|split; [done|apply min_le]].
  destruct (min_le (v :: w :: l) LLONG_MAX) as [_ H2]. split; [|done]. rewrite H in H2 |- *. apply List.Forall_inv in Hm, H2. assert (v = LLONG_MAX) as -> by lia. left.
Qed.
(** ** Remaining capacity *)
(** A history of a ring: the cursor and the consumers' sequences, which only grow; no consumer is ahead of the cursor nor more than a ring behind it. *)
Record legal (size : Z) (n : nat) (cursor : nat -> Z) (gate : nat -> nat -> Z) : Prop := {
  lg_cursor : forall t, cursor t <= cursor (S t);
  lg_gate : forall i t, gate i t <= gate i (S t);
  lg_in : forall i t, (i < n)%nat -> cursor t - size <= gate i t <= cursor t
}.
Lemma mono (f : nat -> Z) : (forall t, f t <= f (S t)) -> forall a b, (a <= b)%nat -> f a <= f b.
Proof. intros H a b. induction 1 as [|b _ IH]; [lia|]. specialize (H b). lia. Qed.
(** What is really free at time t. *)
Definition free_at (size : Z) (n : nat) (cursor : nat -> Z) (gate : nat -> nat -> Z) (t : nat) : Z := size - (cursor t - minimum_sequence ((fun i => gate i t) <$> seq 0 n) (cursor t)).
(** A call of remaining_capacity() begins at time t0, reads consumer i at time [at_ i] and ends at time t1. It never promises more than is free when it returns. *)
Theorem C84_remaining_safe : forall size n cursor gate t0 at_ t1, legal size n cursor gate -> (forall i, (t0 <= at_ i <= t1)%nat) ->
  remaining_multi size (cursor t0) ((fun i => gate i (at_ i)) <$> seq 0 n) (cursor t1) <= free_at size n cursor gate t1.
Proof.
  intros size n cursor gate t0 at_ t1 H Ha. unfold remaining_multi, free_at.
  assert (G : minimum_sequence ((fun i => gate i (at_ i)) <$> seq 0 n) (cursor t0) <= minimum_sequence ((fun i => gate i t1) <$> seq 0 n) (cursor t1)); [|lia].
  destruct (min_le ((fun i => gate i (at_ i)) <$> seq 0 n) (cursor t0)) as [L1 L2]. destruct (min_in ((fun i => gate i t1) <$> seq 0 n) (cursor t1)) as [E|E].
  - rewrite E. pose proof (mono cursor (lg_cursor _ _ _ _ H) t0 t1 ltac:(specialize (Ha 0%nat); lia)). lia.
  - apply elem_of_list_fmap in E as (i & -> & Hi). rewrite Forall_forall in L2. specialize (L2 (gate i (at_ i)) ltac:(apply elem_of_list_fmap; by exists i)).
    pose proof (mono (gate i) (lg_gate _ _ _ _ H i) (at_ i) t1 ltac:(apply Ha)). lia.
Qed.
(** Undisturbed it is exact, and between 0 and the size. *)
Theorem C84_remaining_exact : forall size n cursor gate t, legal size n cursor gate -> 0 <= size ->
  remaining_multi size (cursor t) ((fun i => gate i t) <$> seq 0 n) (cursor t) = free_at size n cursor gate t /\ 0 <= free_at size n cursor gate t <= size.
Proof.
  intros size n cursor gate t H Hs. split; [done|]. unfold free_at. destruct (min_le ((fun i => gate i t) <$> seq 0 n) (cursor t)) as [L1 _].
  destruct (min_in ((fun i => gate i t) <$> seq 0 n) (cursor t)) as [E|E]; [lia|]. apply elem_of_list_fmap in E as (i & E & Hi). apply elem_of_seq in Hi. pose proof (lg_in _ _ _ _ H i t ltac:(lia)). lia.
Qed.
(** The producer of a single-producer ring, whose own position cannot move meanwhile, always gets a number between 0 and the size, and not more than what is free in the end. *)
Theorem C84_remaining_single : forall size n cursor gate t0 at_ t1, legal size n cursor gate -> 0 <= size -> cursor t1 = cursor t0 -> (forall i, (t0 <= at_ i <= t1)%nat) ->
  let r := remaining_single size (cursor t0) ((fun i => gate i (at_ i)) <$> seq 0 n) in 0 <= r <= size /\ r <= free_at size n cursor gate t1.
Proof.
  intros size n cursor gate t0 at_ t1 H Hs Hc Ha r. pose proof (C84_remaining_safe size n cursor gate t0 at_ t1 H Ha) as G. unfold remaining_multi in G. rewrite Hc in G. split; [|exact G].
  unfold r, remaining_single. destruct (min_le ((fun i => gate i (at_ i)) <$> seq 0 n) (cursor t0)) as [L1 _]. destruct (min_in ((fun i => gate i (at_ i)) <$> seq 0 n) (cursor t0)) as [E|E]; [lia|].
  apply elem_of_list_fmap in E as (i & E & Hi). apply elem_of_seq in Hi. pose proof (lg_in _ _ _ _ H i (at_ i) ltac:(lia)). pose proof (mono cursor (lg_cursor _ _ _ _ H) t0 (at_ i) ltac:(apply Ha)). lia.
Qed.
(** With several producers the number can be arbitrarily negative: the others publish and the consumers consume between the reads. *)
Theorem C104_remaining_negative_refuted : forall size d, 0 < size -> 0 <= d -> exists cursor gate t1, legal size 1 cursor gate /\
  remaining_multi size (cursor 0%nat) ((fun i => gate i 0%nat) <$> seq 0 1) (cursor t1) = size - d.
Proof.
  intros size d Hs Hd. exists (fun t => Z.of_nat t), (fun _ t => Z.of_nat t), (Z.to_nat d). split; [constructor; intros; lia|]. unfold remaining_multi, minimum_sequence. cbn [seq fmap list_fmap fold_left]. rewrite Z2Nat.id by lia. change (Z.of_nat 0) with 0. cbn [Z.ltb Z.compare]. lia.
Qed.
(** Concrete cases. *)
Example C84_case : slot 8 21 = 5 /\ lap 3 21 = 2 /\ size_accepted 8 = true /\ size_accepted 12 = false /\ log2_eval 8 (Some 3) /\ minimum_sequence [7; 3; 9] 5 = 3 /\ group_get [4; 2; 6] = 2 /\
  legal 8 2 (fun t => Z.of_nat t) (fun i t => Z.of_nat t - Z.of_nat (Nat.min t (i + 3))).
Proof.
  do 4 (split; [by vm_compute|]). split; [apply (L2_rec 8 (Some 2)); [lia|done|]; apply (L2_rec (8 / 2) (Some 1)); [by vm_compute|done|]; by apply L2_one|]. do 2 (split; [by vm_compute|]).
  constructor; intros; lia.
Qed.
Print Assumptions C84_slot.
Print Assumptions C84_slot_and_lap.
Print Assumptions C84_slot_shared.
Print Assumptions C84_window.
Print Assumptions C84_size_accepted.
Print Assumptions C84_log2.
Print Assumptions C84_log2_terminates.
Print Assumptions C84_log2_pow.
Print Assumptions C104_size_one_refuted.
Print Assumptions C104_size_zero_refuted.
Print Assumptions C84_minimum.
Print Assumptions C84_group.
Print Assumptions C84_remaining_safe.
Print Assumptions C84_remaining_exact.
Print Assumptions C84_remaining_single.
Print Assumptions C104_remaining_negative_refuted.
