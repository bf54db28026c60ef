(** * C192: the constructor of the lock-free stack. *)
From stdpp Require Import prelude.
From Coq Require Import ZArith Lia ZifyBool.
From Verif Require Import LockFreeStack_Model LfsCtor_Model.
Local Open Scope Z_scope.

Section props.
Context {T : Type}.
Implicit Types f : option (T -> T).
Lemma insert_snoc_replicate {A} (l : list A) (x y : A) k : <[length l := y]> (l ++ replicate (S k) x) = (l ++ [y]) ++ replicate k x.
Proof. rewrite <- app_assoc. replace (length l) with (length l + 0)%nat by lia. by rewrite insert_app_r. Qed.
Lemma alter_snoc_replicate {A} (g : A -> A) (l : list A) (x : A) k : alter g (length l) (l ++ replicate (S k) x) = (l ++ [g x]) ++ replicate k x.
Proof. rewrite <- app_assoc. rewrite alter_app_r_alt by lia. by rewrite Nat.sub_diag. Qed.
Definition apply f (x : T) : T := match f with Some g => g x | None => x end.
Definition called f (n : nat) : list Z := match f with Some _ => Z.of_nat <$> seq 0 n | None => [] end.
Definition sofar (l : list Z) f d0 (k : nat) : ctor T :=
  Ctor ((Some <$> l) ++ replicate k None) (replicate (length l) (apply f d0) ++ replicate k d0) (called f (length l)) false.
Lemma write_next l f d0 k v : c_write f (sofar l f d0 (S k)) (Z.of_nat (length l)) v = sofar (l ++ [v]) f d0 k.
Proof.
  unfold c_write, sofar. cbn [c_oob c_data c_nexts c_calls]. rewrite !app_length, !replicate_length.
  replace ((0 <=? Z.of_nat (length l)) && (Z.of_nat (length l) <? Z.of_nat (length l + S k))) with true by (symmetry; apply andb_true_iff; lia).
  rewrite Nat2Z.id. f_equal.
  - rewrite fmap_app. pose proof (insert_snoc_replicate (Some <$> l) None (Some v) k) as H. by rewrite fmap_length in H.
  - destruct f as [g|]; cbn [apply].
    + pose proof (alter_snoc_replicate g (replicate (length l) (g d0)) d0 k) as H. rewrite replicate_length in H. rewrite H. f_equal. cbn [length]. rewrite replicate_add. done.
    + cbn [length]. rewrite replicate_add, <- app_assoc. done.
  - destruct f; cbn [called length]; [|done]. rewrite Nat.add_1_r, seq_S, fmap_app. done.
Qed.
Lemma loop_runs f d0 n k : c_loop f n (sofar [] f d0 (n + k)) = sofar ((fun i => u16 (Z.of_nat i + 1)) <$> seq 0 n) f d0 k.
Proof.
  revert k. induction n as [|n IH]; intros k; [done|]. unfold c_loop. rewrite seq_S, fold_left_app. cbn [fold_left].
  replace (S n + k)%nat with (n + S k)%nat by lia. fold (c_loop f n (sofar [] f d0 (n + S k))). rewrite IH.
  replace (0 + n)%nat with (length ((fun i => u16 (Z.of_nat i + 1)) <$> seq 0 n)) by by rewrite fmap_length, seq_length. rewrite write_next. f_equal.
  rewrite fmap_app, fmap_length, seq_length. done.
Qed.
(** For every capacity that fits (from 1 on): no access outside the arrays; each element is initialised exactly once, in order (or none, without a function); the nodes are
    chained in order and the last one ends the chain: this is the state LockFreeStack_Model starts from. *)
Theorem C192_constructor f d0 cap : 1 <= cap < 2 ^ 64 -> let s := construct f d0 cap in
  c_oob s = false /\ c_data s = replicate (Z.to_nat cap) (apply f d0) /\ c_calls s = called f (Z.to_nat cap) /\
  c_nexts s = Some <$> ((fun i => if Z.of_nat i + 1 <? cap then (Z.of_nat i + 1) mod 65536 else 65535) <$> seq 0 (Z.to_nat cap)).
Proof.
  intros Hc s. unfold s, construct. assert (E : u64 (cap - 1) = cap - 1) by (unfold u64; apply Z.mod_small; lia). rewrite E.
  pose proof (loop_runs f d0 (Z.to_nat (cap - 1)) 1) as H. replace (Z.to_nat (cap - 1) + 1)%nat with (Z.to_nat cap) in H by lia.
  change (Ctor (replicate (Z.to_nat cap) None) (replicate (Z.to_nat cap) d0) [] false) with (@sofar [] None d0 (Z.to_nat cap)).
  replace (sofar [] None d0 (Z.to_nat cap)) with (sofar [] f d0 (Z.to_nat cap)) by (unfold sofar; destruct f; done). rewrite H.
  set (l := (fun i => u16 (Z.of_nat i + 1)) <$> seq 0 (Z.to_nat (cap - 1))). assert (Hl : length l = Z.to_nat (cap - 1)) by (unfold l; by rewrite fmap_length, seq_length).
  pose proof (write_next l f d0 0 UNDEF) as Hw. rewrite Hl, Z2Nat.id in Hw by lia. rewrite Hw. unfold sofar. cbn [c_oob c_data c_calls c_nexts].
  rewrite app_length, Hl. cbn [length replicate]. replace (Z.to_nat (cap - 1) + 1)%nat with (Z.to_nat cap) by lia. rewrite !app_nil_r. split; [done|]. split; [done|]. split; [done|]. f_equal.
  replace (Z.to_nat cap) with (S (Z.to_nat (cap - 1))) by lia. rewrite seq_S, fmap_app. f_equal.
  - unfold l. apply list_fmap_ext. intros i x Hx. apply lookup_seq in Hx as [-> Hi]. cbn [Nat.add]. replace (Z.of_nat i + 1 <? cap) with true by lia. done.
  - cbn [Nat.add fmap list_fmap]. rewrite Z2Nat.id by lia. replace (cap - 1 + 1 <? cap) with false by lia. done.
Qed.
Corollary C192_starts_the_model f d0 cap n : 1 <= cap < 2 ^ 64 -> let s := construct f d0 cap in
  c_nexts s = Some <$> nexts (init (c_data s) n) /\ length (c_data s) = Z.to_nat cap.
Proof.
  intros Hc s. destruct (C192_constructor f d0 cap Hc) as (_ & Hd & _ & Hn). fold s in Hd, Hn. rewrite Hn, Hd, replicate_length. split; [|done].
  unfold init. cbn [nexts]. rewrite replicate_length. unfold init_nexts. rewrite Nat2Z.id, Z2Nat.id by lia. f_equal. apply list_fmap_ext. intros i x _. unfold u16, UNDEF.
  replace (Z.of_nat x + 1 <? cap) with (Z.of_nat x <? cap - 1) by lia. done.
Qed.
(** For capacity 0 the first access is outside the arrays, whatever the function. *)
Theorem C193_zero_refuted f d0 : c_oob (construct f d0 0) = true /\ c_calls (construct f d0 0) = [].
Proof.
  unfold construct. change (u64 (0 - 1)) with (18446744073709551615). change (Z.to_nat 0) with 0%nat. cbn [replicate].
  assert (L : forall n s, c_oob s = true -> c_loop f n s = s).
  { intros n s Hs. unfold c_loop. generalize (seq 0 n). intros l. induction l as [|i l IH]; [done|]. cbn [fold_left]. unfold c_write at 2. by rewrite Hs. }
  assert (L1 : forall n, c_loop f (S n) (Ctor [] [] [] false) = Ctor [] [] [] true).
  { intros n. unfold c_loop. cbn [seq fold_left]. change (c_write f (Ctor [] [] [] false) (Z.of_nat 0) (u16 (Z.of_nat 0 + 1))) with (@Ctor T [] [] [] true).
    generalize (seq 1 n). intros l. induction l as [|i l IH]; [done|]. cbn [fold_left]. exact IH. }
  replace (Z.to_nat 18446744073709551615) with (S (Z.to_nat 18446744073709551614)) by lia. rewrite L1. done.
Qed.
End props.
Example C192_case : construct (Some (Z.add 7)) 0 3 = Ctor [Some 1; Some 2; Some 65535] [7; 7; 7] [0; 1; 2] false.
Proof. by vm_compute. Qed.
Print Assumptions C192_constructor.
Print Assumptions C192_starts_the_model.
Print Assumptions C193_zero_refuted.
