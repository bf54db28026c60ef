(** * Properties C01 and C02 of the lock-free stack *)
From stdpp Require Import prelude list_numbers.
From Verif Require Import LockFreeStack_Model LockFreeStack_Spec LockFreeStack_Proofs.
Local Open Scope Z_scope.

(** C01, full statement: every history of every schedule is a behaviour of the
    atomic bounded stack of [LockFreeStack_Spec], without undefined behaviour. *)
Definition C01_statement : Prop := forall (T : Type) (d : list T) n acts,
  d <> [] -> Z.of_nat (length d) <= 65535 ->
  exists st sts,
    srun (length d) (d, replicate n SIdle) (rev (hist (run (init d n) acts))) (st, sts)
    /\ Forall (fun p => p <> Ub) (thr (run (init d n) acts)).

(** C01, proved for the schedules in which no thread sleeps through 2^16
    updates between its load and its compare-and-swap. *)
Theorem C01_lfs_linearizable_partial : forall (T : Type) (d : list T) n acts,
  d <> [] -> Z.of_nat (length d) <= 65535 -> no_wrap (init d n) acts ->
  exists st sts,
    srun (length d) (d, replicate n SIdle) (rev (hist (run (init d n) acts))) (st, sts)
    /\ Forall (fun p => p <> Ub) (thr (run (init d n) acts)).
Proof. exact (@lfs_linearizable_lemma). Qed.
Print Assumptions C01_lfs_linearizable_partial.

(** Hence, in those schedules, nothing is lost or duplicated: initial and pushed
    elements are exactly the popped ones plus the [st] still in the stack. *)
Theorem C01_lfs_conservation_partial : forall (T : Type) (d : list T) n acts,
  d <> [] -> Z.of_nat (length d) <= 65535 -> no_wrap (init d n) acts ->
  let h := rev (hist (run (init d n) acts)) in
  exists st, d ++ stored h ≡ₚ taken h ++ st /\ (length st <= length d)%nat.
Proof.
  intros T d n acts H1 H2 H3 h.
  destruct (lfs_linearizable_lemma d n acts H1 H2 H3) as (st & sts & H & _).
  exists st. destruct (srun_conservation _ _ _ _ H) as [Ha Hb]. split; [exact Ha|apply Hb; simpl; lia].
Qed.
Print Assumptions C01_lfs_conservation_partial.

(** A non-trivial schedule satisfying the hypotheses: two threads collide on the
    head, the second one's CAS fails and is retried, then an element is pushed back. *)
Definition demo : list (act Z) :=
  [ACall 0 OPop; ACall 1 OPop; AStep 0 false; AStep 1 false; AStep 0 false; AStep 1 false;
   AStep 0 false; AStep 1 false] ++ replicate 6 (AStep 1 false) ++ replicate 4 (AStep 0 false)
  ++ alone 1 (OPush 9).
Example C01_hypotheses_met :
  no_wrap (init [5; 6; 7] 2) demo /\
  returns (rev (hist (run (init [5; 6; 7] 2) demo))) = [RPopped 6; RPopped 5; RPushed].
Proof. split; [vm_compute; intuition congruence|vm_compute; reflexivity]. Qed.

(** C01 is false of the code: with a stall of exactly 2^16 updates of the head
    the compare-and-swap succeeds on a stale [next] and an element is popped twice. *)
Definition wrap_schedule : list (act Z) :=
  [ACall 0 OPop; AStep 0 false; AStep 0 false]         (* thread 0 read next = 1, stalls *)
  ++ ACall 1 OPop :: replicate 4 (AStep 1 false)       (* thread 1 took node 0 *)
  ++ alone 2 OPop ++ alone 2 OPop                      (* thread 2 popped nodes 1 and 2 *)
  ++ replicate 3 (AStep 1 false)                       (* thread 1 freed node 0 last *)
  ++ alone 1 (OPush 7)                                 (* node 0 is alone on the stack *)
  ++ concat (replicate (Z.to_nat 32766) (alone 1 OPop ++ alone 1 (OPush 7)))
  ++ replicate 5 (AStep 0 false)                       (* thread 0's CAS succeeds *)
  ++ alone 1 OPop.                                     (* pops node 1 again *)
Lemma refuted_by_counts (sch : list (act Z)) :
  (count_occ Z.eq_dec (taken (rev_append (hist (run (init [10; 11; 12] 3) sch)) [])) 11,
   count_occ Z.eq_dec (stored (rev_append (hist (run (init [10; 11; 12] 3) sch)) [])) 11) = (2%nat, 0%nat) ->
  ~ C01_statement.
Proof.
  intros Hw H. rewrite <- !rev_alt in Hw.
  destruct (H Z [10; 11; 12] 3%nat sch) as (st & sts & Hr & _);
    [discriminate|vm_compute; discriminate|].
  destruct (srun_conservation _ _ _ _ Hr) as [Hp _].
  apply (Permutation_count_occ Z.eq_dec) with (x := 11) in Hp.
  rewrite !count_occ_app in Hp. injection Hw as E1 E2. rewrite E1, E2 in Hp. simpl in Hp. lia.
Qed.
Theorem C01_lfs_tag_wrap_refuted : ~ C01_statement.
Proof.
  apply (refuted_by_counts wrap_schedule). vm_cast_no_check (eq_refl (2%nat, 0%nat)).
Qed.
Print Assumptions C01_lfs_tag_wrap_refuted.

(** A further finding: the plain (non atomic) read of [index_next] in one thread's
    [_pop] and its plain write in another thread's [_push] can be
    simultaneously enabled on the same node, a data race in C++. *)
Theorem C01_lfs_index_next_race_refuted : exists (acts : list (act Z)) o1 o2 g1 i r g2,
  thr (run (init [5; 6] 2) acts) = [PopRead o1 g1; PushSet o2 i r g2] /\ idx g1 = i.
Proof.
  exists ([ACall 0 OPop; AStep 0 false; ACall 1 OPop] ++ replicate 5 (AStep 1 false)).
  do 6 eexists. split; vm_compute; reflexivity.
Qed.
Print Assumptions C01_lfs_index_next_race_refuted.

(** C02: used by one thread at a time, it is the sequential bounded stack. *)
Theorem C02_lfs_sequential : forall (T : Type) (d : list T) ops,
  d <> [] -> Z.of_nat (length d) <= 65535 ->
  returns (rev (hist (run (init d 1) (concat (alone 0 <$> ops))))) = seq_results (length d) d ops.
Proof. exact (@lfs_sequential_lemma). Qed.
Print Assumptions C02_lfs_sequential.
Example C02_case :
  seq_results 2 [1; 2] [OPush 3; OPop; OPush 3; OPush 4; OPop; OPop; OPop] =
  [RPushFull; RPopped 1; RPushed; RPushFull; RPopped 3; RPopped 2; RPopEmpty].
Proof. reflexivity. Qed.

(** C02 for capacities above 65535 (the constructor accepts them): false, a pop
    fails although elements remain. *)
Theorem C02_lfs_large_capacity_refuted : forall (T : Type) (d : list T), 65535 < Z.of_nat (length d) ->
  let ops := replicate (Z.to_nat 65536) OPop in
  returns (rev (hist (run (init d 1) (concat (alone 0 <$> ops))))) =
    (RPopped <$> take (Z.to_nat 65535) d) ++ [RPopEmpty].
Proof. exact (@lfs_large_lemma). Qed.
Print Assumptions C02_lfs_large_capacity_refuted.
