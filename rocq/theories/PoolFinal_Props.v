(** * Which objects of a pool are given to the finalizer (C90).
    The model is SmartObjectPool_Model: ~SmartObjectPool(), smart_object_pool.h 98-108, the deleter 51-58. *)
From stdpp Require Import prelude gmap list_numbers.
From Verif Require Import LockFreeStack_Model LockFreeStack_Spec SmartObjectPool_Model SmartObjectPool_Spec SmartObjectPool_Proofs.
Lemma pool_run_app cs1 cs2 p : pool_run p (cs1 ++ cs2) = let '(p1, o1) := pool_run p cs1 in let '(p2, o2) := pool_run p1 cs2 in (p2, o1 ++ o2).
Proof.
  revert p. induction cs1 as [|c cs1 IH]; intros p; simpl; [by destruct (pool_run p cs2)|].
  destruct (pool_step p c) as [q o]. rewrite IH. destruct (pool_run q cs1) as [q1 o1]. by destruct (pool_run q1 cs2).
Qed.
Lemma dead_final cs q p os : pool_run q cs = (p, os) -> p_alive q = false -> p_alive p = false /\ p_finalized p = p_finalized q.
Proof.
  revert q os. induction cs as [|c cs IH]; intros q os E Hq; simpl in E; [by injection E as <- <-|].
  destruct (pool_step q c) as [q1 o] eqn:E1. destruct (pool_run q1 cs) as [q2 os'] eqn:E2. injection E as <- <-.
  assert (p_alive q1 = false /\ p_finalized q1 = p_finalized q) as [H1 <-].
  { destruct c; simpl in E1; unfold acquire, release, destroy in E1; rewrite Hq in E1; simpl in E1.
    - by injection E1 as <- <-.
    - destruct (bool_decide _); simpl in E1; by injection E1 as <- <-.
    - by injection E1 as <- <-. }
  by eapply IH.
Qed.
(** In every history: the objects given to the finalizer are exactly those that no client held when the pool died, each once; none before that. *)
Theorem C90_finalized_exactly : forall n cs1 cs2 p1 o1 p os, CDestroy ∉ cs1 ->
  pool_run (pool_new n) cs1 = (p1, o1) -> pool_run (pool_new n) (cs1 ++ CDestroy :: cs2) = (p, os) -> OUb ∉ os ->
  p_finalized p1 = [] /\ p_finalized p ++ in_use [] cs1 o1 ≡ₚ seq 0 n.
Proof.
  intros n cs1 cs2 p1 o1 p os Hnd E1 E Hub.
  rewrite pool_run_app, E1 in E. simpl in E. destruct (destroy p1) as [q o] eqn:Ed. destruct (pool_run q cs2) as [p2 o2] eqn:E2. injection E as <- <-.
  assert (Hub1 : OUb ∉ o1). { intros H. apply Hub, elem_of_app. by left. }
  pose proof (pool_run_inv n cs1 _ _ _ (pool_new_inv n) E1) as [H1 H2 H3 H4 H5].
  destruct (pool_run_held cs1 (pool_new n) p1 o1 [] eq_refl E1 Hub1) as (Hh & _ & _ & Hal). specialize (Hal Hnd eq_refl).
  destruct (H3 Hal) as [Hdel Hfin].
  unfold destroy in Ed. rewrite Hal, drain_spec in Ed. simpl in Ed. injection Ed as <- <-.
  destruct (dead_final _ _ _ _ E2 eq_refl) as [_ ->]. simpl. split; [done|].
  rewrite Hfin, app_nil_r, <- H2, Hdel, app_nil_r, Hh, <- (Permutation_rev (p_stack p1)). apply Permutation_app_comm.
Qed.
(** So the finalizer runs on every object exactly if every object was back when the pool died. *)
Theorem C90_finalized : forall n cs1 cs2 p1 o1 p os, CDestroy ∉ cs1 ->
  pool_run (pool_new n) cs1 = (p1, o1) -> pool_run (pool_new n) (cs1 ++ CDestroy :: cs2) = (p, os) -> OUb ∉ os ->
  in_use [] cs1 o1 = [] -> p_finalized p ≡ₚ seq 0 n /\ p_finalized p = p_deleted p.
Proof.
  intros n cs1 cs2 p1 o1 p os Hnd E1 E Hub Hin. pose proof (C90_finalized_exactly n cs1 cs2 p1 o1 p os Hnd E1 E Hub) as [Hf Hp].
  rewrite Hin, app_nil_r in Hp. split; [done|].
  rewrite pool_run_app, E1 in E. simpl in E. destruct (destroy p1) as [q o] eqn:Ed. destruct (pool_run q cs2) as [p2 o2] eqn:E2. injection E as <- <-.
  assert (Hub1 : OUb ∉ o1). { intros H. apply Hub, elem_of_app. by left. }
  pose proof (pool_run_inv n cs1 _ _ _ (pool_new_inv n) E1) as [H1 H2 H3 H4 H5].
  destruct (pool_run_held cs1 (pool_new n) p1 o1 [] eq_refl E1 Hub1) as (Hh & _ & _ & Hal). specialize (Hal Hnd eq_refl).
  destruct (H3 Hal) as [Hdel _].
  unfold destroy in Ed. rewrite Hal, drain_spec in Ed. simpl in Ed. injection Ed as <- <-.
  assert (Hq : forall cs q p os, pool_run q cs = (p, os) -> p_alive q = false -> p_held q = [] -> OUb ∉ os -> p_deleted p = p_deleted q).
  { clear. induction cs as [|c cs IH]; intros q p os E Hq Hh Hub; simpl in E; [by injection E as <- <-|].
    destruct (pool_step q c) as [q1 o] eqn:E1. destruct (pool_run q1 cs) as [q2 os'] eqn:E2. injection E as <- <-.
    apply not_elem_of_cons in Hub as [Ho Hub].
    destruct c; simpl in E1; unfold acquire, release, destroy in E1; rewrite ?Hq, ?Hh in E1; simpl in E1; by injection E1 as <- <-. }
  rewrite (Hq _ _ _ _ E2), (proj2 (dead_final _ _ _ _ E2 eq_refl)).
  - simpl. by rewrite Hf, Hdel.
  - done.
  - simpl. by rewrite Hh.
  - intros H. apply Hub, elem_of_app. right. by right.
Qed.
(** Hypotheses met: two objects, one lent out and back, the other still out when the pool dies. *)
Example C90_example : p_finalized (pool_run (pool_new 2) [CAcquire; CAcquire; CRelease 0; CDestroy; CRelease 1]).1 = [0] /\ p_deleted (pool_run (pool_new 2) [CAcquire; CAcquire; CRelease 0; CDestroy; CRelease 1]).1 = [1; 0].
Proof. done. Qed.
Print Assumptions C90_finalized_exactly.
Print Assumptions C90_finalized.
