From stdpp Require Import prelude gmap list_numbers.
From Verif Require Import LockFreeStack_Model LockFreeStack_Spec LockFreeStack_Proofs SmartObjectPool_Model SmartObjectPool_Spec.

Lemma remove1_perm x l : x ∈ l -> l ≡ₚ x :: remove1 x l.
Proof.
  induction l as [|y l IH]; [set_solver|]. intros H. simpl.
  destruct (decide (x = y)) as [->|Hne]; [done|].
  rewrite IH at 1 by set_solver. apply Permutation_swap.
Qed.

(** ** Sequential pool *)
Record PInv (n : nat) (p : pool) : Prop := {
  pi_cap : p_cap p = n;
  pi_perm : p_held p ++ p_stack p ++ p_deleted p ≡ₚ seq 0 n;
  pi_alive : p_alive p = true -> p_deleted p = [] /\ p_finalized p = [];
  pi_dead : p_alive p = false -> p_stack p = [] /\
     exists l, p_deleted p ≡ₚ l ++ p_finalized p;
  pi_init : p_inited p = seq 0 n
}.

Lemma pool_new_inv n : PInv n (pool_new n).
Proof. constructor; simpl; auto; try done. by rewrite app_nil_r. Qed.

Lemma acquire_inv n p p' o : PInv n p -> acquire p = (p', o) -> PInv n p'.
Proof.
  intros [H1 H2 H3 H4 H5] E. unfold acquire in E.
  destruct (p_alive p) eqn:Ea; simpl in E; [|by injection E as <- <-; constructor; rewrite ?Ea].
  destruct (p_stack p) as [|x st] eqn:Es; injection E as <- <-; constructor; simpl; auto; try done.
  rewrite <- H2. solve_Permutation.
Qed.

Lemma release_inv n p p' o x : PInv n p -> release x p = (p', o) -> PInv n p'.
Proof.
  intros [H1 H2 H3 H4 H5] E. unfold release in E.
  destruct (bool_decide (x ∈ p_held p)) eqn:Ex; simpl in E; [|by injection E as <- <-; constructor].
  apply bool_decide_eq_true in Ex.
  destruct (p_alive p) eqn:Ea; simpl in E.
  - destruct (length (p_stack p) <? p_cap p)%nat eqn:El.
    + injection E as <- <-. constructor; simpl; auto; try done.
      rewrite <- H2. rewrite (remove1_perm x (p_held p)) at 2 by done. solve_Permutation.
    + exfalso. apply Nat.ltb_ge in El. destruct H3 as [H3 _]; [done|]. rewrite H3, app_nil_r in H2.
      apply Permutation_length in H2. rewrite app_length, seq_length in H2.
      assert (0 < length (p_held p))%nat by (destruct (p_held p); [set_solver|simpl; lia]). lia.
  - destruct H4 as (H4 & l & Hl); [done|].
    injection E as <- <-. constructor; simpl; auto; try done.
    + rewrite <- H2. rewrite (remove1_perm x (p_held p)) at 2 by done. solve_Permutation.
    + intros _. split; [done|]. exists (x :: l). rewrite Hl. done.
Qed.

Lemma drain_spec st fin del : drain st fin del = (rev st ++ fin, rev st ++ del).
Proof.
  revert fin del; induction st as [|x st IH]; intros fin del; simpl; [done|].
  rewrite IH, <- !(assoc_L (++)). done.
Qed.

Lemma destroy_inv n p p' o : PInv n p -> destroy p = (p', o) -> PInv n p'.
Proof.
  intros [H1 H2 H3 H4 H5] E. unfold destroy in E.
  destruct (p_alive p) eqn:Ea; simpl in E; [|by injection E as <- <-; constructor; rewrite ?Ea].
  rewrite drain_spec in E. injection E as <- <-.
  destruct H3 as [Hd Hf]; [done|]. constructor; simpl; auto; try done.
  - rewrite <- H2, <- (Permutation_rev (p_stack p)). solve_Permutation.
  - intros _. split; [done|]. exists []. by rewrite Hd, Hf.
Qed.

Lemma pool_step_inv n p c p' o : PInv n p -> pool_step p c = (p', o) -> PInv n p'.
Proof. destruct c; simpl; eauto using acquire_inv, release_inv, destroy_inv. Qed.

Lemma pool_run_inv n cs : forall p p' os, PInv n p -> pool_run p cs = (p', os) -> PInv n p'.
Proof.
  induction cs as [|c cs IH]; intros p p' os I E; simpl in E; [by injection E as <- <-|].
  destruct (pool_step p c) as [p1 o] eqn:E1. destruct (pool_run p1 cs) as [p2 os'] eqn:E2.
  injection E as <- <-. eauto using pool_step_inv.
Qed.

Lemma pool_run_held cs : forall p p' os acc, p_held p = acc -> pool_run p cs = (p', os) -> OUb ∉ os ->
  p_held p' = in_use acc cs os /\ p_fails p' = (p_fails p + failures os)%Z /\ length os = length cs
  /\ (CDestroy ∉ cs -> p_alive p = true -> p_alive p' = true).
Proof.
  induction cs as [|c cs IH]; intros p p' os acc Ha E Hub; simpl in E.
  { injection E as <- <-. simpl. unfold failures; simpl. split_and!; auto; lia. }
  destruct (pool_step p c) as [p1 o] eqn:E1. destruct (pool_run p1 cs) as [p2 os'] eqn:E2.
  injection E as <- <-. rewrite not_elem_of_cons in Hub. destruct Hub as [Ho Hub].
  assert (Hf : failures (o :: os') = ((if decide (o = OOutOfRange) then 1 else 0) + failures os')%Z).
  { unfold failures. rewrite filter_cons. destruct (decide (o = OOutOfRange)); simpl length; lia. }
  rewrite Hf.
  assert (HP : (p_held p1 = match c, o with CAcquire, OGot x => x :: acc | CRelease x, _ => remove1 x acc | _, _ => acc end)
     /\ p_fails p1 = (p_fails p + (if decide (o = OOutOfRange) then 1 else 0))%Z
     /\ (c <> CDestroy -> p_alive p = true -> p_alive p1 = true)).
  { destruct c; simpl in E1.
    - unfold acquire in E1. destruct (p_alive p); simpl in E1; [|injection E1 as <- <-; done].
      destruct (p_stack p); injection E1 as <- <-; simpl; split_and!; auto; try lia; congruence.
    - unfold release in E1. destruct (bool_decide _); simpl in E1; [|injection E1 as <- <-; done].
      destruct (p_alive p); simpl in E1; [destruct (_ <? _)%nat|]; injection E1 as <- <-; simpl; split_and!; auto; try lia; congruence.
    - unfold destroy in E1. destruct (p_alive p); simpl in E1; [|injection E1 as <- <-; done].
      rewrite drain_spec in E1. injection E1 as <- <-; simpl; split_and!; auto; try lia; done. }
  destruct HP as (Hh & Hfl & Hal).
  destruct (IH p1 p2 os' _ Hh E2 Hub) as (H1 & H2 & H3 & H4).
  split_and!.
  - rewrite H1. destruct c, o; done.
  - rewrite H2, Hfl. lia.
  - simpl. lia.
  - rewrite not_elem_of_cons. intros [? ?] ?. apply H4; auto.
Qed.

Lemma pool_exclusive_lemma n cs p os : pool_run (pool_new n) cs = (p, os) -> OUb ∉ os -> CDestroy ∉ cs ->
  let held := in_use [] cs os in
  NoDup held /\ (forall x, x ∈ held -> (x < n)%nat) /\ p_deleted p = [] /\ p_fails p = failures os /\
  (forall p' x, acquire p = (p', OGot x) -> (x < n)%nat /\ x ∉ held) /\
  ((acquire p).2 = OOutOfRange <-> length held = n) /\
  ((exists x, (acquire p).2 = OGot x) <-> (length held < n)%nat).
Proof.
  intros E Hub Hd held. pose proof (pool_run_inv n cs _ _ _ (pool_new_inv n) E) as [H1 H2 H3 H4 H5].
  destruct (pool_run_held cs (pool_new n) p os [] eq_refl E Hub) as (Hh & Hf & _ & Hal).
  specialize (Hal Hd eq_refl). destruct (H3 Hal) as [Hdel _]. fold held in Hh.
  rewrite Hdel, app_nil_r, Hh in H2.
  assert (Hnd : NoDup (held ++ p_stack p)) by (rewrite H2; apply NoDup_seq).
  assert (Hlen := Permutation_length H2). rewrite app_length, seq_length in Hlen.
  assert (Hin : forall x, x ∈ held ++ p_stack p -> (x < n)%nat).
  { intros x Hx. rewrite H2 in Hx. apply elem_of_seq in Hx. lia. }
  split_and!.
  - apply NoDup_app in Hnd. tauto.
  - intros x Hx. apply Hin. set_solver.
  - done.
  - rewrite Hf. done.
  - intros p' x Ha. unfold acquire in Ha. rewrite Hal in Ha. simpl in Ha.
    destruct (p_stack p) as [|y st] eqn:Es; injection Ha; intros; [done|]. subst.
    split; [apply Hin; set_solver|]. apply NoDup_app in Hnd as (_ & Hnd & _).
    intros Hx. apply (Hnd _ Hx). set_solver.
  - unfold acquire. rewrite Hal. simpl. destruct (p_stack p); simpl in *; split; try done; lia.
  - unfold acquire. rewrite Hal. simpl. destruct (p_stack p); simpl in *; split; eauto; try lia.
    intros [x ?]; done.
Qed.

Lemma pool_deleted_once_lemma n cs p os : pool_run (pool_new n) cs = (p, os) -> OUb ∉ os ->
  let held := in_use [] cs os in
  NoDup (p_deleted p) /\ (forall x, x ∈ p_deleted p -> x ∉ held /\ (x < n)%nat) /\
  (CDestroy ∈ cs -> p_deleted p ++ held ≡ₚ seq 0 n).
Proof.
  intros E Hub held. pose proof (pool_run_inv n cs _ _ _ (pool_new_inv n) E) as [H1 H2 H3 H4 H5].
  destruct (pool_run_held cs (pool_new n) p os [] eq_refl E Hub) as (Hh & _). fold held in Hh. rewrite Hh in H2.
  assert (Hnd : NoDup (held ++ p_stack p ++ p_deleted p)) by (rewrite H2; apply NoDup_seq).
  split_and!.
  - rewrite (assoc_L (++)) in Hnd. apply NoDup_app in Hnd. tauto.
  - intros x Hx. split.
    + intros Hc. apply NoDup_app in Hnd as (_ & Hnd & _). apply (Hnd _ Hc). set_solver.
    + assert (Hx' : x ∈ seq 0 n) by (rewrite <- H2; set_solver). apply elem_of_seq in Hx'. lia.
  - intros Hin. assert (Hdead : p_alive p = false).
    { clear -E Hin Hub. revert E Hin Hub. generalize (pool_new n) as q. revert os.
      assert (Hdd : forall cs q os p, pool_run q cs = (p, os) -> p_alive q = false -> p_alive p = false).
      { clear. induction cs as [|c cs IH]; intros q os p E Hq; simpl in E; [by injection E as <- <-|].
        destruct (pool_step q c) as [q1 o] eqn:E1. destruct (pool_run q1 cs) as [q2 os'] eqn:E2.
        injection E as <- <-. eapply IH; [exact E2|].
        destruct c; simpl in E1; unfold acquire, release, destroy in E1; rewrite Hq in E1; simpl in E1.
        - by injection E1 as <- <-.
        - destruct (bool_decide _); simpl in E1; by injection E1 as <- <-.
        - by injection E1 as <- <-. }
      induction cs as [|c cs IH]; intros os q E Hin Hub; [set_solver|]. simpl in E.
      destruct (pool_step q c) as [q1 o] eqn:E1. destruct (pool_run q1 cs) as [q2 os'] eqn:E2.
      injection E as <- <-. rewrite not_elem_of_cons in Hub. destruct Hub as [Ho Hub].
      apply elem_of_cons in Hin as [<-|Hin]; [|by eapply IH].
      eapply Hdd; [exact E2|]. simpl in E1. unfold destroy in E1.
      destruct (p_alive q) eqn:Eq; simpl in E1; [rewrite drain_spec in E1|]; by injection E1 as <- <-. }
    destruct (H4 Hdead) as [Hs _]. rewrite Hs in H2. rewrite <- H2. solve_Permutation.
Qed.

(** ** Concurrent pool *)
Definition transit (x : status obj) : list obj :=
  match x with SCalled (OPush v) | SDone (RPopped v) => [v] | _ => [] end.
Definition transits (sts : list (status obj)) : list obj := concat (transit <$> sts).
Lemma busy_transits sts : busy sts = length (transits sts).
Proof. induction sts as [|[|[]|[]] sts IH]; simpl; auto. Qed.
Lemma transits_insert sts t x x' : sts !! t = Some x ->
  transits (<[t:=x']> sts) ++ transit x ≡ₚ transits sts ++ transit x'.
Proof.
  revert t; induction sts as [|a sts IH]; intros [|t]; simpl; try done.
  - intros [= ->]. unfold transits; simpl. solve_Permutation.
  - intros H. unfold transits in *; simpl. specialize (IH _ H).
    rewrite <- !(assoc_L (++)). f_equiv. exact IH.
Qed.
Lemma held_after_snoc h e : held_after (h ++ [e]) = upd_held (held_after h) e.
Proof. unfold held_after. by rewrite fold_left_app. Qed.

Lemma disciplined_inv h e : disciplined (h ++ [e]) ->
  disciplined h /\ (match e with ECall _ (OPush x) => x ∈ held_after h | _ => True end).
Proof.
  remember (h ++ [e]) as g eqn:E. intros H. destruct H as [|h' e' H1 H2]; [destruct h; done|].
  apply app_inj_tail in E as [-> ->]. done.
Qed.

Definition no_full (h : list (event obj)) : Prop := forall t o, ELin t o RPushFull ∉ h.

Lemma pool_srun d n h y : NoDup d -> srun (length d) (d, replicate n SIdle) h y -> disciplined h ->
  y.1 ++ held_after h ++ transits y.2 ≡ₚ d /\ (forall t o, ELin t o RPushFull ∉ h) /\ (forall t, ERet t RPushFull ∉ h)
  /\ (forall t, y.2 !! t <> Some (SDone RPushFull)).
Proof.
  intros Hnd H. remember (d, replicate n SIdle) as x eqn:Ex.
  induction H as [x|x h y e z H IH Hs]; intros Hdis.
  { subst x. simpl. split_and!; try set_solver.
    - assert (transits (replicate n SIdle) = []) as ->; [|by rewrite app_nil_r].
      unfold transits. induction n; simpl; auto.
    - intros t Ht. apply lookup_replicate in Ht. naive_solver. }
  apply disciplined_inv in Hdis as [Hdis He]. specialize (IH Ex Hdis). destruct IH as (IHp & IHf & IHr & IHs).
  rewrite held_after_snoc.
  assert (Hst : forall (sts : list (status obj)) t x, (forall t', sts !! t' <> Some (SDone RPushFull)) -> x <> SDone RPushFull ->
     forall t', <[t:=x]> sts !! t' <> Some (SDone RPushFull)).
  { intros sts t x0 Hsts Hx0 t'. destruct (decide (t = t')) as [->|Hne].
    - destruct (decide (t' < length sts)%nat); [rewrite list_lookup_insert by done; congruence|].
      rewrite list_insert_ge by lia. apply Hsts.
    - rewrite list_lookup_insert_ne by done. apply Hsts. }
  assert (Hpm : forall sts t x x' (l1 l2 : list obj), sts !! t = Some x ->
     l1 ++ transit x' ≡ₚ l2 ++ transit x -> l1 ++ transits (<[t:=x']> sts) ≡ₚ l2 ++ transits sts).
  { intros sts t x0 x' l1 l2 Hl Hp. pose proof (transits_insert sts t x0 x' Hl) as Ht.
    apply (Permutation_app_inv_r (transit x0)).
    transitivity (l1 ++ (transits (<[t:=x']> sts) ++ transit x0)); [solve_Permutation|].
    rewrite Ht. transitivity ((l1 ++ transit x') ++ transits sts); [solve_Permutation|].
    rewrite Hp. solve_Permutation. }
  destruct Hs as [st sts t o Ht|st sts t v Ht Hc|st sts t v Ht|sts t Ht|st sts t v Ht Hc|st sts t r Ht]; simpl in *.
  - (* call *) split_and!; [|set_solver|set_solver|by apply Hst].
    rewrite <- IHp. rewrite !(assoc_L (++)). eapply Hpm; [exact Ht|].
    destruct o as [v|]; simpl; [|by rewrite !app_nil_r].
    rewrite (remove1_perm v (held_after h)) at 2 by done. solve_Permutation.
  - split_and!; [|set_solver|set_solver|by apply Hst].
    rewrite <- IHp.
    transitivity ((v :: st ++ held_after h) ++ transits (<[t:=SDone RPushed]> sts)); [solve_Permutation|].
    transitivity ((st ++ held_after h) ++ transits sts); [|solve_Permutation].
    eapply Hpm; [exact Ht|]. simpl. solve_Permutation.
  - split_and!; [|set_solver|set_solver|by apply Hst].
    rewrite <- IHp.
    transitivity ((st ++ held_after h) ++ transits (<[t:=SDone (RPopped v)]> sts)); [solve_Permutation|].
    transitivity ((v :: st ++ held_after h) ++ transits sts); [|solve_Permutation].
    eapply Hpm; [exact Ht|]. simpl. solve_Permutation.
  - split_and!; [|set_solver|set_solver|by apply Hst].
    rewrite <- IHp. eapply Hpm; [exact Ht|]. done.
  - exfalso. rewrite busy_transits in Hc. apply Permutation_length in IHp.
    rewrite !app_length in IHp. lia.
  - assert (Hr : r <> RPushFull) by (intros ->; by apply (IHs t)).
    split_and!; [|set_solver|set_solver|by apply Hst].
    rewrite <- IHp.
    transitivity ((st ++ match r with RPopped x => [x] | _ => [] end ++ held_after h) ++ transits (<[t:=SIdle]> sts)).
    { destruct r; simpl; solve_Permutation. }
    transitivity ((st ++ held_after h) ++ transits sts); [|solve_Permutation].
    eapply Hpm; [exact Ht|]. destruct r; simpl; solve_Permutation.
Qed.

Lemma pool_concurrent_lemma (d : list obj) n acts : NoDup d -> d <> [] -> (Z.of_nat (length d) <= 65535)%Z ->
  no_wrap (init d n) acts ->
  let h := rev (hist (run (init d n) acts)) in
  disciplined h ->
  NoDup (held_after h) /\ (forall x, x ∈ held_after h -> x ∈ d) /\ (forall t, ERet t RPushFull ∉ h).
Proof.
  intros Hnd Hne Hl Hw h Hd.
  destruct (lfs_linearizable_lemma d n acts Hne Hl Hw) as (st & sts & H & _).
  destruct (pool_srun d n h (st, sts) Hnd H Hd) as (Hp & _ & Hr & _). simpl in Hp.
  split_and!; [| |done].
  - assert (Hn : NoDup (st ++ held_after h ++ transits sts)) by (by rewrite Hp).
    apply NoDup_app in Hn as (_ & _ & Hn). apply NoDup_app in Hn. tauto.
  - intros x Hx. rewrite <- Hp. set_solver.
Qed.
