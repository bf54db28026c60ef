From stdpp Require Import prelude gmap list_numbers.
From Verif Require Import LockFreeStack_Model LockFreeStack_Spec LockFreeStack_Proofs SmartObjectPool_Model SmartObjectPool_Spec SmartObjectPool_Proofs.

Section P.
Context {T : Type}.
Implicit Types (b : pubst T) (F : fns T).

Record BInv (n : nat) b : Prop := {
  bi_pool : match b_pool b with
            | Some p => PInv n p /\ p_alive p = true /\ n <> 0
            | None => n = 0 end;
  bi_nd : NoDup (b_loose b);
  bi_loose : forall x, x ∈ b_loose b -> (n <= x < b_fresh b)%nat;
  bi_fresh : (n <= b_fresh b)%nat;
  bi_heap : forall x, (x < n)%nat \/ x ∈ b_loose b -> is_Some (b_heap b !! x);
  bi_allocs : b_allocs b = (Z.of_nat n + Z.of_nat (length (not_from_pool n (b_out b))))%Z
}.

Lemma fill_lookup (v : T) l x : x ∈ l -> fill v l !! x = Some v.
Proof.
  unfold fill. induction l as [|a l IH]; [set_solver|]. intros Hx. simpl.
  destruct (decide (a = x)) as [->|Hne]; [by rewrite lookup_insert|].
  rewrite lookup_insert_ne by done. apply IH. set_solver.
Qed.

Lemma pub_new_inv F n : BInv n (pub_new F n).
Proof.
  unfold pub_new. constructor; cbn -[Nat.eqb Z.of_nat]; auto; try lia.
  - destruct (n =? 0)%nat eqn:E; [by apply Nat.eqb_eq|]. apply Nat.eqb_neq in E.
    split_and!; [apply pool_new_inv|done|done].
  - constructor.
  - set_solver.
  - intros x [Hx|Hx]; [|set_solver]. rewrite fill_lookup; [eauto|]. apply elem_of_seq. lia.
Qed.

(** What one publication does. *)
Definition served n b (c : T -> Prop) b' : Prop :=
  exists x w, b_out b' = (x, w) :: b_out b /\ c w /\ b_heap b' !! x = Some w /\
    x ∉ outstanding b /\ outstanding b' ≡ₚ x :: outstanding b /\
    (forall y, y ∈ outstanding b -> b_heap b' !! y = b_heap b !! y) /\
    ((x < n)%nat <-> (length (filter (fun y => y < n) (outstanding b)) < n)%nat).

Lemma acquire_cases n p : PInv n p -> p_alive p = true ->
  (exists x p', acquire p = (p', OGot x) /\ p_held p' = x :: p_held p /\ (x < n)%nat /\ x ∉ p_held p /\ (length (p_held p) < n)%nat /\ p_alive p' = true)
  \/ (exists p', acquire p = (p', OOutOfRange) /\ p_held p' = p_held p /\ length (p_held p) = n /\ p_alive p' = true).
Proof.
  intros [H1 H2 H3 H4 H5] Ha. unfold acquire. rewrite Ha. simpl. destruct H3 as [H3 _]; [done|].
  rewrite H3, app_nil_r in H2. pose proof (Permutation_length H2) as Hl. rewrite app_length, seq_length in Hl.
  assert (Hnd : NoDup (p_held p ++ p_stack p)) by (rewrite H2; apply NoDup_seq).
  destruct (p_stack p) as [|x st] eqn:Es.
  - right. eexists. split_and!; [reflexivity|done|simpl in Hl; lia|done].
  - left. eexists x, _. split_and!; [reflexivity|done| | |simpl in Hl; lia|done].
    + assert (Hx : x ∈ seq 0 n) by (rewrite <- H2; set_solver). apply elem_of_seq in Hx. lia.
    + intros Hx. apply NoDup_app in Hnd as (_ & Hnd & _). apply (Hnd _ Hx). set_solver.
Qed.

Lemma filter_pool n b : BInv n b ->
  filter (fun y => y < n) (outstanding b) = match b_pool b with Some p => p_held p | None => [] end.
Proof.
  intros [Hp _ Hl _ _ _]. unfold outstanding. rewrite filter_app.
  assert (filter (fun y => y < n) (b_loose b) = []) as ->.
  { clear -Hl. revert Hl. generalize (b_fresh b). intros k. induction (b_loose b) as [|a l IH]; intros Hl; [done|].
    rewrite filter_cons_False by (specialize (Hl a ltac:(set_solver)); lia). apply IH. set_solver. }
  simpl. destruct (b_pool b) as [p|]; [|done].
  destruct Hp as [[H1 H2 H3 H4 H5] _].
  assert (forall x, x ∈ p_held p -> (x < n)%nat).
  { intros x Hx. assert (Hs : x ∈ seq 0 n) by (rewrite <- H2; set_solver). apply elem_of_seq in Hs. lia. }
  clear -H. induction (p_held p) as [|a l IH]; [done|].
  rewrite filter_cons_True by (apply H; set_solver). f_equal. apply IH. set_solver.
Qed.

Lemma held_small n b p : BInv n b -> b_pool b = Some p -> forall x, x ∈ p_held p -> (x < n)%nat.
Proof.
  intros [Hp _ _ _ _ _] E x Hx. rewrite E in Hp. destruct Hp as [[H1 H2 _ _ _] _].
  assert (Hs : x ∈ seq 0 n) by (rewrite <- H2; set_solver). apply elem_of_seq in Hs. lia.
Qed.

(** Generic publication: pooled object with content [fo old], or fresh with [w]. *)
Lemma pooled_served n b p p' x old (w : T) : BInv n b -> b_pool b = Some p -> acquire p = (p', OGot x) ->
  b_heap b !! x = Some old ->
  let b' := emit x w (b_heap b) (with_pool p' b) in
  BInv n b' /\ served n b (fun u => u = w) b'.
Proof.
  intros I Ep Ea Eh b'. pose proof I as [Hp Hnd Hl Hf Hh Hal]. pose proof (filter_pool n b I) as Hfil. rewrite Ep in Hp, Hfil.
  destruct Hp as (HP & Halive & Hn0).
  destruct (acquire_cases n p HP Halive) as [(x' & p'' & E & E1 & E2 & E3 & E4 & E5)|(p'' & E & _)];
    rewrite Ea in E; [|done]. injection E as <- <-.
  split.
  - constructor; simpl; auto.
    + split_and!; auto. by eapply acquire_inv.
    + intros y Hy. destruct (decide (x = y)) as [->|Hne]; [rewrite lookup_insert; eauto|].
      rewrite lookup_insert_ne by done. auto.
    + unfold not_from_pool in *. rewrite filter_cons_False by (simpl; lia). done.
  - exists x, w. unfold b', outstanding; simpl. rewrite Ep. split_and!; auto.
    + by rewrite lookup_insert.
    + rewrite elem_of_app. intros [Hx|Hx]; [|done]. apply Hl in Hx. lia.
    + rewrite E1. solve_Permutation.
    + intros y Hy. apply lookup_insert_ne. intros ->. apply elem_of_app in Hy as [Hy|Hy]; [|done].
      apply Hl in Hy. lia.
    + unfold outstanding in Hfil; rewrite Ep in Hfil. rewrite Hfil. tauto.
Qed.

Lemma fresh_served n b b1 (w : T) : BInv n b ->
  (match b_pool b with
   | Some p => exists p', acquire p = (p', OOutOfRange) /\ b1 = with_pool p' b
   | None => b1 = b end) ->
  let b' := emit (b_fresh b) w (b_heap (with_fresh b1)) (with_fresh b1) in
  BInv n b' /\ served n b (fun u => u = w) b'.
Proof.
  intros I Hb1 b'. pose proof I as [Hp Hnd Hl Hf Hh Hal]. pose proof (filter_pool n b I) as Hfil.
  assert (Hpool : exists q, b_pool b1 = q /\ (match q with Some p => PInv n p /\ p_alive p = true /\ n <> 0 | None => n = 0 end)
     /\ match q with Some p => p_held p | None => [] end = match b_pool b with Some p => p_held p | None => [] end
     /\ length (match b_pool b with Some p => p_held p | None => [] end) = n
     /\ b_loose b1 = b_loose b /\ b_fresh b1 = b_fresh b /\ b_heap b1 = b_heap b /\ b_allocs b1 = b_allocs b /\ b_out b1 = b_out b).
  { destruct (b_pool b) as [p|] eqn:Ep.
    - destruct Hb1 as (p' & Ea & ->). destruct Hp as (HP & Halive & Hn0).
      destruct (acquire_cases n p HP Halive) as [(x' & p'' & E & _)|(p'' & E & E1 & E2 & E3)];
        rewrite Ea in E; [done|]. injection E as <-.
      exists (Some p'). simpl. split_and!; auto. by eapply acquire_inv.
    - subst b1. exists None. by rewrite Ep. }
  destruct Hpool as (q & Eq & Hq & Hheld & Hlen & E1 & E2 & E3 & E4 & E5).
  assert (Hnew : b_fresh b ∉ outstanding b).
  { unfold outstanding. rewrite elem_of_app. intros [Hx|Hx]; [apply Hl in Hx; lia|].
    destruct (b_pool b) as [p|] eqn:Ep; [|set_solver].
    pose proof (held_small n b p I Ep _ Hx). lia. }
  split.
  - constructor; simpl; rewrite ?E1, ?E2, ?E3, ?E4, ?E5; auto.
    + rewrite Eq. exact Hq.
    + constructor; [|done]. intros Hx. apply Hl in Hx. lia.
    + intros x Hx. apply elem_of_cons in Hx as [->|Hx]; [lia|]. apply Hl in Hx. lia.
    + intros x Hx. destruct (decide (b_fresh b = x)) as [->|Hne]; [rewrite lookup_insert; eauto|].
      rewrite lookup_insert_ne by done. apply Hh. set_solver.
    + unfold not_from_pool in *. rewrite filter_cons_True by (simpl; lia). cbn [length]. lia.
  - exists (b_fresh b), w. unfold b', outstanding; simpl. rewrite Eq, Hheld, E1, E2, E3, E5.
    split_and!; auto.
    + by rewrite lookup_insert.
    + intros y Hy. apply lookup_insert_ne. intros <-. by apply Hnew.
    + rewrite <- Hlen in Hf |- *. unfold outstanding in Hfil. rewrite Hlen, Hfil, Hlen in *. lia.
Qed.

Lemma publish_lemma F n b v : BInv n b ->
  exists b', publish F v b = Some b' /\ BInv n b' /\
    served n b (fun w => w = v \/ exists old, w = f_clone F v old) b'.
Proof.
  intros I. unfold publish. pose proof (bi_pool n b I) as Hp. destruct (b_pool b) as [p|] eqn:Ep.
  - destruct Hp as (HP & Ha & Hn0).
    destruct (acquire_cases n p HP Ha) as [(x & p' & E & E1 & E2 & E3 & E4 & E5)|(p' & E & E1 & E2 & E3)]; rewrite E.
    + destruct (bi_heap n b I x ltac:(auto)) as [old Eo]. rewrite Eo.
      eexists. split; [reflexivity|].
      destruct (pooled_served n b p p' x old (f_clone F v old) I Ep E Eo) as [H1 (y & w & H2 & -> & H3)].
      split; [done|]. exists y, (f_clone F v old). split_and!; try apply H3; eauto.
    + eexists. split; [reflexivity|].
      destruct (fresh_served n b (with_pool p' b) (f_clone F v (f_init F (f_new F))) I) as [H1 (y & w & H2 & -> & H3)].
      { rewrite Ep. eauto. }
      split; [done|]. exists y. eexists. split_and!; try apply H3; eauto.
  - destruct (f_default_clone F).
    + eexists. split; [reflexivity|].
      destruct (fresh_served n b b v I) as [H1 (y & w & H2 & -> & H3)]; [by rewrite Ep|].
      split; [done|]. exists y. eexists. split_and!; try apply H3; eauto.
    + eexists. split; [reflexivity|].
      destruct (fresh_served n b b (f_clone F v (f_init F (f_new F))) I) as [H1 (y & w & H2 & -> & H3)]; [by rewrite Ep|].
      split; [done|]. exists y. eexists. split_and!; try apply H3; eauto.
Qed.

Lemma process_lemma F n b f : BInv n b ->
  exists b', process_and_publish F f b = Some b' /\ BInv n b' /\
    served n b (fun w => exists old, w = f (f_init F old)) b'.
Proof.
  intros I. unfold process_and_publish. pose proof (bi_pool n b I) as Hp. destruct (b_pool b) as [p|] eqn:Ep.
  - destruct Hp as (HP & Ha & Hn0).
    destruct (acquire_cases n p HP Ha) as [(x & p' & E & E1 & E2 & E3 & E4 & E5)|(p' & E & E1 & E2 & E3)]; rewrite E.
    + destruct (bi_heap n b I x ltac:(auto)) as [old Eo]. rewrite Eo.
      eexists. split; [reflexivity|].
      destruct (pooled_served n b p p' x old (f (f_init F old)) I Ep E Eo) as [H1 (y & w & H2 & -> & H3)].
      split; [done|]. exists y. eexists. split_and!; try apply H3; eauto.
    + eexists. split; [reflexivity|].
      destruct (fresh_served n b (with_pool p' b) (f (f_init F (f_new F))) I) as [H1 (y & w & H2 & -> & H3)].
      { rewrite Ep. eauto. }
      split; [done|]. exists y. eexists. split_and!; try apply H3; eauto.
  - eexists. split; [reflexivity|].
    destruct (fresh_served n b b (f (f_init F (f_new F))) I) as [H1 (y & w & H2 & -> & H3)]; [by rewrite Ep|].
    split; [done|]. exists y. eexists. split_and!; try apply H3; eauto.
Qed.

Lemma remove1_sub x y l : y ∈ remove1 x l -> y ∈ l.
Proof. induction l as [|a l IH]; simpl; [done|]. destruct (decide (x = a)); set_solver. Qed.
Lemma remove1_nodup x l : NoDup l -> NoDup (remove1 x l) /\ x ∉ remove1 x l.
Proof.
  induction 1 as [|a l Ha Hl [IH1 IH2]]; simpl; [split; [constructor|set_solver]|].
  destruct (decide (x = a)) as [->|]; [done|]. split; [|set_solver].
  constructor; [|done]. intros Hc. by apply remove1_sub in Hc.
Qed.

Lemma drop_lemma n b x : BInv n b ->
  (x ∈ outstanding b -> exists b', drop x b = Some b') /\
  (forall b', drop x b = Some b' -> BInv n b' /\ b_out b' = b_out b /\ x ∈ outstanding b /\ outstanding b ≡ₚ x :: outstanding b' /\
     (forall y, y ∈ outstanding b' -> b_heap b' !! y = b_heap b !! y)).
Proof.
  intros I. pose proof I as [Hp Hnd Hl Hf Hh Hal]. unfold drop.
  destruct (bool_decide (x ∈ b_loose b)) eqn:Ex.
  - apply bool_decide_eq_true in Ex. split; [eauto|]. intros b' [= <-].
    destruct (remove1_nodup x _ Hnd) as [Hn1 Hn2].
    split_and!.
    + constructor; simpl; auto.
      * intros y Hy. apply remove1_sub in Hy. auto.
      * intros y Hy. rewrite lookup_delete_ne; [apply Hh; destruct Hy; [auto|right; by eapply remove1_sub]|].
        intros <-. destruct Hy as [Hy|Hy]; [apply Hl in Ex; lia|done].
    + done.
    + unfold outstanding. set_solver.
    + unfold outstanding; simpl. rewrite (remove1_perm x (b_loose b)) at 1 by done. done.
    + unfold outstanding; simpl. intros y Hy. apply lookup_delete_ne. intros <-.
      apply elem_of_app in Hy as [Hy|Hy]; [done|].
      destruct (b_pool b) as [p|] eqn:Ep; [|set_solver].
      pose proof (held_small n b p I Ep _ Hy). apply Hl in Ex. lia.
  - apply bool_decide_eq_false in Ex. unfold outstanding. destruct (b_pool b) as [p|] eqn:Ep.
    2: { split; [set_solver|done]. }
    destruct Hp as (HP & Ha & Hn0).
    assert (Hrel : x ∈ p_held p -> exists st, release x p =
       (Pool true (p_cap p) st (p_fails p) (remove1 x (p_held p)) (p_inited p) (p_finalized p) (p_deleted p), ODone)).
    { intros Hx. unfold release. rewrite bool_decide_eq_true_2 by done. rewrite Ha. simpl.
      destruct HP as [H1 H2 H3 _ _]. destruct H3 as [H3 _]; [done|]. rewrite H3, app_nil_r in H2.
      apply Permutation_length in H2. rewrite app_length, seq_length in H2.
      assert (0 < length (p_held p))%nat by (destruct (p_held p); [set_solver|simpl; lia]).
      rewrite (proj2 (Nat.ltb_lt _ _)) by lia. eauto. }
    split.
    + intros Hx. apply elem_of_app in Hx as [Hx|Hx]; [done|]. destruct (Hrel Hx) as [st ->]. eauto.
    + intros b'. destruct (decide (x ∈ p_held p)) as [Hx|Hx].
      2: { unfold release. rewrite bool_decide_eq_false_2 by done. done. }
      destruct (Hrel Hx) as [st Er]. rewrite Er. intros [= <-]. split_and!.
      * constructor; simpl; auto. split_and!; auto. by eapply release_inv.
      * done.
      * set_solver.
      * simpl. rewrite (remove1_perm x (p_held p)) at 1 by done. solve_Permutation.
      * done.
Qed.

Lemma pub_step_inv F n b c b' : BInv n b -> pub_step F b c = Some b' -> BInv n b' /\
  length (b_out b') = (length (b_out b) + (if is_publication c then 1 else 0))%nat.
Proof.
  intros I. destruct c as [v|f|x]; simpl.
  - destruct (publish_lemma F n b v I) as (b1 & -> & I1 & (x & w & Ho & _)). intros [= <-].
    rewrite Ho. simpl. split; [done|lia].
  - destruct (process_lemma F n b f I) as (b1 & -> & I1 & (x & w & Ho & _)). intros [= <-].
    rewrite Ho. simpl. split; [done|lia].
  - intros E. destruct (drop_lemma n b x I) as [_ H]. destruct (H _ E) as (I1 & -> & _). split; [done|lia].
Qed.

Lemma pub_run_inv F n cs : forall b b', BInv n b -> pub_run F b cs = Some b' ->
  BInv n b' /\ length (b_out b') = (length (b_out b) + length (filter (fun c => is_publication c = true) cs))%nat.
Proof.
  induction cs as [|c cs IH]; intros b b' I E; simpl in E; [injection E as <-; split; [done|simpl; lia]|].
  destruct (pub_step F b c) as [b1|] eqn:E1; [|done].
  destruct (pub_step_inv F n b c b1 I E1) as [I1 Hl]. destruct (IH _ _ I1 E) as [I2 Hl2].
  split; [done|]. rewrite Hl2, Hl, filter_cons. destruct (is_publication c) eqn:Ec.
  - rewrite decide_True by done. cbn [length]. lia.
  - rewrite decide_False by done. lia.
Qed.
End P.
