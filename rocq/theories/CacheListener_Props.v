(** * Property C15. *)
From stdpp Require Import prelude.
From Verif Require Import CacheListener_Model.
Local Open Scope Z_scope.
Local Coercion Z.of_nat : nat >-> Z.

(** Specification: the events received before a point of the log. *)
Definition received (l : list cev) : list nat :=
  omap (fun e => match e with Received x => Some x | _ => None end) l.

Definition half_ok (s : cst) (pc : cpc) : Prop :=
  match pc with
  | Half (Recv e) _ => c_last s = Some e /\ c_counter s = wrap32 (length (received (c_log s)))
  | Half GetCounterAndEvent n => n = c_counter s /\ c_last s = last (received (c_log s)) /\ c_counter s = wrap32 (length (received (c_log s)))
  | Half GetLast _ => False
  | _ => c_last s = last (received (c_log s)) /\ c_counter s = wrap32 (length (received (c_log s)))
  end.
Definition log_ok (l : list cev) : Prop := forall l1 l2,
  (forall n e, l = l1 ++ ReadBoth n e :: l2 -> n = wrap32 (length (received l1)) /\ e = last (received l1)) /\
  (forall e, l = l1 ++ ReadLast e :: l2 -> e = last (received l1)).
Definition CInv (s : cst) : Prop := log_ok (c_log s) /\
  match c_lock s with
  | None => half_ok s Out /\ (forall t pc ops, c_thr s !! t = Some (pc, ops) -> pc = Out)
  | Some a => exists pc ops, c_thr s !! a = Some (pc, ops) /\ pc <> Out /\ half_ok s pc /\
                (forall t pc ops, t <> a -> c_thr s !! t = Some (pc, ops) -> pc = Out)
  end.
Lemma received_app l1 l2 : received (l1 ++ l2) = received l1 ++ received l2.
Proof. apply omap_app. Qed.
Lemma wrap32_S z : wrap32 (wrap32 z + 1) = wrap32 (z + 1).
Proof.
  unfold wrap32. f_equal.
  replace ((z + 2147483648) `mod` 4294967296 - 2147483648 + 1 + 2147483648) with ((z + 2147483648) `mod` 4294967296 + 1) by lia.
  rewrite Zplus_mod_idemp_l. f_equal. lia.
Qed.
Lemma snoc_split {A} (l : list A) x l1 y l2 : l ++ [x] = l1 ++ y :: l2 ->
  (l2 = [] /\ x = y /\ l = l1) \/ exists l2', l2 = l2' ++ [x] /\ l = l1 ++ y :: l2'.
Proof.
  destruct l2 as [|z l2' _] using rev_ind; intros H.
  - apply app_inj_tail in H as [-> ->]. by left.
  - right. exists l2'. rewrite app_comm_cons, app_assoc in H. apply app_inj_tail in H as [-> ->]. done.
Qed.
Lemma log_ok_snoc l e : log_ok l ->
  match e with
  | ReadBoth n x => n = wrap32 (length (received l)) /\ x = last (received l)
  | ReadLast x => x = last (received l)
  | Received _ => True
  end -> log_ok (l ++ [e]).
Proof.
  intros Hl He l1 l2. split.
  - intros n x Hs. apply snoc_split in Hs as [(-> & -> & ->)|(l2' & -> & ->)]; [done|]. by apply (Hl l1 l2').
  - intros x Hs. apply snoc_split in Hs as [(-> & -> & ->)|(l2' & -> & ->)]; [done|]. by apply (Hl l1 l2').
Qed.
Lemma cinv_step s t : CInv s -> CInv (cstep s t).
Proof.
  intros [Hlog Hst]. unfold cstep. destruct (c_thr s !! t) as [[pc ops]|] eqn:Et; [|by split].
  assert (Hlt : (t < length (c_thr s))%nat) by (by eapply lookup_lt_Some).
  destruct (c_lock s) as [a|] eqn:Elk.
  - destruct Hst as (pca & opa & Ha & Hne & Hh & Ho). destruct (decide (t = a)) as [->|Hta].
    + rewrite Et in Ha. injection Ha as <- <-.
      assert (Hoth : forall x t0 pc0 ops0, t0 <> a -> <[a:=x]> (c_thr s) !! t0 = Some (pc0, ops0) -> pc0 = Out).
      { intros x t0 pc0 ops0 Hn Hl. rewrite list_lookup_insert_ne in Hl by done. eauto. }
      destruct pc as [|[e| |]|[e| |] n|]; [done| | | | |done| | ].
      * split; [done|]. cbn [c_lock c_thr]. exists (Half (Recv e) 0), ops. split; [by rewrite list_lookup_insert|].
        split; [done|]. split; [|apply Hoth]. simpl in *. tauto.
      * split; [apply log_ok_snoc; simpl in *; tauto|]. cbn [c_lock c_thr]. exists Leaving, ops. split; [by rewrite list_lookup_insert|].
        split; [done|]. split; [|apply Hoth]. simpl in *. rewrite received_app. simpl. rewrite app_nil_r. tauto.
      * split; [done|]. cbn [c_lock c_thr]. exists (Half GetCounterAndEvent (c_counter s)), ops. split; [by rewrite list_lookup_insert|].
        split; [done|]. split; [|apply Hoth]. simpl in *. tauto.
      * split; [apply log_ok_snoc; simpl in *; tauto|]. cbn [c_lock c_thr]. exists Leaving, ops. split; [by rewrite list_lookup_insert|].
        split; [done|]. split; [|apply Hoth]. simpl in *. destruct Hh as [-> ->]. rewrite received_app. simpl.
        rewrite last_snoc, app_length. split; [done|]. rewrite wrap32_S. f_equal. simpl. lia.
      * split; [apply log_ok_snoc; simpl in *; destruct Hh as (-> & ? & ?); tauto|]. cbn [c_lock c_thr]. exists Leaving, ops. split; [by rewrite list_lookup_insert|].
        split; [done|]. split; [|apply Hoth]. simpl in *. rewrite received_app. simpl. rewrite app_nil_r. tauto.
      * split; [done|]. cbn [c_lock c_thr]. split; [simpl in *; tauto|].
        intros t0 pc0 ops0 Hl. destruct (decide (t0 = a)) as [->|].
        -- rewrite list_lookup_insert in Hl by done. congruence.
        -- rewrite list_lookup_insert_ne in Hl by done. eauto.
    + rewrite (Ho t pc ops Hta Et). assert (HI : CInv s); [split; [done|]; rewrite Elk; eauto 10|].
      destruct ops; [exact HI|]. exact HI.
  - destruct Hst as [Hh Ho]. assert (HI : CInv s); [split; [done|]; rewrite Elk; eauto|].
    pose proof (Ho _ _ _ Et) as ->. destruct ops as [|o ops]; [exact HI|].
    split; [done|]. cbn [c_lock c_thr]. exists (In o), ops. split; [by rewrite list_lookup_insert|]. split; [done|].
    split; [simpl in *; tauto|]. intros t0 pc0 ops0 Hn Hl. rewrite list_lookup_insert_ne in Hl by done. eauto.
Qed.
Lemma cinv_run s sched : CInv s -> CInv (crun s sched).
Proof. revert s; induction sched as [|t l IH]; intros s H; [done|]. cbn [crun fold_left]. apply IH, cinv_step, H. Qed.
Lemma cinv_new progs : CInv (cst_new progs).
Proof.
  split.
  - intros l1 l2. split; intros; by destruct l1.
  - simpl. split; [done|]. intros t pc ops Hl. rewrite list_lookup_fmap in Hl. destruct (progs !! t); [|done]. simpl in Hl. congruence.
Qed.

(** C15: whatever the schedule, a pair (n, e) returned by getCounterAndEvent has e the
    n-th event received so far (the last one; null if none), as long as the 32-bit counter does not wrap;
    getLastReceivedEvent returns the last event. [l1] is what happened before the read. *)
Theorem C15_counter_and_event : forall progs sched l1 n e l2,
  c_log (crun (cst_new progs) sched) = l1 ++ ReadBoth n e :: l2 ->
  Z.of_nat (length (received l1)) < 2147483648 ->
  n = Z.of_nat (length (received l1)) /\
  (n = 0 -> e = None) /\ (0 < n -> e = received l1 !! Z.to_nat (n - 1) /\ e <> None).
Proof.
  intros progs sched l1 n e l2 Hl Hb. destruct (cinv_run _ sched (cinv_new progs)) as [Hok _].
  destruct (Hok l1 l2) as [H _]. destruct (H _ _ Hl) as [-> ->].
  assert (Hw : wrap32 (length (received l1)) = length (received l1)).
  { unfold wrap32. rewrite Z.mod_small by lia. lia. }
  rewrite Hw. split; [done|]. split.
  - intros Hz. destruct (received l1); [done|]. simpl in Hz. lia.
  - intros Hz. replace (Z.to_nat (length (received l1) - 1)) with (pred (length (received l1))) by lia.
    rewrite <- last_lookup. split; [done|]. intros Hn. apply last_None in Hn. rewrite Hn in Hz. simpl in Hz. lia.
Qed.
Print Assumptions C15_counter_and_event.
(** Beyond that, the counter is the number of events modulo 2^32 and the event is still the last one. *)
Theorem C15_any_number : forall progs sched l1 l2,
  (forall n e, c_log (crun (cst_new progs) sched) = l1 ++ ReadBoth n e :: l2 ->
     (n - Z.of_nat (length (received l1))) `mod` 4294967296 = 0 /\ -2147483648 <= n < 2147483648 /\ e = last (received l1)) /\
  (forall e, c_log (crun (cst_new progs) sched) = l1 ++ ReadLast e :: l2 -> e = last (received l1)).
Proof.
  intros progs sched l1 l2. destruct (cinv_run _ sched (cinv_new progs)) as [Hok _].
  destruct (Hok l1 l2) as [H H']. split; [|done]. intros n e Hl. destruct (H _ _ Hl) as [-> ->].
  unfold wrap32. pose proof (Z.mod_pos_bound (length (received l1) + 2147483648) 4294967296). split; [|split; [lia|done]].
  pose proof (Z.div_mod (length (received l1) + 2147483648) 4294967296 ltac:(lia)).
  set (q := (length (received l1) + 2147483648) / 4294967296) in *. set (r := (length (received l1) + 2147483648) `mod` 4294967296) in *.
  replace (r - 2147483648 - length (received l1)) with ((- q) * 4294967296) by lia. by apply Z_mod_mult.
Qed.
Print Assumptions C15_any_number.
(** The property without the bound fails when the counter wraps: stated on the counter function itself. *)
Example C15_wrap : wrap32 2147483648 = -2147483648.
Proof. reflexivity. Qed.
Example C15_case : c_log (crun (cst_new [[Recv 7; Recv 8]; [GetCounterAndEvent; GetLast]; [Recv 9]])
    [0;0;1;0;0;2;2;1;2;1;2;1;1;1;1;1;0;1;0;1;0;0;1;1;1;0;0;0;0]%nat) =
  [Received 7; Received 9; ReadBoth 2 (Some 9%nat); ReadLast (Some 9%nat); Received 8].
Proof. vm_compute. reflexivity. Qed.
