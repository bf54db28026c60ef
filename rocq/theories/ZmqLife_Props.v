(** * C75: destroying a receiving ZeroMQ channel. *)
From stdpp Require Import prelude.
From Verif Require Import ZmqLife_Model.
(** Stopped first, a channel can be destroyed: whatever was called before and under every schedule no destroyed object is used. *)
Record LInv (calls : list lcall) (s : lst) : Prop := {
  li_started : l_started s = false -> l_thr s = TNone;
  li_chan : l_chan s = false -> l_thr s = TNone;
  li_dead : l_dead_use s = 0;
  li_todo : (exists pre cs, calls = pre ++ cs ++ [LStop; LDestroy] /\ LDestroy ∉ cs /\ l_calls s = cs ++ [LStop; LDestroy] /\ l_chan s = true /\ (l_pc s = LIdle \/ l_pc s = LWait \/ l_pc s = LJoin)) \/
            (l_calls s = [LDestroy] /\ l_chan s = true /\ (l_pc s = LJoin \/ l_pc s = LIdle /\ l_started s = false)) \/
            (l_calls s = [] /\ l_chan s = false /\ l_thr s = TNone /\ (l_pc s = LD1 \/ l_pc s = LD2 \/ l_pc s = LGone));
  li_join : l_pc s = LJoin \/ l_pc s = LWait -> l_started s = true
}.
Lemma li_step calls s a : LInv calls s -> LInv calls (l_step s a).
Proof.
  intros [I1 I2 I3 I4 I5]. destruct s as [todo pc thr running started chan fw dead]. cbn [l_calls l_pc l_thr l_running l_started l_chan l_dead_use] in *. destruct a; cbn [l_step].
  - destruct I4 as [(pre & cs & Hc & Hn & -> & -> & Hpc)|[(-> & -> & Hpc)|(-> & -> & -> & Hpc)]].
    + destruct pc; try (by destruct Hpc as [|[]]).
      * destruct cs as [|c cs]; cbn [app].
        -- destruct started; constructor; cbn [l_calls l_pc l_thr l_running l_started l_chan l_dead_use]; auto; try done; try (right; left; auto); try (intros [|]; done).
        -- assert (Hn' : LDestroy ∉ cs) by (intros H; apply Hn; by right). assert (Hex : calls = (pre ++ [c]) ++ cs ++ [LStop; LDestroy]) by (by rewrite Hc, <-app_assoc).
           destruct c; [| |exfalso; apply Hn; left]; destruct started; constructor; cbn [l_calls l_pc l_thr l_running l_started l_chan l_dead_use]; auto; try done; try (left; exists (pre ++ [LStart]), cs; auto 10; fail); try (left; exists (pre ++ [LStop]), cs; auto 10; fail); try (intros [|]; done).
      * destruct running; constructor; cbn [l_calls l_pc l_thr l_running l_started l_chan l_dead_use]; auto; try done; try (left; exists pre, cs; auto 10; fail); try (intros [|]; done).
      * destruct thr; constructor; cbn [l_calls l_pc l_thr l_running l_started l_chan l_dead_use]; auto; try done; try (left; exists pre, cs; auto 10; fail); try (intros [|]; done).
    + destruct pc; try (by destruct Hpc as [|[]]).
      * destruct Hpc as [|[_ ->]]; [done|]. rewrite I1 by done. constructor; cbn [l_calls l_pc l_thr l_running l_started l_chan l_dead_use]; auto; try done; [right; right; auto 10|intros [|]; done].
      * destruct thr; constructor; cbn [l_calls l_pc l_thr l_running l_started l_chan l_dead_use]; auto; try done; try (right; left; auto 10; fail); try (intros [|]; done).
    + destruct pc; try (by destruct Hpc as [|[]]); constructor; cbn [l_calls l_pc l_thr l_running l_started l_chan l_dead_use]; auto; try done; try (right; right; auto 10; fail); try (intros [|]; done).
  - destruct pc; try (by constructor). destruct I4 as [(pre & cs & Hc & Hn & -> & -> & Hpc)|[(-> & -> & Hpc)|(-> & -> & -> & Hpc)]]; [|by destruct Hpc as [|[]]|by destruct Hpc as [|[]]].
    constructor; cbn [l_calls l_pc l_thr l_running l_started l_chan l_dead_use]; auto; try done; try (left; exists pre, cs; auto 10; fail); try (intros [|]; done).
  - destruct thr; try (by constructor).
    + assert (Hch : chan = true) by (destruct chan; [done|]; by specialize (I2 eq_refl)). subst chan. constructor; cbn [l_calls l_pc l_thr l_running l_started l_chan l_dead_use]; auto; try done.
      * intros ->. by specialize (I1 eq_refl).
      * destruct I4 as [H|[H|(_ & H & _)]]; [by left|by right; left|done].
    + assert (Hch : chan = true) by (destruct chan; [done|]; by specialize (I2 eq_refl)). subst chan. destruct running; (constructor; cbn [l_calls l_pc l_thr l_running l_started l_chan l_dead_use]; auto; try done;
      try (intros ->; by specialize (I1 eq_refl)); try (destruct I4 as [H|[H|(_ & H & _)]]; [by left|by right; left|done])).
    + assert (Hch : chan = true) by (destruct chan; [done|]; by specialize (I2 eq_refl)). subst chan. (constructor; cbn [l_calls l_pc l_thr l_running l_started l_chan l_dead_use]; auto; try done;
      try (intros ->; by specialize (I1 eq_refl)); try (destruct I4 as [H|[H|(_ & H & _)]]; [by left|by right; left|done])).
  - destruct thr; try (by constructor).
    + assert (Hch : chan = true) by (destruct chan; [done|]; by specialize (I2 eq_refl)). subst chan. constructor; cbn [l_calls l_pc l_thr l_running l_started l_chan l_dead_use]; auto; try done.
      * intros ->. by specialize (I1 eq_refl).
      * destruct I4 as [H|[H|(_ & H & _)]]; [by left|by right; left|done].
    + assert (Hch : chan = true) by (destruct chan; [done|]; by specialize (I2 eq_refl)). subst chan. destruct running; (constructor; cbn [l_calls l_pc l_thr l_running l_started l_chan l_dead_use]; auto; try done;
      try (intros ->; by specialize (I1 eq_refl)); try (destruct I4 as [H|[H|(_ & H & _)]]; [by left|by right; left|done])).
    + assert (Hch : chan = true) by (destruct chan; [done|]; by specialize (I2 eq_refl)). subst chan. (constructor; cbn [l_calls l_pc l_thr l_running l_started l_chan l_dead_use]; auto; try done;
      try (intros ->; by specialize (I1 eq_refl)); try (destruct I4 as [H|[H|(_ & H & _)]]; [by left|by right; left|done])).
Qed.
Theorem C75_stopped_first cs sched : LDestroy ∉ cs -> l_dead_use (l_run (cs ++ [LStop; LDestroy]) sched) = 0.
Proof.
  intros Hn. assert (H : LInv (cs ++ [LStop; LDestroy]) (l_run (cs ++ [LStop; LDestroy]) sched)); [|apply H]. unfold l_run.
  assert (H0 : LInv (cs ++ [LStop; LDestroy]) (l_new (cs ++ [LStop; LDestroy]))).
  { constructor; cbn; try done; [|intros [|]; done]. left. exists [], cs. auto 10. }
  revert H0. generalize (l_new (cs ++ [LStop; LDestroy])) as s. induction sched as [|a sched IH]; intros s H; [done|]. apply IH. by apply li_step.
Qed.
(** Destroyed while running, it forwards messages to destroyed objects: any number of them. *)
Theorem C75_running_refuted n : exists sched, l_dead_use (l_run [LStart; LDestroy] sched) = n.
Proof.
  exists ([LMain; LMsg; LMain; LMain] ++ concat (replicate n [LMsg; LMsg])). unfold l_run. rewrite fold_left_app. cbn.
  assert (H : forall d, l_dead_use (fold_left l_step (concat (replicate n [LMsg; LMsg])) (LSt [] LD1 TLoop true true false 0 d)) = d + n).
  { clear. induction n as [|n IH]; intros d; cbn; [lia|]. rewrite IH. lia. }
  apply H.
Qed.
(** A complete run meeting the hypothesis, with two messages forwarded. *)
Example C75_case : let s := l_run ([LStart] ++ [LStop; LDestroy]) [LMain; LMsg; LMain; LMsg; LMsg; LMsg; LMain; LMsg; LNoMsg; LMain; LMain; LMain; LMain] in l_pc s = LGone /\ l_forwarded s = 2 /\ l_dead_use s = 0.
Proof. vm_compute. done. Qed.
Print Assumptions C75_stopped_first.
Print Assumptions C75_running_refuted.
