(** * C189, C190: stopping a receiving ZeroMQ channel (model: ZmqLife_Model). *)
From stdpp Require Import prelude.
From Verif Require Import ZmqLife_Model.
(** A step of the polling thread. *)
Definition polls (a : lact) : bool := match a with LMsg | LNoMsg => true | _ => false end.
(** The same when no start() has timed out: outside start the thread has passed its first instruction. *)
Record NInv (s : lst) : Prop := {
  ni_started : l_started s = false -> l_thr s = TNone;
  ni_begin : l_thr s = TBegin -> l_pc s = LWait /\ l_running s = false;
  ni_join : l_pc s = LJoin -> l_started s = true /\ l_running s = false;
  ni_wait : l_pc s = LWait -> l_started s = true;
  ni_none : l_thr s = TNone -> l_running s = false;
  ni_dead : l_thr s = TDone -> l_running s = false;
  ni_d2 : l_pc s = LD2 -> l_running s = false
}.
Lemma st_step s a : (l_started s = false -> l_thr s = TNone) -> (l_pc s = LWait \/ l_pc s = LJoin -> l_started s = true) ->
  (l_started (l_step s a) = false -> l_thr (l_step s a) = TNone) /\ (l_pc (l_step s a) = LWait \/ l_pc (l_step s a) = LJoin -> l_started (l_step s a) = true).
Proof.
  intros H1 H2. destruct s as [todo pc thr running started chan fw dead]. cbn in H1, H2.
  destruct a, pc, thr; cbn; try (split; [exact H1|exact H2]);
    repeat match goal with
    | |- context [match ?l with [] => _ | _ => _ end] => destruct l as [|[] ?]; cbn
    | |- context [if ?b then _ else _] => is_var b; destruct b; cbn
    end; (split; [try done; intros E; subst; try (specialize (H1 eq_refl); done) | try (intros [|]; done); try (intros _; apply H2; auto; fail)]).
Qed.
Lemma st_run s sched : (l_started s = false -> l_thr s = TNone) -> (l_pc s = LWait \/ l_pc s = LJoin -> l_started s = true) ->
  l_started (fold_left l_step sched s) = false -> l_thr (fold_left l_step sched s) = TNone.
Proof. revert s. induction sched as [|a sched IH]; intros s H1 H2; [exact H1|]. destruct (st_step s a H1 H2). by apply IH. Qed.
Lemma ni_step s a : a <> LTimeout -> NInv s -> NInv (l_step s a).
Proof.
  intros Ha [I1 I2 I3 I4 I5 I6 I7]. destruct s as [todo pc thr running started chan fw dead]. cbn in I1, I2, I3, I4, I5, I6, I7.
  destruct a; [|done| |].
  all: destruct pc, thr; cbn;
    repeat match goal with
    | |- context [match ?l with [] => _ | _ => _ end] => is_var l; destruct l as [|[] ?]; cbn
    | |- context [if ?b then _ else _] => is_var b; destruct b; cbn
    end;
    try (destruct (I2 eq_refl)); try (destruct (I3 eq_refl)); try (specialize (I7 eq_refl)); try discriminate; subst;
    (constructor; cbn; intros; subst; try (split; [|]); auto; try done).
  all: try (by specialize (I1 eq_refl)); try (by specialize (I4 eq_refl)); try (by specialize (I5 eq_refl)); try (by specialize (I6 eq_refl)).
Qed.
Lemma ni_new calls : NInv (l_new calls).
Proof. by constructor. Qed.
Lemma ni_run s sched : LTimeout ∉ sched -> NInv s -> NInv (fold_left l_step sched s).
Proof.
  revert s. induction sched as [|a sched IH]; intros s Hn H; [done|]. apply not_elem_of_cons in Hn as [Ha Hn]. apply IH; [done|]. by apply ni_step.
Qed.

(** ** C189: stop() returns. *)
(** A stop() in progress, the polling thread at most [d] steps from its end. *)
Definition ending (s : lst) (d : nat) : Prop :=
  l_pc s = LJoin /\ l_running s = false /\ match l_thr s with TGot => d = 2 | TLoop => d = 1 | TDone | TNone => d = 0 | TBegin => False end.
Definition stopped (s : lst) : Prop := l_pc s = LIdle /\ l_thr s = TNone /\ l_started s = false /\ l_running s = false.
Lemma ending_step s d a : ending s d -> a <> LTimeout ->
  match a with LMain => match d with 0 => stopped (l_step s a) | _ => l_step s a = s end | _ => ending (l_step s a) (Nat.pred d) end.
Proof.
  intros (Hp & Hr & Ht) Ha. destruct s as [todo pc thr running started chan fw dead]. cbn in Hp, Hr, Ht. subst pc running.
  destruct a; [|done| |]; destruct thr; try done; subst d; cbn; unfold ending, stopped; cbn; try done; destruct chan; done.
Qed.
Lemma ending_run s d sched : ending s d -> LTimeout ∉ sched -> d <= length (List.filter polls sched) ->
  exists pre post, sched ++ [LMain] = pre ++ post /\ stopped (fold_left l_step pre s).
Proof.
  revert s d. induction sched as [|a sched IH]; intros s d He Hn Hd.
  - cbn in Hd. assert (d = 0) as -> by lia. exists [LMain], []. split; [done|]. apply (ending_step s 0 LMain He). done.
  - apply not_elem_of_cons in Hn as [Ha Hn]. assert (Ha' : a <> LTimeout) by done.
    pose proof (ending_step s d a He Ha') as Hst. destruct a; [|done| |]; cbn [List.filter polls] in Hd.
    + destruct d as [|d].
      * exists [LMain], (sched ++ [LMain]). done.
      * rewrite <- Hst in He. destruct (IH _ _ He Hn Hd) as (pre & post & E & H). exists (LMain :: pre), post. cbn. by rewrite E.
    + cbn [length] in Hd. destruct (IH _ _ Hst Hn ltac:(lia)) as (pre & post & E & H). exists (LMsg :: pre), post. cbn. by rewrite E.
    + cbn [length] in Hd. destruct (IH _ _ Hst Hn ltac:(lia)) as (pre & post & E & H). exists (LNoMsg :: pre), post. cbn. by rewrite E.
Qed.
(** Whatever was called before, if no start() has timed out: once stop() is waiting for the polling thread, it returns as soon as that thread has made two more steps and the caller one,
    whatever messages arrive; then the thread is gone. *)
Theorem C189_stop_returns calls sched sched' :
  LTimeout ∉ sched -> LTimeout ∉ sched' -> l_pc (l_run calls sched) = LJoin -> 2 <= length (List.filter polls sched') ->
  exists pre post, sched' ++ [LMain] = pre ++ post /\ stopped (l_run calls (sched ++ pre)).
Proof.
  intros Hn Hn' Hp Hl. pose proof (ni_run _ _ Hn (ni_new calls)) as I. fold (l_run calls sched) in I. set (s := l_run calls sched) in *.
  destruct (ni_join _ I Hp) as [Hs Hr].
  assert (exists d, ending s d /\ d <= 2) as (d & He & Hd).
  { unfold ending. destruct (l_thr s) eqn:E; [exists 0|exfalso|exists 1|exists 2|exists 0]; try (repeat split; auto; lia). destruct (ni_begin _ I E). congruence. }
  destruct (ending_run s d sched' He Hn' ltac:(lia)) as (pre & post & E & H). exists pre, post. split; [done|]. unfold l_run. by rewrite fold_left_app.
Qed.
(** The destructor of the channel returns too, running or stopped: once it waits for the polling thread, after two steps of that thread and one of its own. *)
Definition dying (s : lst) (d : nat) : Prop :=
  l_pc s = LD2 /\ l_running s = false /\ match l_thr s with TGot => d = 2 | TLoop => d = 1 | TDone | TNone => d = 0 | TBegin => False end.
Lemma dying_step s d a : dying s d -> a <> LTimeout ->
  match a with LMain => match d with 0 => l_pc (l_step s a) = LGone /\ l_thr (l_step s a) = TNone | _ => l_step s a = s end | _ => dying (l_step s a) (Nat.pred d) end.
Proof.
  intros (Hp & Hr & Ht) Ha. destruct s as [todo pc thr running started chan fw dead]. cbn in Hp, Hr, Ht. subst pc running.
  destruct a; [|done| |]; destruct thr; try done; subst d; cbn; unfold dying; cbn; try done; destruct chan; done.
Qed.
Lemma gone_run s sched : l_pc s = LGone -> l_thr s = TNone -> l_pc (fold_left l_step sched s) = LGone.
Proof.
  revert s. induction sched as [|a sched IH]; intros s Hp Ht; [done|]. cbn [fold_left]. destruct s as [todo pc thr running started chan fw dead]. cbn in Hp, Ht. subst.
  apply IH; by destruct a.
Qed.
Lemma dying_run s d sched : dying s d -> LTimeout ∉ sched -> d <= length (List.filter polls sched) -> l_pc (fold_left l_step (sched ++ [LMain]) s) = LGone.
Proof.
  revert s d. induction sched as [|a sched IH]; intros s d He Hn Hd.
  - cbn in Hd. assert (d = 0) as -> by lia. apply (dying_step s 0 LMain He). done.
  - apply not_elem_of_cons in Hn as [Ha Hn]. assert (Ha' : a <> LTimeout) by done.
    pose proof (dying_step s d a He Ha') as Hst. destruct a; [|done| |]; cbn [List.filter polls] in Hd; cbn [app fold_left].
    + destruct d as [|d]; [apply gone_run; apply Hst|]. rewrite Hst. by apply (IH _ (S d)).
    + cbn [length] in Hd. apply (IH _ _ Hst Hn). lia.
    + cbn [length] in Hd. apply (IH _ _ Hst Hn). lia.
Qed.
Theorem C189_destroy_returns calls sched sched' :
  LTimeout ∉ sched -> LTimeout ∉ sched' -> l_pc (l_run calls sched) = LD2 -> 2 <= length (List.filter polls sched') ->
  l_pc (l_run calls (sched ++ sched' ++ [LMain])) = LGone.
Proof.
  intros Hn Hn' Hp Hl. pose proof (ni_run _ _ Hn (ni_new calls)) as I. fold (l_run calls sched) in I. set (s := l_run calls sched) in *.
  pose proof (ni_d2 _ I Hp) as Hr.
  assert (exists d, dying s d /\ d <= 2) as (d & He & Hd).
  { unfold dying. destruct (l_thr s) eqn:E; [exists 0|exfalso|exists 1|exists 2|exists 0]; try (repeat split; auto; lia). destruct (ni_begin _ I E). congruence. }
  unfold l_run. rewrite fold_left_app. apply (dying_run s d); [done|done|lia].
Qed.
(** After stop() has returned (or before the first start(), or after a stop() that had nothing to do) no message reaches the listeners until start() is called again - also if a start() timed out before. *)
Lemma silent s sched : l_started s = false -> l_thr s = TNone -> (l_pc s = LWait -> False) -> (l_pc s = LJoin -> False) -> LStart ∉ l_calls s -> l_forwarded (fold_left l_step sched s) = l_forwarded s.
Proof.
  revert s. induction sched as [|a sched IH]; intros s Hs Ht Hw Hj Hn; [done|]. cbn [fold_left].
  destruct s as [todo pc thr running started chan fw dead]. cbn in Hs, Ht, Hw, Hj, Hn. subst started thr.
  destruct a; cbn [l_step].
  - destruct pc; try (by exfalso; auto).
    + destruct todo as [|[] todo]; cbn; try (by rewrite IH).
      * exfalso. apply Hn. left.
      * rewrite IH; cbn; try done. intros H. apply Hn. by right.
      * rewrite IH; cbn; try done. intros H. apply Hn. by right.
    + by rewrite IH.
    + by rewrite IH.
    + by rewrite IH.
  - destruct pc; try (by exfalso; auto); by rewrite IH.
  - by rewrite IH.
  - by rewrite IH.
Qed.
Theorem C189_silent_when_stopped calls sched sched' :
  let s := l_run calls sched in
  l_pc s = LIdle -> l_started s = false -> LStart ∉ l_calls s -> l_forwarded (l_run calls (sched ++ sched')) = l_forwarded s.
Proof.
  intros s Hp Hs Hn. unfold l_run. rewrite fold_left_app. apply silent; auto; fold (l_run calls sched); fold s.
  - apply (st_run (l_new calls) sched); [done|intros [|]; done|done].
  - rewrite Hp. done.
  - rewrite Hp. done.
Qed.
(** Every message that the polling thread takes from the socket is handed over, once, as long as the channel is not being destroyed: the polls that take one are those made in the loop while it runs. *)
Definition takes (s : lst) (a : lact) : nat := match l_thr s, l_running s, a with TLoop, true, LMsg => 1 | _, _, _ => 0 end.
Fixpoint taken (s : lst) (sched : list lact) : nat := match sched with [] => 0 | a :: sched' => takes s a + taken (l_step s a) sched' end.
Definition in_hand (s : lst) : nat := match l_thr s with TGot => 1 | _ => 0 end.
Local Ltac fin := repeat match goal with thr : lthr |- _ => destruct thr | r : bool |- _ => destruct r end; cbn; lia.
Theorem C189_forwarded calls sched : LDestroy ∉ calls -> let s := l_run calls sched in l_forwarded s + in_hand s = taken (l_new calls) sched.
Proof.
  intros Hn. cbn zeta. unfold l_run. assert (H : forall s, LDestroy ∉ l_calls s -> l_chan s = true -> (l_started s = true \/ l_thr s = TNone) ->
    l_forwarded (fold_left l_step sched s) + in_hand (fold_left l_step sched s) = l_forwarded s + in_hand s + taken s sched); [|rewrite H; cbn; auto].
  clear. induction sched as [|a sched IH]; intros s Hn Hc Hs; [cbn; lia|]. cbn [fold_left taken].
  assert (K : LDestroy ∉ l_calls (l_step s a) /\ l_chan (l_step s a) = true /\ (l_started (l_step s a) = true \/ l_thr (l_step s a) = TNone) /\
    l_forwarded (l_step s a) + in_hand (l_step s a) = l_forwarded s + in_hand s + takes s a).
  2:{ destruct K as (K1 & K2 & K3 & K4). rewrite IH by done. lia. }
  destruct s as [todo pc thr running started chan fw dead]. cbn [l_calls l_chan l_started l_thr] in Hn, Hc, Hs. subst chan.
  assert (Ht : forall c todo', todo = c :: todo' -> LDestroy ∉ todo' /\ c <> LDestroy). { intros c todo' ->. apply not_elem_of_cons in Hn as [H1 H2]. split; [done|congruence]. }
  destruct a; cbn [l_step].
  - destruct pc.
    + destruct todo as [|[] todo]; [| | |by destruct (Ht _ _ eq_refl)]; try destruct (Ht _ _ eq_refl) as [Ht' _].
      * cbn. split_and!; auto; fin.
      * destruct started; [cbn; split_and!; auto; fin|]. destruct Hs as [|Hs]; [done|]. subst thr. cbn. split_and!; auto; fin.
      * destruct started; cbn; split_and!; auto; fin.
    + destruct running; cbn; split_and!; auto; fin.
    + destruct thr; cbn; split_and!; auto; fin.
    + cbn. split_and!; auto; fin.
    + destruct thr; cbn; split_and!; auto; fin.
    + cbn. split_and!; auto; fin.
  - destruct pc; cbn; split_and!; auto; fin.
  - destruct thr; try (destruct running); cbn; split_and!; auto; try fin; destruct Hs; auto; done.
  - destruct thr; try (destruct running); cbn; split_and!; auto; try fin; destruct Hs; auto; done.
Qed.
Print Assumptions C189_forwarded.
(** A run that meets the hypotheses: the second of two messages is being handed over while stop() waits; the third is never delivered, nor is it after stop(). *)
Example C189_case :
  let calls := [LStart; LStop; LStop] in let sched := [LMain; LMsg; LMain; LMsg; LMsg; LMsg; LMain] in
  l_pc (l_run calls sched) = LJoin /\ l_thr (l_run calls sched) = TGot /\ stopped (l_run calls (sched ++ [LMsg; LMsg; LMain])) /\
  l_forwarded (l_run calls (sched ++ [LMsg; LMsg; LMain; LMain; LMsg; LMsg])) = 2.
Proof. vm_compute. done. Qed.
(** ** C190: after a start() that timed out, stop() may wait for ever: the polling thread sets the running flag after stop() has cleared it. *)
Theorem C190_stop_hangs_refuted :
  exists sched, l_pc (l_run [LStart; LStop] sched) = LJoin /\ forall sched', l_pc (l_run [LStart; LStop] (sched ++ sched')) = LJoin.
Proof.
  exists [LMain; LTimeout; LMain; LMsg]. split; [done|]. intros sched'. unfold l_run. rewrite fold_left_app. cbn.
  assert (H : forall s, l_pc s = LJoin /\ (l_thr s = TLoop \/ l_thr s = TGot) /\ l_running s = true -> l_pc (fold_left l_step sched' s) = LJoin); [|apply H; auto].
  induction sched' as [|a sched' IH]; intros s (Hp & Ht & Hr); [done|]. cbn [fold_left]. apply IH. destruct s as [todo pc thr running started chan fw dead]. cbn in *. subst pc running.
  destruct Ht as [->| ->], a; cbn; auto; destruct chan; auto.
Qed.
Print Assumptions C189_stop_returns.
Print Assumptions C189_destroy_returns.
Print Assumptions C189_silent_when_stopped.
Print Assumptions C190_stop_hangs_refuted.
