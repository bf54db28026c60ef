(** * C176-C178: the statistics of a pooled publisher. *)
From stdpp Require Import prelude.
From Verif Require Import PoolCount_Model.
Global Instance pev_eq_dec : EqDecision pev.
Proof. solve_decision. Defined.
(** How often something happened. *)
Definition times (e : pev) (l : list pev) : nat := length (List.filter (fun x => bool_decide (x = e)) l).
Definition all_idle (s : pcst) : Prop := Forall (fun p => p = PcIdle) (pc_thr s).

Lemma times_app e l l' : times e (l ++ l') = times e l + times e l'.
Proof. unfold times. by rewrite List.filter_app, app_length. Qed.
Definition pend_f (p : ppc) : nat := match p with PcFail | PcFailW _ => 1 | _ => 0 end.
Definition pend_a (p : ppc) : nat := match p with PcFail | PcFailW _ | PcAlloc | PcAllocW _ => 1 | _ => 0 end.
Definition sumf (f : ppc -> nat) (l : list ppc) : nat := foldr (fun p n => f p + n) 0 l.
Lemma sumf_insert f (l : list ppc) t x y : l !! t = Some x -> sumf f (<[t := y]> l) + f x = sumf f l + f y.
Proof.
  revert t; induction l as [|z l IH]; intros [|t] H; [done..| |].
  - injection H as ->. cbn. lia.
  - change (f z + sumf f (<[t := y]> l) + f x = f z + sumf f l + f y). specialize (IH t H). lia.
Qed.
Lemma sumf_idle f l : f PcIdle = 0 -> Forall (fun p => p = PcIdle) l -> sumf f l = 0.
Proof. intros H0. induction 1 as [|p l -> _ IH]; [done|]. change (f PcIdle + sumf f l = 0). lia. Qed.
Record pinv (n : nat) (s : pcst) : Prop := {
  i_size : pc_free s + pc_held s = n;
  i_f : times VFails (pc_log s) + sumf pend_f (pc_thr s) = times VEmpty (pc_log s);
  i_a : times VAllocs (pc_log s) + sumf pend_a (pc_thr s) = times VEmpty (pc_log s) + times VThrew (pc_log s);
  i_fle : pc_fails s <= times VFails (pc_log s);
  i_ale : pc_allocs s <= times VAllocs (pc_log s) + n;
  i_v : Forall (fun p => match p with PcFailW v => v <= times VFails (pc_log s) | PcAllocW v => v <= times VAllocs (pc_log s) + n | _ => True end) (pc_thr s)
}.
Lemma vforall (s : pcst) (n a b : nat) t p l : pc_thr s !! t = Some p -> Forall (fun p => match p with PcFailW v => v <= a | PcAllocW v => v <= b + n | _ => True end) (pc_thr s) ->
  a <= times VFails l -> b <= times VAllocs l -> forall q, match q with PcFailW v => v <= times VFails l | PcAllocW v => v <= times VAllocs l + n | _ => True end ->
  Forall (fun p => match p with PcFailW v => v <= times VFails l | PcAllocW v => v <= times VAllocs l + n | _ => True end) (<[t := q]> (pc_thr s)).
Proof. intros Ht H Ha Hb q Hq. apply Forall_insert; [|done]. eapply Forall_impl; [exact H|]. intros [| |v| |v|]; cbn; lia. Qed.
Ltac ones := repeat match goal with
  | |- context [times ?e (?x :: nil)] => let r := eval vm_compute in (times e (x :: nil)) in change (times e (x :: nil)) with r
  | |- context [times ?e nil] => change (times e nil) with 0
  end.
Lemma pinv_step n s a : pinv n s -> pinv n (pc_step s a).
Proof.
  intros [H1 H2 H3 H4 H5 H6]. destruct a as [t o|]; cbn [pc_step].
  2:{ destruct (pc_held s) as [|h] eqn:E; constructor; cbn [pc_free pc_held pc_fails pc_allocs pc_thr pc_log]; try done; lia. }
  destruct (pc_thr s !! t) as [p|] eqn:Et; [|by constructor].
  pose proof (fun q => sumf_insert pend_f _ t p q Et) as Sf. pose proof (fun q => sumf_insert pend_a _ t p q Et) as Sa.
  pose proof (fun l => vforall s n _ _ t p l Et H6) as V.
  assert (Hv := Forall_lookup_1 _ _ _ _ H6 Et).
  pose proof (Sf PcIdle) as F1; pose proof (Sf PcFail) as F2; pose proof (Sf (PcFailW (pc_fails s))) as F3; pose proof (Sf PcAlloc) as F4; pose proof (Sf PcClone) as F5; pose proof (Sf (PcAllocW (pc_allocs s))) as F6.
  pose proof (Sa PcIdle) as A1; pose proof (Sa PcFail) as A2; pose proof (Sa (PcFailW (pc_fails s))) as A3; pose proof (Sa PcAlloc) as A4; pose proof (Sa PcClone) as A5; pose proof (Sa (PcAllocW (pc_allocs s))) as A6.
  clear Sf Sa. cbn [pend_f pend_a] in *.
  destruct p as [| |v| |v|]; [destruct (pc_free s) as [|f] eqn:Ef|..]; destruct o; unfold pc_goto; cbn [pend_f pend_a] in *;
    (constructor; cbn [pc_free pc_held pc_fails pc_allocs pc_thr pc_log]; rewrite ?app_nil_r;
     [lia|rewrite ?times_app; ones; lia|rewrite ?times_app; ones; lia|rewrite ?times_app; ones; lia|rewrite ?times_app; ones; lia|]);
    try (apply V; rewrite ?times_app; ones; lia).
  - eapply Forall_impl; [exact H6|]. intros [| |v| |v|]; rewrite ?times_app; ones; lia.
Qed.
Lemma sumf_replicate f k : f PcIdle = 0 -> sumf f (replicate k PcIdle) = 0.
Proof. intros H. apply sumf_idle; [done|]. by apply Forall_replicate. Qed.
Lemma pinv_new n k : pinv n (pc_new n k).
Proof. constructor; unfold pc_new; cbn [pc_free pc_held pc_fails pc_allocs pc_thr pc_log]; rewrite ?sumf_replicate by done; ones; try lia. by apply Forall_replicate. Qed.
Lemma pinv_run n k acts : pinv n (pc_run n k acts).
Proof. unfold pc_run. generalize (pinv_new n k). generalize (pc_new n k). induction acts as [|a acts IH]; intros s I; [done|]. cbn. by apply IH, pinv_step. Qed.

(** C176: neither statistic ever exceeds what it stands for, whatever threads publish; no pooled object is lost or added by exceptions. *)
Theorem C176_never_more size threads acts : let s := pc_run size threads acts in
  pc_fails s <= times VEmpty (pc_log s) /\ pc_allocs s <= size + times VEmpty (pc_log s) + times VThrew (pc_log s).
Proof. intros s. destruct (pinv_run size threads acts) as [H1 H2 H3 H4 H5 H6]. fold s in H1, H2, H3, H4, H5, H6. lia. Qed.
Print Assumptions C176_never_more.
Theorem C176_pool_complete size threads acts : let s := pc_run size threads acts in pc_free s + pc_held s = size.
Proof. intros s. apply (pinv_run size threads acts). Qed.
Print Assumptions C176_pool_complete.
Definition exact1 (n : nat) (s : pcst) : Prop := exists p, pc_thr s = [p] /\ pc_fails s = times VFails (pc_log s) /\ pc_allocs s = n + times VAllocs (pc_log s) /\
  match p with PcFailW v => v = pc_fails s | PcAllocW v => v = pc_allocs s | _ => True end.
Lemma exact1_step n s a : exact1 n s -> exact1 n (pc_step s a).
Proof.
  intros (p & Hp & H1 & H2 & H3). destruct a as [t o|]; cbn [pc_step].
  2:{ destruct (pc_held s); exists p; by split_and!. }
  rewrite Hp. destruct t as [|t]; [|by exists p]. cbn [lookup list_lookup].
  destruct p as [| |v| |v|]; [destruct (pc_free s) as [|f] eqn:Ef|..]; destruct o; unfold pc_goto; cbn [pc_thr pc_log pc_fails pc_allocs]; rewrite ?Hp;
    (eexists; split; [reflexivity|]; cbn [pc_thr pc_log pc_fails pc_allocs]; rewrite ?times_app; ones; split_and!; try done; try lia).
Qed.
(** With one publishing thread both are exact between its calls. *)
Theorem C176_exact size acts : let s := pc_run size 1 acts in all_idle s ->
  pc_fails s = times VEmpty (pc_log s) /\ pc_allocs s = size + times VEmpty (pc_log s) + times VThrew (pc_log s).
Proof.
  intros s Hi. assert (E : exact1 size s).
  { unfold s, pc_run. assert (H0 : exact1 size (pc_new size 1)) by (exists PcIdle; cbn; split_and!; try done; lia). revert H0. clear s Hi. generalize (pc_new size 1). induction acts as [|a acts IH]; intros x I; [done|]. cbn [fold_left]. by apply IH, exact1_step. }
  destruct E as (p & _ & H1 & H2 & _). destruct (pinv_run size 1 acts) as [_ F A _ _ _]. fold s in F, A. rewrite (sumf_idle pend_f) in F by done. rewrite (sumf_idle pend_a) in A by done. lia.
Qed.
Print Assumptions C176_exact.
(** The thread is idle, one publication found the pool empty, one cloner threw: the hypothesis is met and the counts are what the theorem says. *)
Example C176_case : let s := pc_run 1 1 [PcStep 0 ClRange; PcStep 0 ClOk; PcStep 0 ClOk; PcStep 0 ClOk; PcStep 0 ClOk; PcStep 0 ClOk; PcStep 0 ClOk; PcStep 0 ClOk; PcStep 0 ClOk; PcStep 0 ClOk; PcStep 0 ClOk; PcRelease; PcStep 0 ClOk] in
  all_idle s /\ pc_fails s = 1 /\ pc_allocs s = 3 /\ pc_log s = [VThrew; VAllocs; VFresh; VPooled; VEmpty; VFails; VAllocs; VFresh; VPooled].
Proof. vm_compute. split_and!; try done. by constructor. Qed.

Lemma take_all k : forall free held fails allocs thr log, thr !! 0 = Some PcIdle ->
  fold_left pc_step (repeat (PcStep 0 ClOk) k) (Pcst (k + free) held fails allocs thr log) = Pcst free (k + held) fails allocs thr (log ++ repeat VPooled k).
Proof.
  induction k as [|k IH]; intros free held fails allocs thr log H0; [cbn; by rewrite app_nil_r|]. cbn [repeat fold_left Nat.add pc_step pc_thr]. rewrite H0. cbn [pc_free pc_held pc_fails pc_allocs pc_thr pc_log].
  rewrite IH by done. f_equal; [lia|]. by rewrite <-app_assoc.
Qed.
Lemma times_pooled e k : e <> VPooled -> times e (repeat VPooled k) = 0.
Proof. intros H. induction k as [|k IH]; [done|]. unfold times in *. cbn. rewrite bool_decide_eq_false_2 by done. done. Qed.
Definition race : list pcact := concat (repeat [PcStep 0 ClOk; PcStep 1 ClOk] 6).
Lemma race_run held a L : fold_left pc_step race (Pcst 0 held 0 a [PcIdle; PcIdle] L) =
  Pcst 0 held 1 (S a) [PcIdle; PcIdle] ((((((((((((L ++ [VEmpty]) ++ [VEmpty]) ++ []) ++ []) ++ [VFails]) ++ [VFails]) ++ []) ++ []) ++ [VAllocs]) ++ [VAllocs]) ++ [VFresh]) ++ [VFresh]).
Proof. reflexivity. Qed.
(** C177: false as soon as two threads publish: for every pool size, two publications find the pool empty, both are served with new objects, and each statistic counts one. *)
Theorem C177_refuted size : exists acts, let s := pc_run size 2 acts in
  all_idle s /\ times VEmpty (pc_log s) = 2 /\ times VThrew (pc_log s) = 0 /\ times VFresh (pc_log s) = 2 /\ pc_fails s = 1 /\ pc_allocs s = size + 1.
Proof.
  exists (repeat (PcStep 0 ClOk) size ++ race). unfold pc_run. rewrite fold_left_app.
  assert (E : pc_new size 2 = Pcst (size + 0) 0 0 size [PcIdle; PcIdle] []) by (unfold pc_new; by rewrite Nat.add_0_r). rewrite E, take_all by done. rewrite race_run.
  cbn [pc_log pc_fails pc_allocs pc_thr]. unfold all_idle. cbn [pc_thr]. rewrite !times_app, !times_pooled by done. ones.
  split_and!; try done; try lia. repeat constructor.
Qed.
Print Assumptions C177_refuted.
Definition ranged : list pcact := [PcStep 0 ClRange; PcStep 0 ClOk; PcStep 0 ClOk; PcStep 0 ClOk].
Lemma ranged_run f a L : fold_left pc_step ranged (Pcst (S f) 0 0 a [PcIdle] L) = Pcst (S f) 0 0 (S a) [PcIdle] ((((L ++ [VThrew]) ++ []) ++ [VAllocs]) ++ [VFresh]).
Proof. reflexivity. Qed.
Lemma ranged_runs f m : forall a L, exists L', fold_left pc_step (concat (repeat ranged m)) (Pcst (S f) 0 0 a [PcIdle] L) = Pcst (S f) 0 0 (a + m) [PcIdle] L' /\
  times VEmpty L' = times VEmpty L /\ times VFresh L' = times VFresh L + m.
Proof.
  induction m as [|m IH]; intros a L.
  - exists L. cbn [repeat concat fold_left]. rewrite !Nat.add_0_r. done.
  - cbn [repeat concat]. rewrite fold_left_app, ranged_run. destruct (IH (S a) ((((L ++ [VThrew]) ++ []) ++ [VAllocs]) ++ [VFresh])) as (L' & E & E1 & E2). exists L'. rewrite E.
    split; [f_equal; lia|]. rewrite E1, E2, !times_app. ones. lia.
Qed.
(** C178: false if the cloner can throw std::out_of_range (as std::vector::at does): the publisher takes it for an empty pool. For every pool and every number of publications, the pool is never empty, yet every
    publication is made in a new object, the cloner is called twice for it, and it is counted as an allocation. *)
Theorem C178_refuted size m : 0 < size -> exists acts, let s := pc_run size 1 acts in
  all_idle s /\ times VEmpty (pc_log s) = 0 /\ pc_free s = size /\ times VFresh (pc_log s) = m /\ pc_allocs s = size + m /\ pc_fails s = 0.
Proof.
  intros Hs. exists (concat (repeat ranged m)). destruct size as [|f]; [lia|]. destruct (ranged_runs f m (S f) []) as (L & E & E1 & E2).
  unfold pc_run, pc_new. cbn [replicate]. rewrite E. unfold all_idle. cbn [pc_log pc_fails pc_allocs pc_thr pc_free]. rewrite E1, E2. ones. split_and!; try done; try lia. by constructor.
Qed.
Print Assumptions C178_refuted.
(** As many events are handed on, at most, as calls of the cloner returned. *)
Definition handed (s : pcst) : nat := times VPooled (pc_log s) + times VFresh (pc_log s).
Definition cloned (a : pcact) : bool := match a with PcStep _ ClOk => true | _ => false end.
Lemma handed_step s a : handed (pc_step s a) <= handed s + (if cloned a then 1 else 0).
Proof.
  unfold handed. destruct a as [t o|]; cbn [pc_step cloned].
  - destruct (pc_thr s !! t) as [[| |v| |v|]|]; [destruct (pc_free s); destruct o|..]; try destruct o; unfold pc_goto; cbn [pc_log]; rewrite ?times_app; ones; lia.
  - destruct (pc_held s); cbn [pc_log]; lia.
Qed.
Theorem C176_handed_on size threads acts : handed (pc_run size threads acts) <= length (List.filter cloned acts).
Proof.
  unfold pc_run. assert (G : forall s, handed (fold_left pc_step acts s) <= handed s + length (List.filter cloned acts)).
  { induction acts as [|a acts IH]; intros s; cbn [fold_left List.filter]; [cbn; lia|]. specialize (IH (pc_step s a)). pose proof (handed_step s a) as H. destruct (cloned a); cbn in *; lia. }
  specialize (G (pc_new size threads)). exact G.
Qed.
Print Assumptions C176_handed_on.
(** Publications in pooled objects are as many as the objects that were handed out: without returns, those held. *)
Theorem C176_pooled size threads acts : PcRelease ∉ acts -> let s := pc_run size threads acts in times VPooled (pc_log s) = pc_held s /\ times VPooled (pc_log s) + pc_free s = size.
Proof.
  intros Hn s. assert (H : times VPooled (pc_log s) = pc_held s).
  { unfold s, pc_run. assert (H0 : times VPooled (pc_log (pc_new size threads)) = pc_held (pc_new size threads)) by done. revert H0. clear s. generalize (pc_new size threads).
    induction acts as [|a acts IH]; intros x H0; [done|]. cbn [fold_left]. apply not_elem_of_cons in Hn as [Ha Hn]. apply IH; [done|].
    destruct a as [t o|]; [|done]. cbn [pc_step]. destruct (pc_thr x !! t) as [[]|]; cbn [pc_goto pc_log pc_held]; try done.
    - destruct (pc_free x); [|destruct o]; cbn [pc_goto pc_log pc_held]; unfold pc_goto; cbn [pc_log pc_held]; rewrite ?times_app; ones; lia.
    - unfold pc_goto. cbn [pc_log pc_held]. rewrite ?times_app. ones. lia.
    - rewrite ?times_app. ones. lia.
    - unfold pc_goto. cbn [pc_log pc_held]. rewrite ?times_app. ones. lia.
    - rewrite ?times_app. ones. lia.
    - destruct o; unfold pc_goto; cbn [pc_log pc_held]; rewrite ?times_app; ones; lia. }
  pose proof (C176_pool_complete size threads acts) as Hp. cbv zeta in Hp. fold s in Hp. lia.
Qed.
Print Assumptions C176_pooled.
