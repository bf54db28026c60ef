(** * C118: the blocking calls of a safe queue return under fair schedules (safe_queue.h). *)
From stdpp Require Import prelude list_numbers.
From Verif Require Import SafeQueue_Model SafeQueue_Spec SafeQueue_Proofs SafeQueue_Props.

(** ** Specification. *)
(** A round of a fair scheduler: every thread gets at least one turn (other actions may occur too, in any order). *)
Definition fair_round (n : nat) (r : list qact) : Prop := forall t, t < n -> exists pick ex, ARun t pick ex ∈ r.
(** Spurious wake-ups in a schedule. *)
Definition spurious (acts : list qact) : nat :=
  length (List.filter (fun a => match a with ASpurious _ => true | _ => false end) acts).
Definition is_push (o : qop) : bool := match o with Push _ => true | _ => false end.
Definition is_bpop (o : qop) : bool := match o with Pop => true | _ => false end.
(** Every thread is a producer, which only pushes, or a consumer, which only pops (blocking calls, as in the
    event emitters and the data multiplexer). *)
Definition prod_cons (progs : list (list qop)) : Prop :=
  Forall (fun p => Forall (fun o => is_push o = true) p \/ Forall (fun o => is_bpop o = true) p) progs.
Definition count_ops (f : qop -> bool) (progs : list (list qop)) : nat := sum_list_with (fun p => length (List.filter f p)) progs.
(** Number of rounds after which nothing can be pending: linear in calls, threads and spurious wake-ups. *)
Definition enough (progs : list (list qop)) (k : nat) : nat :=
  sum_list_with (fun p => (4 + length progs) * length p + 3) progs + 2 * k.

(** ** A measure that every effective action decreases, spurious wake-ups apart. *)
Notation tot := (@sum_list_with qthread).
Lemma tot_insert f (thr : list qthread) t th th' : thr !! t = Some th -> tot f (<[t:=th']> thr) + f th = tot f thr + f th'.
Proof.
  revert t; induction thr as [|y thr IH]; intros [|t] H; try done.
  - cbn in H. injection H as ->. simpl. lia.
  - cbn in H. specialize (IH t H). simpl in *. lia.
Qed.
Definition wst (st : status) : nat :=
  match st with Ready => 3 | AwakeNE | AwakeNF => 2 | AsleepNE | AsleepNF => 1 | Expired => 0 end.
Definition wth (n : nat) (th : qthread) : nat := (4 + n) * length (th_ops th) + wst (th_st th).
Definition mq (s : qst) : nat := tot (wth (length (q_thr s))) (q_thr s).

Lemma tot_notify_ops f n pick thr : (forall st st' ops, f (Th st ops) = f (Th st' ops)) -> tot f (notify n pick thr) = tot f thr.
Proof.
  intros Hf.
  assert (H1 : forall a b, tot f (wake_one a b pick thr) = tot f thr).
  { intros a b. destruct (wake_one_cases a b pick thr) as [[_ ->]|(t & th & Ht & _ & ->)]; [done|].
    pose proof (tot_insert f thr t th (Th b (th_ops th)) Ht) as H. destruct th as [st ops]. cbn [th_ops] in *.
    rewrite (Hf b st) in H. lia. }
  destruct n; cbn [notify]; auto. clear H1. unfold wake_all. induction thr as [|[st ops] thr IH]; [done|].
  rewrite fmap_cons. cbn [sum_list_with th_st th_ops]. rewrite IH. f_equal. destruct (decide _); auto.
Qed.
Lemma tot_notify_le N n pick thr : tot (wth N) (notify n pick thr) <= tot (wth N) thr + length thr.
Proof.
  assert (H1 : forall a b, wst b <= S (wst a) -> tot (wth N) (wake_one a b pick thr) <= tot (wth N) thr + length thr).
  { intros a b Hab. destruct (wake_one_cases a b pick thr) as [[_ ->]|(t & th & Ht & Hs & ->)]; [lia|].
    pose proof (tot_insert (wth N) thr t th (Th b (th_ops th)) Ht) as H. apply lookup_lt_Some in Ht.
    assert (wth N (Th b (th_ops th)) <= S (wth N th)) by (unfold wth; rewrite Hs; cbn [th_ops th_st]; lia). lia. }
  destruct n; cbn [notify]; [lia|apply H1; cbn; lia|apply H1; cbn; lia|].
  clear H1. unfold wake_all. induction thr as [|th thr IH]; [done|].
  rewrite fmap_cons. cbn [sum_list_with length]. 
  assert (wth N (if decide (th_st th = AsleepNE) then Th AwakeNE (th_ops th) else th) <= S (wth N th)); [|lia].
  destruct (decide _) as [E|]; [|lia]. unfold wth. rewrite E. cbn [th_ops th_st wst]. lia.
Qed.

Definition idle (th : qthread) : Prop := th_ops th = [] \/ th_st th = AsleepNE \/ th_st th = AsleepNF.
Lemma mq_status s t th st : q_thr s !! t = Some th ->
  mq (Qst (q_items s) (q_max s) (set_status st t (q_thr s)) false (q_log s)) + wst (th_st th) = mq s + wst st.
Proof.
  intros Ht. rewrite (set_status_insert _ _ _ _ Ht). unfold mq. cbn [q_thr]. rewrite insert_length.
  pose proof (tot_insert (wth (length (q_thr s))) _ _ _ (Th st (th_ops th)) Ht) as H.
  unfold wth in H at 2 4. cbn [th_ops th_st] in H. lia.
Qed.
(** A turn of a thread that has something to do and does not sleep makes progress. *)
Lemma mq_run s t pick ex : q_ub s = false ->
  (exists th, q_thr s !! t = Some th /\ ~ idle th /\ (mq (qstep s (ARun t pick ex)) < mq s \/ q_ub (qstep s (ARun t pick ex)) = true)) \/
  ((forall th, q_thr s !! t = Some th -> idle th) /\ qstep s (ARun t pick ex) = s).
Proof.
  intros Eub. unfold qstep. rewrite Eub. destruct (q_thr s !! t) as [[st [|o ops]]|] eqn:Et; [| |right; by split].
  { right. split; [|done]. intros ? [= <-]. by left. }
  assert (Hpop : mq (Qst (q_items s) (q_max s) (<[t := Th Ready ops]> (q_thr s)) false (q_log s)) + length (q_thr s) < mq s).
  { unfold mq. cbn [q_thr]. rewrite insert_length.
    pose proof (tot_insert (wth (length (q_thr s))) _ _ _ (Th Ready ops) Et) as H.
    unfold wth in H at 2 4. cbn [th_ops th_st length wst] in H. lia. }
  assert (Hgo : forall w, (st = Ready \/ st = AwakeNE \/ st = AwakeNF) ->
    let s' := match exec o w (q_max s) (q_items s) with
          | Done q max n e => Qst q max (notify n pick (<[t := Th Ready ops]> (q_thr s))) false (q_log s ++ [(t, e)])
          | WaitNE => Qst (q_items s) (q_max s) (set_status AsleepNE t (q_thr s)) false (q_log s)
          | WaitNF => Qst (q_items s) (q_max s) (set_status AsleepNF t (q_thr s)) false (q_log s)
          | Crash => Qst (q_items s) (q_max s) (q_thr s) true (q_log s) end in mq s' < mq s \/ q_ub s' = true).
  { intros w Hs. destruct (exec o w (q_max s) (q_items s)) as [q max n e| | |] eqn:Ex; cbv zeta; [left..|by right].
    - pose proof (tot_notify_le (length (q_thr s)) n pick (<[t := Th Ready ops]> (q_thr s))) as H.
      unfold mq in *. cbn [q_thr] in *. rewrite notify_length. rewrite insert_length in *. lia.
    - pose proof (mq_status s t _ AsleepNE Et) as Hst. cbn [th_st] in Hst. destruct Hs as [->|[->| ->]]; cbn [wst] in Hst; lia.
    - pose proof (mq_status s t _ AsleepNF Et) as Hst. cbn [th_st] in Hst. destruct Hs as [->|[->| ->]]; cbn [wst] in Hst; lia. }
  assert (Hni : st <> AsleepNE -> st <> AsleepNF -> ~ idle (Th st (o :: ops))) by (intros ? ? [?|[?|?]]; done).
  destruct st; cbv zeta.
  - left. eexists. split; [done|]. split; [by apply Hni|]. apply Hgo. auto.
  - right. split; [|done]. intros ? [= <-]. right; by left.
  - left. eexists. split; [done|]. split; [by apply Hni|]. destruct (is_timed o && ex); [|apply Hgo; auto].
    left. unfold mq in *. cbn [q_thr] in *. lia.
  - right. split; [|done]. intros ? [= <-]. right; by right.
  - left. eexists. split; [done|]. split; [by apply Hni|]. apply Hgo. auto.
  - left. eexists. split; [done|]. split; [by apply Hni|]. left. unfold mq in *. cbn [q_thr] in *. lia.
Qed.
(** Every action leaves the state alone, makes progress, is a spurious wake-up or is undefined behaviour. *)
Lemma mq_step s a : qstep s a = s \/ mq (qstep s a) < mq s \/ (mq (qstep s a) = S (mq s) /\ spurious [a] = 1) \/ q_ub (qstep s a) = true.
Proof.
  destruct (q_ub s) eqn:Eub. { left. unfold qstep. by rewrite Eub. }
  destruct a as [t pick ex|t|t].
  - destruct (mq_run s t pick ex Eub) as [(th & _ & _ & [H|H])|[_ H]]; auto.
  - unfold qstep. rewrite Eub. destruct (q_thr s !! t) as [[st ops]|] eqn:Et; [|by left].
    pose proof (mq_status s t _ AwakeNE Et) as H1. pose proof (mq_status s t _ AwakeNF Et) as H2.
    destruct st; try (by left); cbn [th_st wst] in *; right; right; left; (split; [lia|done]).
  - unfold qstep. rewrite Eub. destruct (q_thr s !! t) as [[st ops]|] eqn:Et; [|by left]. pose proof (mq_status s t _ Expired Et) as H1.
    destruct st, ops as [|[] ?]; try (by left); cbn [th_st wst] in *; right; left; lia.
Qed.
Lemma spurious_app l1 l2 : spurious (l1 ++ l2) = spurious l1 + spurious l2.
Proof. unfold spurious. by rewrite List.filter_app, app_length. Qed.
Lemma spurious_cons a l : spurious (a :: l) = spurious [a] + spurious l.
Proof. exact (spurious_app [a] l). Qed.
Lemma ub_stays s acts : q_ub s = true -> qrun s acts = s.
Proof. intros H. induction acts as [|a acts IH]; [done|]. cbn [qrun fold_left]. unfold qstep at 2. rewrite H. exact IH. Qed.
Lemma qrun_app s l1 l2 : qrun s (l1 ++ l2) = qrun (qrun s l1) l2.
Proof. unfold qrun. by rewrite fold_left_app. Qed.
Lemma thr_len s a : length (q_thr (qstep s a)) = length (q_thr s).
Proof.
  destruct (step_shape s a); cbn [q_thr]; rewrite ?notify_length, ?insert_length; done.
Qed.
(** A round: progress, or all its actions leave the state alone; spurious wake-ups are paid for. *)
Lemma round_step r : forall s, q_ub (qrun s r) = true \/ mq (qrun s r) < mq s + 2 * spurious r \/
  (qrun s r = s /\ spurious r = 0 /\ forall a, a ∈ r -> qstep s a = s).
Proof.
  induction r as [|a r IH]; intros s.
  - right; right. split; [done|]. split; [done|]. intros a Ha. by apply elem_of_nil in Ha.
  - rewrite spurious_cons. change (qrun s (a :: r)) with (qrun (qstep s a) r).
    destruct (mq_step s a) as [E|[E|[[E E1]|E]]].
    + rewrite E. destruct (IH s) as [H|[H|(H1 & H2 & H3)]].
      * by left.
      * right; left. lia.
      * destruct (decide (spurious [a] = 0)) as [E0|E0].
        -- right; right. split; [done|]. split; [lia|]. intros b [->|Hb]%elem_of_cons; auto.
        -- right; left. rewrite H1. lia.
    + destruct (IH (qstep s a)) as [H|[H|(H1 & H2 & H3)]]; [by left|right; left..]; [lia|]. rewrite H1. lia.
    + destruct (IH (qstep s a)) as [H|[H|(H1 & H2 & H3)]]; [by left|right; left..]; [lia|]. rewrite H1. lia.
    + left. by rewrite ub_stays.
Qed.
Lemma run_len acts : forall s, length (q_thr (qrun s acts)) = length (q_thr s).
Proof. induction acts as [|a acts IH]; intros s; [done|]. change (qrun s (a :: acts)) with (qrun (qstep s a) acts). rewrite IH. apply thr_len. Qed.
Lemma rounds_quiet n : forall rounds s, length (q_thr s) = n -> Forall (fair_round n) rounds ->
  mq s + 2 * spurious (concat rounds) < length rounds ->
  q_ub (qrun s (concat rounds)) = true \/ exists i, i <= length rounds /\ quiescent (qrun s (concat (take i rounds))).
Proof.
  induction rounds as [|r rounds IH]; intros s Hn HF Hlt; [cbn in Hlt; lia|].
  apply Forall_cons in HF as [Hf HF]. cbn [concat length] in *. rewrite spurious_app in Hlt. rewrite qrun_app.
  destruct (q_ub s) eqn:Eub. { left. by rewrite !ub_stays by (rewrite ?ub_stays; done). }
  destruct (round_step r s) as [H|[H|(H1 & H2 & H3)]].
  - left. by rewrite ub_stays.
  - destruct (IH (qrun s r)) as [Hu|(i & Hi & Hq)]; [by rewrite run_len|done|lia|by left|].
    right. exists (S i). split; [lia|]. cbn [take concat]. by rewrite qrun_app.
  - right. exists 0. split; [lia|]. cbn [take concat]. intros t th Ht.
    destruct (Hf t) as (pick & ex & Hin). { rewrite <- Hn. by eapply lookup_lt_Some. }
    specialize (H3 _ Hin). destruct (mq_run s t pick ex Eub) as [(th' & Ht' & Hni & [Hm|Hu])|[Hid _]].
    + rewrite H3 in Hm. lia.
    + rewrite H3 in Hu. congruence.
    + by apply Hid.
Qed.
Lemma mq_new max progs : mq (qst_new max progs) = enough progs 0.
Proof.
  unfold mq, enough, qst_new. cbn [q_thr]. rewrite fmap_length. generalize (length progs) as n. intros n.
  induction progs as [|p progs IH]; [done|]. rewrite fmap_cons. cbn [sum_list_with]. rewrite IH.
  unfold wth. cbn [th_ops th_st wst]. lia.
Qed.
(** Without timed pops there is no undefined behaviour. *)
Lemma no_ub max progs acts : all_ops no_timed progs -> q_ub (qrun (qst_new max progs) acts) = false.
Proof.
  intros HP. apply (run_ind (fun s => WF progs s /\ q_ub s = false)); [split; [apply wf_new|done]|].
  intros s a [HW Hub]. split; [by apply wf_step|]. unfold qstep. rewrite Hub. destruct a as [t pick ex|t|t].
  - destruct (q_thr s !! t) as [[st [|o ops]]|] eqn:Et; [done| |done].
    pose proof (wf_next _ _ _ _ _ _ _ HW HP Et eq_refl) as Ho.
    assert (Hgo : forall w, exec o w (q_max s) (q_items s) <> Crash).
    { intros w Hx. apply exec_crash in Hx as (_ & _ & Hx). by destruct o. }
    destruct st; cbv zeta; try done.
    + specialize (Hgo false). by destruct (exec o false (q_max s) (q_items s)).
    + destruct (is_timed o && ex); [done|]. specialize (Hgo true). by destruct (exec o true (q_max s) (q_items s)).
    + specialize (Hgo true). by destruct (exec o true (q_max s) (q_items s)).
  - destruct (q_thr s !! t) as [[st ops]|]; [|done]. by destruct st.
  - destruct (q_thr s !! t) as [[st ops]|]; [|done]. by destruct st, ops as [|[] ?].
Qed.

(** ** Accounting for producers and consumers. *)
Definition rem (f : qop -> bool) (s : qst) : nat := tot (fun th => length (List.filter f (th_ops th))) (q_thr s).
Definition pure_ops (o : qop) : Prop := is_push o = true \/ is_bpop o = true.
Definition Acc (P C : nat) (s : qst) : Prop := length (q_items s) + C + rem is_push s = P + rem is_bpop s.
Lemma acc_step progs P C s a : WF progs s -> all_ops pure_ops progs -> Acc P C s -> Acc P C (qstep s a).
Proof.
  intros HW HP HA. unfold Acc, rem in *.
  destruct (step_shape s a) as [| |t th st Ht Hub Hc|t th o ops w q max n e pick Ht Hub Ho Hst Hw Hx|t th o ops Ht Hub Ho Hst]; [done|done| | |]; cbn [q_thr q_items].
  - pose proof (tot_insert (fun th => length (List.filter is_push (th_ops th))) _ _ _ (Th st (th_ops th)) Ht) as H1.
    pose proof (tot_insert (fun th => length (List.filter is_bpop (th_ops th))) _ _ _ (Th st (th_ops th)) Ht) as H2.
    cbn [th_ops] in H1, H2. lia.
  - rewrite !tot_notify_ops by done.
    pose proof (tot_insert (fun th => length (List.filter is_push (th_ops th))) _ _ _ (Th Ready ops) Ht) as H1.
    pose proof (tot_insert (fun th => length (List.filter is_bpop (th_ops th))) _ _ _ (Th Ready ops) Ht) as H2.
    cbn [th_ops] in H1, H2. rewrite Ho in H1, H2. pose proof (wf_next _ _ _ _ _ _ _ HW HP Ht Ho) as [Hp|Hp]; destruct o; try done.
    + cbn [exec] in Hx. destruct (_ <? _); [|done]. injection Hx as <- <- <- <-. rewrite app_length. cbn [List.filter is_push is_bpop length] in *. lia.
    + cbn [exec] in Hx. destruct (q_items s) as [|y l] eqn:Ei; [done|]. injection Hx as <- <- <- <-. cbn [List.filter is_push is_bpop length] in *. lia.
  - pose proof (wf_next _ _ _ _ _ _ _ HW HP Ht Ho) as Hp. destruct HW as [_ HW]. destruct (HW _ _ Ht) as [Hok _]. unfold st_ok in Hok.
    exfalso. destruct Hst as [E|[E Hz]].
    + rewrite E, Ho in Hok. destruct Hok as [? Hq]. injection Hq as -> _. by destruct Hp.
    + destruct o; try done. by destruct Hp.
Qed.
Lemma acc_run max progs acts : all_ops pure_ops progs ->
  Acc (count_ops is_push progs) (count_ops is_bpop progs) (qrun (qst_new max progs) acts).
Proof.
  intros HP. apply (run_ind (fun s => WF progs s /\ Acc (count_ops is_push progs) (count_ops is_bpop progs) s)).
  - split; [apply wf_new|]. unfold Acc, rem, count_ops. cbn [qst_new q_items q_thr length].
    assert (H : forall f, tot (fun th => length (List.filter f (th_ops th))) (Th Ready <$> progs) = sum_list_with (fun p => length (List.filter f p)) progs).
    { intros f. clear HP. induction progs as [|p progs IH]; [done|]. rewrite fmap_cons. cbn [sum_list_with th_ops]. by rewrite IH. }
    rewrite !H. lia.
  - intros s a [HW HA]. split; [by apply wf_step|by eapply acc_step].
Qed.
Lemma done_stays acts : forall s t th, q_thr s !! t = Some th -> th_ops th = [] -> exists th', q_thr (qrun s acts) !! t = Some th' /\ th_ops th' = [].
Proof.
  induction acts as [|a acts IH]; intros s t th Ht Ho; [eauto|]. change (qrun s (a :: acts)) with (qrun (qstep s a) acts).
  assert (exists th', q_thr (qstep s a) !! t = Some th' /\ th_ops th' = []) as (th' & Ht' & Ho'); [|by eapply IH].
  destruct (step_shape s a) as [| |u thu st Hu Hub Hc|u thu o ops w q max n e pick Hu Hub Hou Hst Hw Hx|u thu o ops Hu Hub Hou Hst]; [eauto|eauto| | |]; cbn [q_thr].
  - destruct (decide (t = u)) as [->|Hne]; [|rewrite list_lookup_insert_ne by done; eauto].
    rewrite list_lookup_insert by (by eapply lookup_lt_Some). assert (thu = th) as -> by congruence. eexists. split; [done|]. done.
  - assert (t <> u) by congruence.
    destruct (notify n pick (<[u:=Th Ready ops]> (q_thr s)) !! t) as [th'|] eqn:E.
    + pose proof E as E'. apply notify_lookup in E' as (th2 & E2 & E3 & _). rewrite list_lookup_insert_ne in E2 by done.
      assert (th2 = th) as -> by congruence. exists th'. split; [done|]. congruence.
    + apply lookup_ge_None in E. rewrite notify_length, insert_length in E. apply lookup_lt_Some in Ht. lia.
  - assert (t <> u) by congruence. rewrite list_lookup_insert_ne by done. eauto.
Qed.
Lemma quiet_stays progs acts : forall s, WF progs s -> all_ops no_timed progs -> quiescent s -> spurious acts = 0 -> qrun s acts = s.
Proof.
  induction acts as [|a acts IH]; intros s HW HP HQ Hsp; [done|]. rewrite spurious_cons in Hsp.
  change (qrun s (a :: acts)) with (qrun (qstep s a) acts).
  assert (qstep s a = s) as ->; [|apply IH; auto; lia].
  destruct (q_ub s) eqn:Eub; [unfold qstep; by rewrite Eub|]. destruct a as [t pick ex|t|t].
  - destruct (mq_run s t pick ex Eub) as [(th & Ht & Hni & _)|[_ H]]; [|done]. by destruct (Hni (HQ _ _ Ht)).
  - cbn in Hsp. lia.
  - unfold qstep. rewrite Eub. destruct (q_thr s !! t) as [[st ops]|] eqn:Et; [|done]. destruct st, ops as [|[] ?]; try done.
    by pose proof (wf_next _ _ _ _ _ _ _ HW HP Et eq_refl).
Qed.
Lemma rem_le f s t th : q_thr s !! t = Some th -> length (List.filter f (th_ops th)) <= rem f s.
Proof.
  intros H. unfold rem. apply elem_of_list_lookup_2 in H. by apply (sum_list_with_in th (fun th => length (List.filter f (th_ops th)))).
Qed.
Lemma rem_zero f s : (forall t th, q_thr s !! t = Some th -> List.filter f (th_ops th) = []) -> rem f s = 0.
Proof.
  unfold rem. generalize (q_thr s) as thr. induction thr as [|th thr IH]; intros H; [done|]. cbn [sum_list_with].
  rewrite (H 0 th eq_refl), IH; [done|]. intros t th' Ht. apply (H (S t) th' Ht).
Qed.
Lemma pc_pure progs : prod_cons progs -> all_ops pure_ops progs.
Proof.
  intros H. eapply Forall_impl; [exact H|]. intros p [Hp|Hp]; (eapply Forall_impl; [exact Hp|]); intros o Ho; [by left|by right].
Qed.
Lemma pure_plain progs : all_ops pure_ops progs -> all_ops no_timed progs /\ all_ops no_replace progs /\ all_ops no_setmax progs.
Proof.
  intros H. split; [|split]; (eapply Forall_impl; [exact H|]); intros p Hp; (eapply Forall_impl; [exact Hp|]); intros o [Ho|Ho]; by destruct o.
Qed.

(** ** C118. *)
(** With every thread getting its turns and finitely many spurious wake-ups, the queue comes to rest: every thread
    has returned from all its calls or is blocked (by C20 on an empty, resp. full, queue). *)
Theorem C118_quiet : forall max progs rounds, all_ops no_timed progs -> Forall (fair_round (length progs)) rounds ->
  enough progs (spurious (concat rounds)) < length rounds ->
  exists i, i <= length rounds /\ quiescent (qrun (qst_new max progs) (concat (take i rounds))).
Proof.
  intros max progs rounds HP HF Hlt. destruct (rounds_quiet (length progs) rounds (qst_new max progs)) as [H|H]; [|done| | |done].
  - cbn [qst_new q_thr]. by rewrite fmap_length.
  - rewrite mq_new. unfold enough in *. lia.
  - by rewrite no_ub in H.
Qed.
Print Assumptions C118_quiet.
(** Timed pops included, the only alternative is the undefined behaviour of C18. *)
Theorem C118_quiet_timed : forall max progs rounds, Forall (fair_round (length progs)) rounds ->
  enough progs (spurious (concat rounds)) < length rounds ->
  q_ub (qrun (qst_new max progs) (concat rounds)) = true \/
  exists i, i <= length rounds /\ quiescent (qrun (qst_new max progs) (concat (take i rounds))).
Proof.
  intros max progs rounds HF Hlt. apply (rounds_quiet (length progs)); [|done|].
  - cbn [qst_new q_thr]. by rewrite fmap_length.
  - rewrite mq_new. unfold enough in *. lia.
Qed.
Print Assumptions C118_quiet_timed.

Lemma max_same max progs acts : all_ops no_setmax progs -> q_max (qrun (qst_new max progs) acts) = max.
Proof.
  intros HP. pose proof (log_ops _ max progs acts HP) as Hl. pose proof (lin_run max progs acts) as HL. unfold Lin, fifo_run in HL.
  eapply fifo_max; [|exact HL]. eapply Forall_impl; [exact Hl|]. by intros [].
Qed.
Lemma filter_none (f g : qop -> bool) l : (forall o, f o = true -> g o = false) -> Forall (fun o => f o = true) l -> List.filter g l = [].
Proof. intros H. induction 1 as [|o l Ho _ IH]; [done|]. cbn [List.filter]. by rewrite (H _ Ho). Qed.
(** A thread's remaining calls are of one kind. *)
Lemma rem_kind progs s t th : prod_cons progs -> WF progs s -> q_thr s !! t = Some th ->
  Forall (fun o => is_push o = true) (th_ops th) \/ Forall (fun o => is_bpop o = true) (th_ops th).
Proof.
  intros HP [_ HW] Ht. destruct (HW _ _ Ht) as [_ Hp]. unfold prod_cons in HP. rewrite Forall_lookup in HP.
  destruct (HP _ _ Hp) as [H|H]; apply Forall_app in H as [_ H]; auto.
Qed.
Lemma quiet_kind progs s t th : prod_cons progs -> WF progs s -> quiescent s -> q_thr s !! t = Some th ->
  th_ops th = [] \/ (th_st th = AsleepNE /\ (exists ops, th_ops th = Pop :: ops) /\ Forall (fun o => is_bpop o = true) (th_ops th)) \/
  (th_st th = AsleepNF /\ (exists x ops, th_ops th = Push x :: ops) /\ Forall (fun o => is_push o = true) (th_ops th)).
Proof.
  intros HP HW HQ Ht. pose proof (rem_kind _ _ _ _ HP HW Ht) as HK. destruct HW as [_ HW]. destruct (HW _ _ Ht) as [Hok _]. unfold st_ok in Hok.
  destruct (HQ _ _ Ht) as [E|[E|E]]; [by left|right; left|right; right]; rewrite E in Hok.
  - split; [done|]. destruct Hok as [ops [Ho|Ho]]; rewrite Ho in *; destruct HK as [HK|HK]; apply Forall_cons in HK as [HK1 HK2]; try done.
    split; [eauto|]. by constructor.
  - split; [done|]. destruct Hok as (x & ops & Ho); rewrite Ho in *; destruct HK as [HK|HK]; apply Forall_cons in HK as [HK1 HK2]; try done.
    split; [eauto|]. by constructor.
Qed.
Lemma quiet_pushes max progs acts : prod_cons progs -> 0 < max -> count_ops is_push progs <= count_ops is_bpop progs + max ->
  let s := qrun (qst_new max progs) acts in quiescent s -> forall t th, q_thr s !! t = Some th -> th_st th <> AsleepNF.
Proof.
  intros HP Hm Hc s HQ t th Ht Hst. pose proof (pc_pure _ HP) as HP'. destruct (pure_plain _ HP') as (P1 & P2 & P3).
  pose proof (wf_run max progs acts) as HW. fold s in HW.
  assert (Hfull : q_max s <= length (q_items s)) by (apply (C20_producers_woken progs P2 P3 max acts HQ); by exists t, th).
  unfold s in Hfull at 1. rewrite max_same in Hfull by done.
  assert (Hpops : rem is_bpop s = 0).
  { apply rem_zero. intros u thu Hu. destruct (quiet_kind _ _ _ _ HP HW HQ Hu) as [->|[(Hs & _)|(_ & _ & HF)]]; [done| |].
    - exfalso. assert (q_items s = []) as E by (apply (C20_consumers_woken progs P1 max acts HQ); by exists u, thu). rewrite E in Hfull. cbn in Hfull. lia.
    - apply (filter_none is_push); [|done]. by intros []. }
  assert (Hone : 0 < rem is_push s).
  { pose proof (rem_le is_push s t th Ht) as H. destruct (quiet_kind _ _ _ _ HP HW HQ Ht) as [E|[(Hs & _)|(_ & (x & ops & E) & _)]].
    - destruct HW as [_ HW]. destruct (HW _ _ Ht) as [Hok _]. unfold st_ok in Hok. rewrite Hst, E in Hok. by destruct Hok as (? & ? & ?).
    - congruence.
    - rewrite E in H. cbn in H. lia. }
  pose proof (acc_run max progs acts HP') as HA. fold s in HA. unfold Acc in HA. lia.
Qed.
Lemma quiet_pops max progs acts : prod_cons progs -> 0 < max -> count_ops is_bpop progs <= count_ops is_push progs ->
  let s := qrun (qst_new max progs) acts in quiescent s -> forall t th, q_thr s !! t = Some th -> th_st th <> AsleepNE.
Proof.
  intros HP Hm Hc s HQ t th Ht Hst. pose proof (pc_pure _ HP) as HP'. destruct (pure_plain _ HP') as (P1 & P2 & P3).
  pose proof (wf_run max progs acts) as HW. fold s in HW.
  assert (Hempty : q_items s = []) by (apply (C20_consumers_woken progs P1 max acts HQ); by exists t, th).
  assert (Hpush : rem is_push s = 0).
  { apply rem_zero. intros u thu Hu. destruct (quiet_kind _ _ _ _ HP HW HQ Hu) as [->|[(_ & _ & HF)|(Hs & _)]]; [done| |].
    - apply (filter_none is_bpop); [|done]. by intros [].
    - exfalso. assert (q_max s <= length (q_items s)) as E by (apply (C20_producers_woken progs P2 P3 max acts HQ); by exists u, thu).
      unfold s in E at 1. rewrite max_same in E by done. rewrite Hempty in E. cbn in E. lia. }
  assert (Hone : 0 < rem is_bpop s).
  { pose proof (rem_le is_bpop s t th Ht) as H. destruct (quiet_kind _ _ _ _ HP HW HQ Ht) as [E|[(_ & (ops & E) & _)|(Hs & _)]].
    - destruct HW as [_ HW]. destruct (HW _ _ Ht) as [Hok _]. unfold st_ok in Hok. rewrite Hst, E in Hok. by destruct Hok as (? & [?|?]).
    - rewrite E in H. cbn in H. lia.
    - congruence. }
  pose proof (acc_run max progs acts HP') as HA. fold s in HA. unfold Acc in HA. rewrite Hempty in HA. cbn [length] in HA. lia.
Qed.
Lemma all_calls max progs acts acts' t p th : progs !! t = Some p -> q_thr (qrun (qst_new max progs) acts) !! t = Some th -> th_ops th = [] ->
  calls_of t (q_log (qrun (qst_new max progs) (acts ++ acts'))) = p.
Proof.
  intros Hp Ht Ho. rewrite qrun_app. destruct (done_stays acts' _ _ _ Ht Ho) as (th' & Ht' & Ho'). rewrite <- qrun_app in *.
  destruct (wf_run max progs (acts ++ acts')) as [_ HW]. destruct (HW _ _ Ht') as [_ H]. rewrite Ho', app_nil_r in H. congruence.
Qed.
Lemma take_rounds (rounds : list (list qact)) i : concat rounds = concat (take i rounds) ++ concat (drop i rounds).
Proof. by rewrite <- concat_app, take_drop. Qed.

(** Producers and consumers on a queue with a positive maximum: if there are enough pops to make room, every
    producer returns from all its pushes, in every fair schedule; *)
Theorem C118_pushes_return : forall max progs rounds, prod_cons progs -> 0 < max ->
  count_ops is_push progs <= count_ops is_bpop progs + max ->
  Forall (fair_round (length progs)) rounds -> enough progs (spurious (concat rounds)) < length rounds ->
  forall t p, progs !! t = Some p -> Forall (fun o => is_push o = true) p ->
  calls_of t (q_log (qrun (qst_new max progs) (concat rounds))) = p.
Proof.
  intros max progs rounds HP Hm Hc HF Hlt t p Hp Hpush.
  destruct (pure_plain _ (pc_pure _ HP)) as (P1 & _). destruct (C118_quiet max progs rounds P1 HF Hlt) as (i & Hi & HQ).
  rewrite (take_rounds rounds i).
  pose proof (wf_run max progs (concat (take i rounds))) as HW.
  destruct (q_thr (qrun (qst_new max progs) (concat (take i rounds))) !! t) as [th|] eqn:Et.
  2: { apply lookup_ge_None in Et. destruct HW as [HL _]. apply lookup_lt_Some in Hp. lia. }
  eapply all_calls; [done|exact Et|].
  destruct (quiet_kind _ _ _ _ HP HW HQ Et) as [E|[(_ & (ops & E) & _)|(Hs & _)]]; [done| |].
  - destruct HW as [_ HW]. destruct (HW _ _ Et) as [_ H]. rewrite Hp in H. injection H as ->. apply Forall_app in Hpush as [_ Hpush].
    rewrite E in Hpush. by apply Forall_cons in Hpush as [? _].
  - by destruct (quiet_pushes max progs _ HP Hm Hc HQ _ _ Et).
Qed.
Print Assumptions C118_pushes_return.
(** if there are enough items, every consumer returns from all its pops; *)
Theorem C118_pops_return : forall max progs rounds, prod_cons progs -> 0 < max ->
  count_ops is_bpop progs <= count_ops is_push progs ->
  Forall (fair_round (length progs)) rounds -> enough progs (spurious (concat rounds)) < length rounds ->
  forall t p, progs !! t = Some p -> Forall (fun o => is_bpop o = true) p ->
  calls_of t (q_log (qrun (qst_new max progs) (concat rounds))) = p.
Proof.
  intros max progs rounds HP Hm Hc HF Hlt t p Hp Hpop.
  destruct (pure_plain _ (pc_pure _ HP)) as (P1 & _). destruct (C118_quiet max progs rounds P1 HF Hlt) as (i & Hi & HQ).
  rewrite (take_rounds rounds i).
  pose proof (wf_run max progs (concat (take i rounds))) as HW.
  destruct (q_thr (qrun (qst_new max progs) (concat (take i rounds))) !! t) as [th|] eqn:Et.
  2: { apply lookup_ge_None in Et. destruct HW as [HL _]. apply lookup_lt_Some in Hp. lia. }
  eapply all_calls; [done|exact Et|].
  destruct (quiet_kind _ _ _ _ HP HW HQ Et) as [E|[(Hs & _)|(_ & (x & ops & E) & _)]]; [done| |].
  - by destruct (quiet_pops max progs _ HP Hm Hc HQ _ _ Et).
  - destruct HW as [_ HW]. destruct (HW _ _ Et) as [_ H]. rewrite Hp in H. injection H as ->. apply Forall_app in Hpop as [_ Hpop].
    rewrite E in Hpop. by apply Forall_cons in Hpop as [? _].
Qed.
Print Assumptions C118_pops_return.
(** and without spurious wake-ups the rest is final: further turns change nothing. *)
Theorem C118_rest : forall max progs rounds more, all_ops no_timed progs -> Forall (fair_round (length progs)) rounds ->
  enough progs 0 < length rounds -> spurious (concat rounds ++ more) = 0 ->
  let s := qrun (qst_new max progs) (concat rounds) in quiescent s /\ qrun s more = s.
Proof.
  intros max progs rounds more HP HF Hlt Hsp s. rewrite spurious_app in Hsp.
  destruct (C118_quiet max progs rounds HP HF) as (i & Hi & HQ). { replace (spurious (concat rounds)) with 0 by lia. done. }
  assert (E : s = qrun (qst_new max progs) (concat (take i rounds))).
  { unfold s. rewrite (take_rounds rounds i), qrun_app. eapply quiet_stays; [apply wf_run|done|done|].
    rewrite (take_rounds rounds i), spurious_app in Hsp. lia. }
  split; [by rewrite E|]. eapply quiet_stays; [apply wf_run|done| |lia]. fold s. by rewrite E.
Qed.
Print Assumptions C118_rest.

(** Two producers and a consumer on a queue of one place, with a spurious wake-up in every fifth round. *)
Definition c118_progs : list (list qop) := [[Push 1; Push 2]; [Pop; Pop; Pop]; [Push 3; Push 4]].
Definition c118_rounds : list (list qact) :=
  (fun i => [ARun 2 i false; ARun 1 0 false; ARun 0 i false] ++ (if (i mod 10) =? 0 then [ASpurious 1] else [])) <$> seq 0 90.
Example C118_case : prod_cons c118_progs /\ count_ops is_push c118_progs = 4 /\ count_ops is_bpop c118_progs = 3 /\
  Forall (fair_round (length c118_progs)) c118_rounds /\ spurious (concat c118_rounds) = 9 /\
  enough c118_progs (spurious (concat c118_rounds)) < length c118_rounds.
Proof.
  split; [repeat constructor; (left; by repeat constructor) || (right; by repeat constructor)|].
  split; [done|]. split; [done|]. split; [|split; [by vm_compute|]].
  - apply Forall_forall. intros r Hr. unfold c118_rounds in Hr. apply elem_of_list_fmap in Hr as (i & -> & _).
    intros [|[|[|t]]] Ht; [..|cbn in Ht; lia]; do 2 eexists; apply elem_of_app; left;
      repeat ((by apply elem_of_list_here) || apply elem_of_list_further).
  - apply Nat.ltb_lt. by vm_compute.
Qed.
Example C118_case_run : q_log (qrun (qst_new 1 c118_progs) (concat c118_rounds)) =
  [(2, EPush 3); (1, EPop 3); (0, EPush 1); (1, EPop 1); (0, EPush 2); (1, EPop 2); (2, EPush 4)].
Proof. by vm_compute. Qed.
