(** * C110, C111: tasks scheduled on an event loop. *)
From Coq Require Import Lia.
From stdpp Require Import prelude strings gmap.
From Verif Require Import Base Scheduler_Model Scheduler_Props LoopSched_Model.
Global Instance xev_eq_dec : EqDecision xev. Proof. solve_decision. Defined.
Global Instance xact_eq_dec : EqDecision xact. Proof. solve_decision. Defined.
(** The tasks accepted by the loop, and the executions begun, in order. *)
Definition acc_of (e : xev) : option nat := match e with XPub i true => Some i | _ => None end.
Definition run_of (e : xev) : option nat := match e with XRun i => Some i | _ => None end.
Definition sched_of (e : xev) : option sev := match e with XS e => Some e | _ => None end.
Notation accs l := (omap acc_of l).
Notation runs l := (omap run_of l).
Lemma s_log_grows s a : exists ev, s_log (s_step s a) = s_log s ++ ev.
Proof.
  destruct s as [thr map cl join log term]. cbn [s_step s_log]. destruct term; [exists []; by rewrite app_nil_r|]. destruct a as [|k].
  - destruct join as [[k n]|]; [destruct (thr !! k) as [[? ? []]|]; try (exists []; by rewrite app_nil_r); by eexists|]. destruct cl as [|[n r|n|] cl]; try (exists []; by rewrite app_nil_r); destruct (map !! n); try (exists []; by rewrite app_nil_r); by eexists.
  - destruct (thr !! k) as [t|]; [|exists []; by rewrite app_nil_r]. destruct (thr_step k t). by eexists.
Qed.
Lemma sched_step s a ok : exists ev, s_log (s_step (x_s s) a) = s_log (x_s s) ++ ev /\
  ((exists i, ev = [EFinish i] /\ x_step s (XSched a ok) = XSt (s_step (x_s s) a) (if ok then x_q s ++ [i] else x_q s) (x_cur s) (x_log s ++ [XPub i ok; XS (EFinish i)])) \/
   x_step s (XSched a ok) = XSt (s_step (x_s s) a) (x_q s) (x_cur s) (x_log s ++ (XS <$> ev))).
Proof.
  destruct (s_log_grows (x_s s) a) as [ev E]. exists ev. split; [done|]. cbn [x_step]. rewrite E, drop_app. destruct ev as [|[] [|]]; try (by right). left. by eexists.
Qed.
Lemma omap_xs {B} (f : xev -> option B) (l : list sev) : (forall e, f (XS e) = None) -> omap f (XS <$> l) = [].
Proof. intros H. induction l as [|e l IH]; [done|]. simpl. by rewrite H. Qed.
Lemma sched_xs (l : list sev) : omap sched_of (XS <$> l) = l.
Proof. induction l as [|e l IH]; [done|]. simpl. by f_equal. Qed.
Record XI (calls : list scall) (s : xst) : Prop := {
  xi_s : exists sched, x_s s = s_run calls sched;
  xi_log : omap sched_of (x_log s) = s_log (x_s s);
  xi_q : accs (x_log s) = runs (x_log s) ++ x_q s;
  xi_pub : forall l1 i ok l2, x_log s = l1 ++ XPub i ok :: l2 -> exists l3, l2 = XS (EFinish i) :: l3;
  xi_cur : forall l1 i l2, x_log s = l1 ++ XRun i :: l2 ->
    (x_cur s = Some i /\ forall j, XRun j ∉ l2) \/ exists la lb, l2 = la ++ XEnd i :: lb /\ forall j, XRun j ∉ la
}.
Lemma app_split {A} (l1 : list A) x l2 a b : l1 ++ x :: l2 = a ++ b -> (exists l2', a = l1 ++ x :: l2' /\ l2 = l2' ++ b) \/ (exists l1', l1 = a ++ l1' /\ b = l1' ++ x :: l2).
Proof.
  revert a. induction l1 as [|y l1 IH]; intros [|z a] E; simpl in E.
  - right. exists []. done.
  - left. injection E as -> ->. by exists a.
  - right. exists (y :: l1). by rewrite <- E.
  - injection E as -> E. destruct (IH _ E) as [(l2' & -> & ->)|(l1' & -> & ->)]; [left; by exists l2'|right; by exists l1'].
Qed.
Lemma xi_step calls s a : XI calls s -> XI calls (x_step s a).
Proof.
  intros [(sched & Hs) H2 H3 H4 H5]. destruct a as [a ok|].
  - assert (Hsch : exists sched, s_step (x_s s) a = s_run calls sched). { exists (sched ++ [a]). unfold s_run. rewrite fold_left_app. cbn. f_equal. exact Hs. }
    destruct (sched_step s a ok) as (ev & E & [(i & -> & ->)| ->]).
    + constructor; cbn.
      * done.
      * by rewrite omap_app, H2, E.
      * rewrite !omap_app, H3. cbn. rewrite app_nil_r. destruct ok; cbn; [by rewrite <- (assoc_L (++))|by rewrite app_nil_r].
      * intros l1 j ok' l2 Hl. symmetry in Hl. apply app_split in Hl as [(l2' & Hl & ->)|(l1' & -> & Hl)].
        -- destruct (H4 _ _ _ _ Hl) as (l3 & ->). by eexists.
        -- destruct l1' as [|? [|? [|]]]; cbn in Hl; simplify_eq. by eexists.
      * intros l1 j l2 Hl. symmetry in Hl. apply app_split in Hl as [(l2' & Hl & ->)|(l1' & -> & Hl)].
        -- destruct (H5 _ _ _ Hl) as [[-> Hn]|(la & lb & -> & Hn)]; [left|right].
           ++ split; [done|]. intros k. rewrite elem_of_app, !elem_of_cons, elem_of_nil. intros [Hk|[Hk|[Hk|[]]]]; [by eapply Hn|done..].
           ++ exists la, (lb ++ [XPub i ok; XS (EFinish i)]). by rewrite <- (assoc_L (++)).
        -- destruct l1' as [|? [|? [|]]]; cbn in Hl; simplify_eq.
    + constructor; cbn.
      * done.
      * by rewrite omap_app, H2, E, sched_xs.
      * rewrite !omap_app, !omap_xs by done. by rewrite !app_nil_r.
      * intros l1 j ok' l2 Hl. symmetry in Hl. apply app_split in Hl as [(l2' & Hl & ->)|(l1' & -> & Hl)].
        -- destruct (H4 _ _ _ _ Hl) as (l3 & ->). by eexists.
        -- exfalso. assert (Hin : XPub j ok' ∈ XS <$> ev) by (rewrite Hl; apply elem_of_app; right; left). apply elem_of_list_fmap in Hin as (? & ? & _). done.
      * intros l1 j l2 Hl. symmetry in Hl. apply app_split in Hl as [(l2' & Hl & ->)|(l1' & -> & Hl)].
        -- destruct (H5 _ _ _ Hl) as [[-> Hn]|(la & lb & -> & Hn)]; [left|right].
           ++ split; [done|]. intros k [Hk|Hk]%elem_of_app; [by eapply Hn|]. apply elem_of_list_fmap in Hk as (? & ? & _). done.
           ++ exists la, (lb ++ (XS <$> ev)). by rewrite <- (assoc_L (++)).
        -- exfalso. assert (Hin : XRun j ∈ XS <$> ev) by (rewrite Hl; apply elem_of_app; right; left). apply elem_of_list_fmap in Hin as (? & ? & _). done.
  - cbn [x_step]. destruct (x_cur s) as [i|] eqn:Hc.
    + constructor; cbn; [by exists sched|by rewrite omap_app, H2, app_nil_r|by rewrite !omap_app, H3; cbn; rewrite !app_nil_r| |].
      * intros l1 j ok' l2 Hl. symmetry in Hl. apply app_split in Hl as [(l2' & Hl & ->)|(l1' & -> & Hl)].
        -- destruct (H4 _ _ _ _ Hl) as (l3 & ->). by eexists.
        -- destruct l1' as [|? [|]]; cbn in Hl; simplify_eq.
      * intros l1 j l2 Hl. symmetry in Hl. apply app_split in Hl as [(l2' & Hl & ->)|(l1' & -> & Hl)].
        -- right. destruct (H5 _ _ _ Hl) as [[Hj Hn]|(la & lb & -> & Hn)].
           ++ injection Hj as ->. by exists l2', [].
           ++ exists la, (lb ++ [XEnd i]). by rewrite <- (assoc_L (++)).
        -- destruct l1' as [|? [|]]; cbn in Hl; simplify_eq.
    + destruct (x_q s) as [|i q] eqn:Hq; [constructor; rewrite ?Hq; [by exists sched|done..|]; by rewrite Hc|].
      constructor; cbn; [by exists sched|by rewrite omap_app, H2, app_nil_r|rewrite !omap_app, H3; cbn; by rewrite app_nil_r, <- (assoc_L (++))| |].
      * intros l1 j ok' l2 Hl. symmetry in Hl. apply app_split in Hl as [(l2' & Hl & ->)|(l1' & -> & Hl)].
        -- destruct (H4 _ _ _ _ Hl) as (l3 & ->). by eexists.
        -- destruct l1' as [|? [|]]; cbn in Hl; simplify_eq.
      * intros l1 j l2 Hl. symmetry in Hl. apply app_split in Hl as [(l2' & Hl & ->)|(l1' & -> & Hl)].
        -- right. destruct (H5 _ _ _ Hl) as [[Hj _]|(la & lb & -> & Hn)]; [done|]. exists la, (lb ++ [XRun i]). by rewrite <- (assoc_L (++)).
        -- left. destruct l1' as [|? [|]]; cbn in Hl; simplify_eq. split; [done|]. intros k Hk. by apply elem_of_nil in Hk.
Qed.
Lemma xi_run calls acts : XI calls (x_run calls acts).
Proof.
  unfold x_run. assert (H : XI calls (x_new calls)). { constructor; cbn; try done; [by exists []|..]; intros [] *; done. }
  revert H. generalize (x_new calls). induction acts as [|a l IH]; intros s H; [done|]. cbn. apply IH. by apply xi_step.
Qed.
(** C110. Tasks are executed in the order in which the loop accepted them, each acceptance at most once; those not yet begun are waiting. *)
Theorem C110_in_order calls acts : exists waiting, accs (x_log (x_run calls acts)) = runs (x_log (x_run calls acts)) ++ waiting.
Proof. destruct (xi_run calls acts) as [_ _ H _ _]. by eexists. Qed.
(** One at a time: before another execution begins, the previous one has ended. *)
Theorem C110_one_at_a_time calls acts l1 i l2 : x_log (x_run calls acts) = l1 ++ XRun i :: l2 ->
  (forall j, XRun j ∉ l2) \/ exists la lb, l2 = la ++ XEnd i :: lb /\ forall j, XRun j ∉ la.
Proof. intros E. destruct (xi_run calls acts) as [_ _ _ _ H]. destruct (H l1 i _ E) as [[_ Hn]|?]; [by left|by right]. Qed.
Lemma x_run_app calls l a : x_run calls (l ++ [a]) = x_step (x_run calls l) a.
Proof. unfold x_run. by rewrite fold_left_app. Qed.
(** A publication is the end of what the scheduler's thread calls the task. *)
Lemma fin_le_begin calls sched i : count (EFinish i) (s_log (s_run calls sched)) <= count (EBegin i) (s_log (s_run calls sched)).
Proof.
  assert (G : forall t, s_thr (s_run calls sched) !! i = Some t -> count (EBegin i) (s_log (s_run calls sched)) = count (EFinish i) (s_log (s_run calls sched)) + match th_pc t with TTask => 1 | _ => 0 end).
  { induction sched as [|a sched IH] using rev_ind; [done|]. pose proof (si_run calls sched) as I. pose proof (si_about _ I) as Hr. clear I.
    unfold s_run in *. rewrite fold_left_app. cbn [fold_left]. destruct (fold_left s_step sched _) as [thr map cl join log term]. cbn [s_thr s_log] in *. cbn [s_step]. destruct term; [done|]. destruct a as [|k].
    - destruct join as [[k n]|].
      + destruct (thr !! k) as [[? ? []]|]; try done. cbn [s_thr s_log]. intros t Ht. rewrite !count_app, !count_one, !decide_False by done. rewrite (IH t Ht). lia.
      + destruct cl as [|[n r|n|] cl]; try done.
        * destruct (map !! n); [done|]. cbn [s_thr s_log]. intros t Ht. rewrite !count_app, !count_one, !decide_False by done. apply lookup_app_Some in Ht as [Ht|[Hl Ht]]; [rewrite (IH t Ht); lia|].
          apply list_lookup_singleton_Some in Ht as [Hi <-]. cbn. rewrite !count_none; [done|intros H; apply Hr in H; cbn in H; lia..].
        * destruct (map !! n) as [k|]; [|done]. cbn [s_thr s_log]. intros t Ht. rewrite !count_app, !count_one, !decide_False by done. rewrite !Nat.add_0_r.
          destruct (decide (k = i)) as [->|Hne]; [|rewrite list_lookup_alter_ne in Ht by done; by apply IH]. rewrite list_lookup_alter in Ht. destruct (thr !! i) as [t'|]; [|done]. cbn in Ht. injection Ht as <-. cbn. by apply IH.
    - destruct (thr !! k) as [t'|] eqn:Ek; [|done]. destruct (thr_step k t') as [t2 ev] eqn:Es. cbn [s_thr s_log]. intros t Ht. rewrite !count_app.
      destruct (decide (k = i)) as [->|Hne].
      + rewrite list_lookup_insert in Ht by (by eapply lookup_lt_Some). injection Ht as <-. specialize (IH t' Ek). unfold thr_step in Es. destruct t' as [rep run pc]. cbn in *.
        destruct pc; simplify_eq; cbn [th_pc]; rewrite ?count_nil, ?count_one; repeat case_decide; simplify_eq; try (destruct run); try (destruct rep); cbn in *; lia.
      + rewrite list_lookup_insert_ne in Ht by done. rewrite (IH t Ht). assert (Hz : forall e, about e = i -> count e ev = 0). { intros e He. apply count_none. intros H. pose proof (thr_step_about k t' e) as Ha. rewrite Es in Ha. destruct (Ha H). congruence. }
        rewrite !Hz by done. lia. }
  pose proof (si_about _ (si_run calls sched)) as Hr. destruct (s_thr (s_run calls sched) !! i) as [t|] eqn:Et; [rewrite (G t eq_refl); lia|].
  rewrite count_none; [lia|]. intros H. apply Hr in H. cbn in H. apply lookup_ge_None in Et. lia.
Qed.
Lemma acc_le_fin calls acts i : count i (accs (x_log (x_run calls acts))) <= count (EFinish i) (s_log (x_s (x_run calls acts))).
Proof.
  induction acts as [|a acts IH] using rev_ind; [done|]. rewrite x_run_app. set (s := x_run calls acts) in *. destruct a as [a ok|].
  - destruct (sched_step s a ok) as (ev & E & [(k & -> & ->)| ->]); cbn [x_log x_s]; rewrite E, omap_app, !count_app.
    + destruct ok; cbn [omap list_omap acc_of]; rewrite ?count_nil, ?count_one; [|lia]. repeat case_decide; simplify_eq; lia.
    + rewrite omap_xs, count_nil by done. lia.
  - cbn [x_step]. destruct (x_cur s); [|destruct (x_q s)]; cbn [x_log x_s]; rewrite ?omap_app, ?count_app; cbn; rewrite ?count_nil; lia.
Qed.
(** A task started once is executed at most once. *)
Theorem C110_one_shot calls acts i name : XS (EStarted i name false) ∈ x_log (x_run calls acts) -> count i (runs (x_log (x_run calls acts))) <= 1.
Proof.
  intros H. destruct (xi_run calls acts) as [(sched & Es) Hl Hq _ _]. assert (Hs : EStarted i name false ∈ s_log (x_s (x_run calls acts))). { rewrite <- Hl. apply elem_of_list_omap. by exists (XS (EStarted i name false)). }
  pose proof (acc_le_fin calls acts i) as Ha. rewrite Hq, count_app in Ha. rewrite Es in Hs, Ha. pose proof (C76_one_shot_at_most_once _ _ _ _ Hs). pose proof (fin_le_begin calls sched i). lia.
Qed.
(** Once stopScheduledTask has returned the task is not handed to the loop again, ... *)
Theorem C110_no_publication_after_stop calls acts i l1 l2 ok : x_log (x_run calls acts) = l1 ++ XS (EStopRet i) :: l2 -> XPub i ok ∉ l2.
Proof.
  intros E Hin. destruct (xi_run calls acts) as [(sched & Es) Hl _ Hp _]. apply elem_of_list_split in Hin as (la & lb & ->).
  destruct (Hp (l1 ++ XS (EStopRet i) :: la) i ok lb) as (l3 & ->); [by rewrite E, <- (assoc_L (++))|].
  rewrite E, omap_app in Hl. cbn [omap list_omap sched_of] in Hl. rewrite Es in Hl. symmetry in Hl. apply C76_stop_is_final in Hl as [_ Hf]. apply Hf. apply elem_of_list_omap. exists (XS (EFinish i)). split; [|done]. apply elem_of_app. right. right. left.
Qed.
Lemma accs_after_stop calls acts i l1 l2 : x_log (x_run calls acts) = l1 ++ XS (EStopRet i) :: l2 -> count i (accs l2) = 0.
Proof.
  intros E. apply count_none. intros (e & He & Ha)%elem_of_list_omap. destruct e as [|j []| |]; simplify_eq/=. by eapply (C110_no_publication_after_stop calls acts i l1 l2).
Qed.
(** ... so what is executed of it afterwards was waiting in the loop when the stop returned. *)
Theorem C110_after_stop calls acts i l1 l2 : x_log (x_run calls acts) = l1 ++ XS (EStopRet i) :: l2 -> count i (runs l1) + count i (runs l2) <= count i (accs l1).
Proof.
  intros E. destruct (xi_run calls acts) as [_ _ Hq _ _]. pose proof (accs_after_stop _ _ _ _ _ E) as Hz. rewrite E, !omap_app in Hq. cbn [omap list_omap acc_of run_of] in Hq.
  apply (f_equal (count i)) in Hq. rewrite !count_app, Hz in Hq. lia.
Qed.
Theorem C110_nothing_waiting calls acts i l1 l2 : x_log (x_run calls acts) = l1 ++ XS (EStopRet i) :: l2 -> count i (accs l1) = count i (runs l1) -> XRun i ∉ l2.
Proof.
  intros E Hc Hin. pose proof (C110_after_stop _ _ _ _ _ E) as Hle. assert (Hz : count i (runs l2) = 0) by lia. unfold count in Hz. apply nil_length_inv in Hz.
  assert (Hi : i ∈ filter (fun y => y = i) (runs l2)). { apply elem_of_list_filter. split; [done|]. apply elem_of_list_omap. by exists (XRun i). } rewrite Hz in Hi. by apply elem_of_nil in Hi.
Qed.
(** ** Progress: when the loop has taken twice as many steps as tasks had been accepted, all those tasks have been begun, in whatever way its steps are interleaved with the others. *)
Definition is_loop (a : xact) : bool := match a with XLoop => true | _ => false end.
Lemma x_log_grows s a : exists ev, x_log (x_step s a) = x_log s ++ ev.
Proof.
  destruct a as [a ok|]; [destruct (sched_step s a ok) as (ev & _ & [(k & _ & ->)| ->]); by eexists|]. cbn [x_step]. destruct (x_cur s); [by eexists|]. destruct (x_q s); [exists []; by rewrite app_nil_r|by eexists].
Qed.
Lemma x_runs_step s a : length (runs (x_log s)) <= length (runs (x_log (x_step s a))).
Proof. destruct (x_log_grows s a) as [ev ->]. rewrite omap_app, app_length. lia. Qed.
Lemma x_runs_mono l s : length (runs (x_log s)) <= length (runs (x_log (fold_left x_step l s))).
Proof. revert s. induction l as [|a l IH]; intros s; [done|]. cbn [fold_left]. etransitivity; [apply (x_runs_step s a)|apply IH]. Qed.
Lemma prefix_len {A} (a b w c : list A) : a ++ w = b ++ c -> length b <= length a -> b `prefix_of` a.
Proof. intros E H. exists (drop (length b) a). pose proof (f_equal (take (length b)) E) as E2. rewrite take_app, take_app_le in E2 by done. rewrite <- E2 at 1. by rewrite take_drop. Qed.
Theorem C110_progress calls acts more : 2 * length (accs (x_log (x_run calls acts))) < length (List.filter is_loop more) ->
  accs (x_log (x_run calls acts)) `prefix_of` runs (x_log (x_run calls (acts ++ more))).
Proof.
  intros Hn. set (A := accs (x_log (x_run calls acts))) in *.
  assert (G : forall l s, XI calls s -> length A <= length (accs (x_log s)) -> 2 * (length A - length (runs (x_log s))) + (if x_cur s then 1 else 0) <= length (List.filter is_loop l) -> length A <= length (runs (x_log (fold_left x_step l s)))).
  { clear Hn. clearbody A. induction l as [|a l IH]; intros s I HA Hm; cbn [fold_left List.filter length] in *; [lia|]. destruct (decide (length A <= length (runs (x_log s)))) as [Hd|Hd]; [etransitivity; [exact Hd|]; exact (x_runs_mono (a :: l) s)|]. apply IH; [by apply xi_step| |].
    - destruct (x_log_grows s a) as [ev ->]. rewrite omap_app, app_length. lia.
    - pose proof (x_runs_step s a) as Hr. destruct a as [a ok|]; cbn [is_loop] in Hm.
      + assert (Ec : x_cur (x_step s (XSched a ok)) = x_cur s) by (destruct (sched_step s a ok) as (ev & _ & [(k & _ & ->)| ->]); done). rewrite Ec. lia.
      + cbn [length] in Hm. cbn [x_step] in *. destruct (x_cur s) eqn:Ec; [cbn [x_log x_cur]; rewrite omap_app; cbn; rewrite app_nil_r; lia|]. destruct I as [_ _ Hq _ _]. destruct (x_q s) as [|i q] eqn:Eq.
        * rewrite Ec. rewrite Hq, app_nil_r in HA. lia.
        * cbn [x_log x_cur]. rewrite omap_app, app_length. cbn. lia. }
  assert (Hp : exists w, accs (x_log (x_run calls (acts ++ more))) = A ++ w).
  { unfold A, x_run. rewrite fold_left_app. generalize (fold_left x_step acts (x_new calls)) as s. clear. induction more as [|a l IH]; intros s; [exists []; by rewrite app_nil_r|]. cbn [fold_left]. destruct (IH (x_step s a)) as [w ->]. destruct (x_log_grows s a) as [ev ->]. rewrite omap_app, <- (assoc_L (++)). by eexists. }
  destruct Hp as [w Hw]. destruct (xi_run calls (acts ++ more)) as [_ _ Hq _ _]. rewrite Hw in Hq. apply (prefix_len _ _ _ _ (eq_sym Hq)).
  unfold x_run. rewrite fold_left_app. fold (x_run calls acts). apply G; [apply xi_run|done|]. destruct (x_cur (x_run calls acts)); lia.
Qed.
(** ** C111: "once stopScheduledTask has returned the task is not executed any more" fails on an event loop: what has been handed to the loop is executed all the same, in any number. *)
Lemma x_run_app2 calls l l' : x_run calls (l ++ l') = fold_left x_step l' (x_run calls l).
Proof. unfold x_run. by rewrite fold_left_app. Qed.
Fixpoint rep {A} (n : nat) (l : list A) : list A := match n with 0 => [] | S n => l ++ rep n l end.
Lemma x_step_ev s a ok s' ev : s_step (x_s s) a = s' -> s_log s' = s_log (x_s s) ++ ev -> x_step s (XSched a ok) =
  match ev with [EFinish i] => XSt s' (if ok then x_q s ++ [i] else x_q s) (x_cur s) (x_log s ++ [XPub i ok; XS (EFinish i)]) | l => XSt s' (x_q s) (x_cur s) (x_log s ++ (XS <$> l)) end.
Proof. intros <- E. cbn [x_step]. rewrite E, drop_app. by destruct ev as [|[] [|]]. Qed.
Lemma fl_cons {A B} (f : A -> B -> A) a l s : fold_left f (a :: l) s = fold_left f l (f s a). Proof. done. Qed.
Definition at_check (calls : list scall) (slog : list sev) : sst := SSt [SThr true true TCheck] {["t" := 0]} calls None slog false.
Lemma publish_once calls slog q log : fold_left x_step [XSched (SRun 0) true; XSched (SRun 0) true; XSched (SRun 0) true] (XSt (at_check calls slog) q None log) =
  XSt (at_check calls (slog ++ [EBegin 0; EFinish 0])) (q ++ [0]) None (log ++ [XS (EBegin 0); XPub 0 true; XS (EFinish 0)]).
Proof.
  rewrite fl_cons, (x_step_ev _ _ true (SSt [SThr true true TSleep] {["t" := 0]} calls None (slog ++ []) false) []) by done.
  rewrite fl_cons, (x_step_ev _ _ true (SSt [SThr true true TTask] {["t" := 0]} calls None ((slog ++ []) ++ [EBegin 0]) false) [EBegin 0]) by done.
  rewrite fl_cons, (x_step_ev _ _ true (at_check calls (((slog ++ []) ++ [EBegin 0]) ++ [EFinish 0])) [EFinish 0]) by done.
  cbn [fold_left fmap list_fmap x_q x_cur x_log]. by rewrite !app_nil_r, <- !(assoc_L (++)).
Qed.
Lemma publish_many calls m slog q log : fold_left x_step (rep m [XSched (SRun 0) true; XSched (SRun 0) true; XSched (SRun 0) true]) (XSt (at_check calls slog) q None log) =
  XSt (at_check calls (slog ++ rep m [EBegin 0; EFinish 0])) (q ++ rep m [0]) None (log ++ rep m [XS (EBegin 0); XPub 0 true; XS (EFinish 0)]).
Proof.
  revert slog q log. induction m as [|m IH]; intros slog q log; cbn [rep]; [by rewrite !app_nil_r|]. rewrite fold_left_app, publish_once, IH. by rewrite <- !(assoc_L (++)).
Qed.
Lemma loop_many st m log : fold_left x_step (rep m [XLoop; XLoop]) (XSt st (rep m [0]) None log) = XSt st [] None (log ++ rep m [XRun 0; XEnd 0]).
Proof. revert log. induction m as [|m IH]; intros log; cbn [rep]; [by rewrite app_nil_r|]. rewrite fold_left_app. cbn. rewrite IH. by rewrite <- !(assoc_L (++)). Qed.
Lemma omap_rep {A B} (f : A -> option B) k l : omap f (rep k l) = rep k (omap f l).
Proof. induction k as [|k IH]; [done|]. cbn [rep]. by rewrite omap_app, IH. Qed.
Theorem C111_stop_is_final_refuted m : exists calls acts l1 l2, x_log (x_run calls acts) = l1 ++ XS (EStopRet 0) :: l2 /\ XS (EStarted 0 "t" true) ∈ l1 /\ runs l1 = [] /\ count 0 (runs l2) = m.
Proof.
  exists [SStart "t" true; SStop "t"], ([XSched SMain true] ++ rep m [XSched (SRun 0) true; XSched (SRun 0) true; XSched (SRun 0) true] ++ [XSched SMain true; XSched (SRun 0) true; XSched SMain true] ++ rep m [XLoop; XLoop]).
  exists ([XS (EStarted 0 "t" true)] ++ rep m [XS (EBegin 0); XPub 0 true; XS (EFinish 0)] ++ [XS (EStopCall 0)]), (rep m [XRun 0; XEnd 0]).
  split_and!.
  - rewrite !x_run_app2. unfold x_run. cbn [fold_left]. 
    rewrite (x_step_ev _ _ true (at_check [SStop "t"] [EStarted 0 "t" true]) [EStarted 0 "t" true]) by done. cbn [fold_left x_new x_s x_q x_cur x_log fmap list_fmap app]. rewrite fold_left_app, publish_many.
    set (sl := [EStarted 0 "t" true] ++ _).
    rewrite fl_cons, (x_step_ev _ _ true (SSt [SThr true false TCheck] {["t" := 0]} [] (Some (0, "t")) (sl ++ [EStopCall 0]) false) [EStopCall 0]) by done.
    rewrite fl_cons, (x_step_ev _ _ true (SSt [SThr true false TEnd] {["t" := 0]} [] (Some (0, "t")) ((sl ++ [EStopCall 0]) ++ []) false) []) by done.
    rewrite fl_cons, (x_step_ev _ _ true (SSt [SThr true false TEnd] (delete "t" {["t" := 0]}) [] None (((sl ++ [EStopCall 0]) ++ []) ++ [EStopRet 0]) false) [EStopRet 0]) by done.
    cbn [fold_left fmap list_fmap x_q x_cur x_log]. change ([] ++ rep m [0]) with (rep m [0]). rewrite loop_many. cbn [x_log]. rewrite app_nil_r. by rewrite <- !(assoc_L (++)).
  - left.
  - rewrite !omap_app, omap_rep. cbn. clear. by induction m.
  - rewrite omap_rep. cbn. induction m as [|m IH]; [done|]. cbn [rep]. by rewrite count_app, IH.
Qed.
(** A repeated task, a one-shot task, a refused publication; one execution of the stopped task after the stop. *)
Definition xcalls : list scall := [SStart "a" true; SStart "b" false; SStop "a"].
Definition xdemo : list xact :=
  let m := XSched SMain true in let r k := XSched (SRun k) true in
  [m; r 0; r 0; r 0; m; XLoop; r 1; r 1; r 1; r 0; r 0; XSched (SRun 0) false; XLoop; r 0; r 0; r 0; m; r 0; m; XLoop; XLoop; XLoop; XLoop; XLoop].
Example C110_case : x_log (x_run xcalls xdemo) = [XS (EStarted 0 "a" true); XS (EBegin 0); XPub 0 true; XS (EFinish 0); XS (EStarted 1 "b" false); XRun 0; XS (EBegin 1); XPub 1 true; XS (EFinish 1);
    XS (EBegin 0); XPub 0 false; XS (EFinish 0); XEnd 0; XS (EBegin 0); XPub 0 true; XS (EFinish 0); XS (EStopCall 0); XS (EStopRet 0); XRun 1; XEnd 1; XRun 0; XEnd 0] /\
  accs (x_log (x_run xcalls xdemo)) = [0; 1; 0] /\ runs (x_log (x_run xcalls xdemo)) = [0; 1; 0].
Proof. by vm_compute. Qed.
(** A stop with nothing waiting. *)
Example C110_nothing_waiting_case : let m := XSched SMain true in let r := XSched (SRun 0) true in
  x_log (x_run [SStart "a" true; SStop "a"] [m; r; r; r; XLoop; XLoop; m; r; m; XLoop]) = [XS (EStarted 0 "a" true); XS (EBegin 0); XPub 0 true; XS (EFinish 0); XRun 0; XEnd 0; XS (EStopCall 0)] ++ XS (EStopRet 0) :: [].
Proof. by vm_compute. Qed.
(** Enough steps of the loop. *)
Example C110_progress_case : let pre := [XSched SMain true; XSched (SRun 0) true; XSched (SRun 0) true; XSched (SRun 0) true] in let post := [XLoop; XSched (SRun 0) true; XLoop; XLoop] in
  2 * length (accs (x_log (x_run [SStart "a" true] pre))) < length (List.filter is_loop post) /\ runs (x_log (x_run [SStart "a" true] (pre ++ post))) = [0].
Proof. by vm_compute; repeat constructor. Qed.
Print Assumptions C110_in_order.
Print Assumptions C110_one_at_a_time.
Print Assumptions C110_one_shot.
Print Assumptions C110_no_publication_after_stop.
Print Assumptions C110_after_stop.
Print Assumptions C110_nothing_waiting.
Print Assumptions C110_progress.
Print Assumptions C111_stop_is_final_refuted.
