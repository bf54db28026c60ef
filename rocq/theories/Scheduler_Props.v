(** * C47, C76: schedulers. *)
From stdpp Require Import prelude strings gmap.
From Verif Require Import Base Scheduler_Model.
Global Instance sev_eq_dec : EqDecision sev. Proof. solve_decision. Defined.
Global Instance sact_eq_dec : EqDecision sact. Proof. solve_decision. Defined.
Definition count {A} `{EqDecision A} (x : A) (l : list A) : nat := length (filter (fun y => y = x) l).
Lemma count_app {A} `{EqDecision A} (x : A) l1 l2 : count x (l1 ++ l2) = count x l1 + count x l2.
Proof. unfold count. by rewrite filter_app, app_length. Qed.
Lemma count_nil {A} `{EqDecision A} (x : A) : count x [] = 0. Proof. done. Qed.
Lemma count_one {A} `{EqDecision A} (x y : A) : count x [y] = if decide (y = x) then 1 else 0.
Proof. unfold count. rewrite filter_cons, filter_nil. by case_decide. Qed.
Lemma count_none {A} `{EqDecision A} (x : A) l : x ∉ l -> count x l = 0.
Proof. intros H. unfold count. induction l as [|y l IH]; [done|]. rewrite filter_cons. case_decide as E; [subst; exfalso; apply H; left|]. apply IH. intros Hx. apply H. by right. Qed.

Definition about (e : sev) : nat := match e with EStarted i _ _ | EStopCall i | EStopRet i | EBegin i | EFinish i => i end.
(** The invariant: what the log says about task i, whose thread is t. *)
Definition pending (t : sthr) : nat := match th_pc t with TSleep => 1 | _ => 0 end.
Record TI (i : nat) (t : sthr) (log : list sev) : Prop := {
  ti_once : th_repeat t = false -> count (EBegin i) log + pending t <= 1 /\ (th_pc t = TCheck -> count (EBegin i) log = 0);
  ti_run : th_running t = true <-> EStopCall i ∉ log;
  ti_ret : forall l1 l2, log = l1 ++ EStopRet i :: l2 -> th_pc t = TEnd /\ EBegin i ∉ l2 /\ EFinish i ∉ l2;
  ti_call : forall l1 l2, log = l1 ++ EStopCall i :: l2 -> count (EBegin i) l2 + pending t <= 1
}.
Lemma ti_other i t log e : about e <> i -> TI i t log -> TI i t (log ++ [e]).
Proof.
  intros He [T1 T2 T3 T4]. constructor.
  - intros Hr. destruct (T1 Hr) as [H1 H2]. rewrite count_app, count_one. rewrite decide_False by (intros ->; done). rewrite Nat.add_0_r. auto.
  - rewrite T2, elem_of_app, elem_of_list_singleton. split; [|tauto]. intros H [H'|H']; [done|subst e; done].
  - intros l1 l2 H. apply snoc_decomp in H as [(_ & _ & Hx)|(l2' & -> & ->)]; [subst e; by cbn in He|]. destruct (T3 l1 l2' eq_refl) as (H1 & H2 & H3). split_and!; [done|rewrite elem_of_app, elem_of_list_singleton; intros [|<-]; done|rewrite elem_of_app, elem_of_list_singleton; intros [|<-]; done].
  - intros l1 l2 H. apply snoc_decomp in H as [(_ & _ & Hx)|(l2' & -> & ->)]; [subst e; by cbn in He|]. rewrite count_app, count_one, decide_False by (intros ->; done). specialize (T4 l1 l2' eq_refl). lia.
Qed.
Lemma ti_thr i t log : TI i t log -> TI i (thr_step i t).1 (log ++ (thr_step i t).2).
Proof.
  intros T. pose proof T as [T1 T2 T3 T4]. destruct t as [rep run pc]. unfold thr_step, pending in *. cbn [th_repeat th_running th_pc] in *.
  destruct pc; cbn [fst snd]; rewrite ?app_nil_r.
  - constructor; unfold pending; cbn [th_repeat th_running th_pc].
    + intros Hr. destruct (T1 Hr) as [H1 H2]. rewrite H2 by done. destruct run; split; (lia || done).
    + done.
    + intros l1 l2 H. destruct (T3 l1 l2 H) as (H1 & _). done.
    + intros l1 l2 H. specialize (T4 l1 l2 H). destruct run; [|lia]. exfalso. apply (proj1 T2 eq_refl). rewrite H. apply elem_of_app. right. left.
  - constructor; unfold pending; cbn [th_repeat th_running th_pc].
    + intros Hr. destruct (T1 Hr) as [H1 H2]. rewrite count_app, count_one, decide_True by done. split; [lia|done].
    + rewrite T2, elem_of_app, elem_of_list_singleton. split; [intros H [H'|H']; done|tauto].
    + intros l1 l2 H. apply snoc_decomp in H as [(_ & _ & H)|(l2' & -> & ->)]; [done|]. destruct (T3 l1 l2' eq_refl) as (H1 & _). done.
    + intros l1 l2 H. apply snoc_decomp in H as [(_ & _ & H)|(l2' & -> & ->)]; [done|]. rewrite count_app, count_one, decide_True by done. specialize (T4 l1 l2' eq_refl). lia.
  - constructor; unfold pending; cbn [th_repeat th_running th_pc].
    + intros Hr. destruct (T1 Hr) as [H1 H2]. rewrite count_app, count_one, decide_False by done. rewrite Hr. split; [lia|done].
    + rewrite T2, elem_of_app, elem_of_list_singleton. split; [intros H [H'|H']; done|tauto].
    + intros l1 l2 H. apply snoc_decomp in H as [(_ & _ & H)|(l2' & -> & ->)]; [done|]. destruct (T3 l1 l2' eq_refl) as (H1 & _). done.
    + intros l1 l2 H. apply snoc_decomp in H as [(_ & _ & H)|(l2' & -> & ->)]; [done|]. rewrite count_app, count_one, decide_False by done. specialize (T4 l1 l2' eq_refl). destruct rep; lia.
  - done.
Qed.
Record SInv (s : sst) : Prop := {
  si_thr : forall i t, s_thr s !! i = Some t -> TI i t (s_log s);
  si_about : forall e, e ∈ s_log s -> about e < length (s_thr s);
  si_started : forall i n r, EStarted i n r ∈ s_log s -> exists t, s_thr s !! i = Some t /\ th_repeat t = r;
  si_map : forall n i, s_map s !! n = Some i -> exists t, s_thr s !! i = Some t /\ (s_join s <> Some (i, n) -> th_running t = true);
  si_inj : forall n n' i, s_map s !! n = Some i -> s_map s !! n' = Some i -> n = n';
  si_join : forall i n, s_join s = Some (i, n) -> s_map s !! n = Some i /\ exists t, s_thr s !! i = Some t /\ th_running t = false
}.
Lemma thr_step_keeps i t : th_repeat (thr_step i t).1 = th_repeat t /\ th_running (thr_step i t).1 = th_running t.
Proof. unfold thr_step. by destruct (th_pc t). Qed.
Lemma thr_step_about i t e : e ∈ (thr_step i t).2 -> about e = i /\ forall j n r, e <> EStarted j n r.
Proof. unfold thr_step. destruct (th_pc t); cbn; rewrite ?elem_of_list_singleton; try (by intros H%elem_of_nil); by intros ->. Qed.
Lemma ti_others i t log ev : (forall e, e ∈ ev -> about e <> i) -> TI i t log -> TI i t (log ++ ev).
Proof.
  revert log. induction ev as [|e ev IH]; intros log H T; [by rewrite app_nil_r|]. replace (log ++ e :: ev) with ((log ++ [e]) ++ ev) by (by rewrite <-app_assoc). apply IH; [intros x Hx; apply H; by right|]. apply ti_other; [apply H; left|done].
Qed.
Lemma si_step s a : SInv s -> SInv (s_step s a).
Proof.
  intros I. pose proof I as [I1 I2 I3 I4 I5 I6]. destruct s as [thr map calls join log term]. cbn [s_thr s_map s_calls s_join s_log s_terminated] in *. unfold s_step. destruct term; [done|]. destruct a as [|i].
  - destruct join as [[i name]|].
    + destruct (thr !! i) as [[rep run pc]|] eqn:Et; [|done]. destruct pc; try done. destruct (I6 i name eq_refl) as (Hm & t & Ht & Hrun). rewrite Et in Ht. injection Ht as <-. cbn in Hrun. subst run. constructor; cbn [s_thr s_map s_calls s_join s_log s_terminated].
      * intros j t Hj. specialize (I1 j t Hj). destruct (decide (j = i)) as [->|Hne]; [|apply ti_other; [cbn; congruence|done]]. rewrite Et in Hj. injection Hj as <-. destruct I1 as [T1 T2 T3 T4]. constructor; cbn [th_repeat th_running th_pc] in *; unfold pending in *; cbn [th_pc] in *.
        -- intros Hr. rewrite count_app, count_one, decide_False by done. destruct (T1 Hr). split; [lia|done].
        -- rewrite T2, elem_of_app, elem_of_list_singleton. split; [intros H [H'|H']; done|tauto].
        -- intros l1 l2 H. split; [done|]. apply snoc_decomp in H as [(-> & -> & _)|(l2' & -> & ->)]; [split; apply not_elem_of_nil|]. destruct (T3 l1 l2' eq_refl) as (_ & H1 & H2). rewrite !elem_of_app, !elem_of_list_singleton. split; intros [|]; done.
        -- intros l1 l2 H. apply snoc_decomp in H as [(_ & _ & H)|(l2' & -> & ->)]; [done|]. rewrite count_app, count_one, decide_False by done. specialize (T4 l1 l2' eq_refl). lia.
      * intros e. rewrite elem_of_app, elem_of_list_singleton. intros [H| ->]; [by apply I2|]. cbn. by eapply lookup_lt_Some.
      * intros j n r. rewrite elem_of_app, elem_of_list_singleton. intros [H|H]; [by apply (I3 j n)|done].
      * intros n j H. apply lookup_delete_Some in H as [Hn H]. destruct (I4 n j H) as (t & H1 & H2). exists t. split; [done|]. intros _. apply H2. intros [= _ ->]. done.
      * intros n n' j H H'. apply lookup_delete_Some in H as [_ H]. apply lookup_delete_Some in H' as [_ H']. by eapply I5.
      * done.
    + destruct calls as [|[name rep|name|] rest]; [done| | |].
      * destruct (map !! name) as [k|] eqn:Em; [by constructor|]. constructor; cbn [s_thr s_map s_calls s_join s_log s_terminated].
        -- intros j t Hj. destruct (decide (j = length thr)) as [->|Hne].
           ++ rewrite lookup_app_r in Hj by lia. rewrite Nat.sub_diag in Hj. injection Hj as <-.
              assert (Hno : forall e, e ∈ log -> about e <> length thr) by (intros e H; specialize (I2 e H); lia).
              constructor; unfold pending; cbn [th_repeat th_running th_pc].
              ** intros _. rewrite count_app, count_one, decide_False by done. rewrite count_none; [split; [lia|done]|]. intros H. by apply (Hno _ H).
              ** split; [|done]. intros _ H. apply elem_of_app in H as [H|H%elem_of_list_singleton]; [by apply (Hno _ H)|done].
              ** intros l1 l2 H. exfalso. apply snoc_decomp in H as [(_ & _ & H)|(l2' & _ & H)]; [done|]. apply (Hno (EStopRet (length thr))); [rewrite H; apply elem_of_app; right; left|done].
              ** intros l1 l2 H. exfalso. apply snoc_decomp in H as [(_ & _ & H)|(l2' & _ & H)]; [done|]. apply (Hno (EStopCall (length thr))); [rewrite H; apply elem_of_app; right; left|done].
           ++ assert (Hj' : thr !! j = Some t). { apply lookup_app_Some in Hj as [Hj|[Hge Hj]]; [done|]. apply list_lookup_singleton_Some in Hj as [Hj _]. lia. }
              apply ti_other; [cbn; congruence|by apply I1].
        -- intros e. rewrite elem_of_app, elem_of_list_singleton, app_length. cbn. intros [H| ->]; [specialize (I2 e H); lia|cbn; lia].
        -- intros j n r. rewrite elem_of_app, elem_of_list_singleton. intros [H|H].
           ++ destruct (I3 j n r H) as (t & H1 & H2). exists t. split; [|done]. rewrite lookup_app_l; [done|]. by eapply lookup_lt_Some.
           ++ injection H as -> -> ->. eexists. split; [apply list_lookup_middle; done|done].
        -- intros n j H. apply lookup_insert_Some in H as [[<- <-]|[Hn H]].
           ++ eexists. split; [apply list_lookup_middle; done|done].
           ++ destruct (I4 n j H) as (t & H1 & H2). exists t. split; [|done]. rewrite lookup_app_l; [done|]. by eapply lookup_lt_Some.
        -- assert (Hlt : forall n j, map !! n = Some j -> j < length thr) by (intros n j H; destruct (I4 n j H) as (t & H1 & _); by eapply lookup_lt_Some).
           intros n n' j H H'. apply lookup_insert_Some in H as [[<- <-]|[Hn H]]; apply lookup_insert_Some in H' as [[<- Hj]|[Hn' H']]; [done|apply Hlt in H'; lia|subst j; apply Hlt in H; lia|by eapply I5].
        -- done.
      * destruct (map !! name) as [k|] eqn:Em; [|by constructor]. destruct (I4 name k Em) as (tk & Hk & Hrun). specialize (Hrun ltac:(done)).
        assert (Hl : forall j, alter (fun t : sthr => SThr (th_repeat t) false (th_pc t)) k thr !! j = if decide (j = k) then Some (SThr (th_repeat tk) false (th_pc tk)) else thr !! j).
        { intros j. case_decide as Hj; [subst j; by rewrite list_lookup_alter, Hk|by rewrite list_lookup_alter_ne]. }
        constructor; cbn [s_thr s_map s_calls s_join s_log s_terminated].
        -- intros j t. rewrite Hl. case_decide as Hj; [subst j; intros [= <-]|intros Ht; apply ti_other; [cbn; congruence|by apply I1]].
           destruct (I1 k tk Hk) as [T1 T2 T3 T4]. constructor; unfold pending in *; cbn [th_repeat th_running th_pc].
           ++ intros Hr. rewrite count_app, count_one, decide_False by done. destruct (T1 Hr) as [A B]. split; [lia|]. intros Hp. rewrite B by done. lia.
           ++ split; [done|]. intros H. exfalso. apply H, elem_of_app. right. left.
           ++ intros l1 l2 H. apply snoc_decomp in H as [(_ & _ & H)|(l2' & -> & ->)]; [done|]. destruct (T3 l1 l2' eq_refl) as (A & B & C). split_and!; [done|rewrite elem_of_app, elem_of_list_singleton; intros [|]; done|rewrite elem_of_app, elem_of_list_singleton; intros [|]; done].
           ++ intros l1 l2 H. apply snoc_decomp in H as [(-> & _ & _)|(l2' & -> & ->)].
              ** rewrite count_nil. destruct (th_pc tk); lia.
              ** rewrite count_app, count_one, decide_False by done. specialize (T4 l1 l2' eq_refl). lia.
        -- intros e. rewrite alter_length, elem_of_app, elem_of_list_singleton. intros [H| ->]; [by apply I2|]. cbn. by eapply lookup_lt_Some.
        -- intros j n r. rewrite elem_of_app, elem_of_list_singleton. intros [H|H]; [|done]. destruct (I3 j n r H) as (t & H1 & H2). rewrite Hl. case_decide as Hj; [|by exists t]. subst j. rewrite Hk in H1. injection H1 as <-. by eexists.
        -- intros n j H. destruct (I4 n j H) as (t & H1 & H2). rewrite Hl. case_decide as Hj; [|exists t; split; [done|intros _; by apply H2]]. subst j. eexists. split; [done|]. intros Hne. exfalso. apply Hne. do 2 f_equal. by eapply I5.
        -- done.
        -- intros j n [= <- <-]. split; [done|]. rewrite Hl, decide_True by done. by eexists.
      * by constructor.
  - destruct (thr !! i) as [t|] eqn:Et; [|done]. pose proof (ti_thr i t log (I1 i t Et)) as HT. destruct (thr_step_keeps i t) as [K1 K2]. pose proof (thr_step_about i t) as Hab.
    destruct (thr_step i t) as [t' ev]. cbn [fst snd] in *. constructor; cbn [s_thr s_map s_calls s_join s_log s_terminated].
    + intros j tj Hj. destruct (decide (j = i)) as [->|Hne].
      * rewrite list_lookup_insert in Hj by (by eapply lookup_lt_Some). injection Hj as <-. done.
      * rewrite list_lookup_insert_ne in Hj by done. apply ti_others; [|by apply I1]. intros e He. destruct (Hab e He) as [-> _]. done.
    + intros e. rewrite insert_length, elem_of_app. intros [H|H]; [by apply I2|]. destruct (Hab e H) as [-> _]. by eapply lookup_lt_Some.
    + intros j n r. rewrite elem_of_app. intros [H|H]; [|destruct (Hab _ H) as [_ Hn]; by destruct (Hn j n r)]. destruct (I3 j n r H) as (tj & H1 & H2). destruct (decide (j = i)) as [->|Hne].
      * rewrite list_lookup_insert by (by eapply lookup_lt_Some). exists t'. split; [done|]. congruence.
      * rewrite list_lookup_insert_ne by done. by exists tj.
    + intros n j H. destruct (I4 n j H) as (tj & H1 & H2). destruct (decide (j = i)) as [->|Hne].
      * rewrite list_lookup_insert by (by eapply lookup_lt_Some). exists t'. split; [done|]. intros Hj. rewrite K2. rewrite Et in H1. injection H1 as <-. auto.
      * rewrite list_lookup_insert_ne by done. by exists tj.
    + done.
    + intros j n H. destruct (I6 j n H) as (H1 & tj & H2 & H3). split; [done|]. destruct (decide (j = i)) as [->|Hne].
      * rewrite list_lookup_insert by (by eapply lookup_lt_Some). exists t'. split; [done|]. congruence.
      * rewrite list_lookup_insert_ne by done. by exists tj.
Qed.
Lemma si_run calls sched : SInv (s_run calls sched).
Proof.
  unfold s_run. assert (H0 : SInv (s_new calls)) by (constructor; cbn; try done; intros; by apply elem_of_nil in H || set_solver).
  revert H0. generalize (s_new calls) as s. induction sched as [|a sched IH]; intros s H; [done|]. apply IH. by apply si_step.
Qed.

(** ** C47, C76 *)
(** A one-shot task is executed at most once, under every schedule. *)
Theorem C76_one_shot_at_most_once calls sched i name : EStarted i name false ∈ s_log (s_run calls sched) -> count (EBegin i) (s_log (s_run calls sched)) <= 1.
Proof. intros H. destruct (si_run calls sched) as [I1 I2 I3 _ _ _]. destruct (I3 _ _ _ H) as (t & Ht & Hr). destruct (ti_once _ _ _ (I1 i t Ht) Hr). lia. Qed.
(** Once stopScheduledTask has returned the task is neither begun again nor still in progress. *)
Theorem C76_stop_is_final calls sched i l1 l2 : s_log (s_run calls sched) = l1 ++ EStopRet i :: l2 -> EBegin i ∉ l2 /\ EFinish i ∉ l2.
Proof.
  intros H. destruct (si_run calls sched) as [I1 I2 _ _ _ _]. assert (Hi : i < length (s_thr (s_run calls sched))). { apply (I2 (EStopRet i)). rewrite H. apply elem_of_app. right. left. }
  apply lookup_lt_is_Some in Hi as [t Ht]. by destruct (ti_ret _ _ _ (I1 i t Ht) l1 l2 H).
Qed.
(** From the call of stop on at most one more execution begins. *)
Theorem C76_at_most_one_after_stop calls sched i l1 l2 : s_log (s_run calls sched) = l1 ++ EStopCall i :: l2 -> count (EBegin i) l2 <= 1.
Proof.
  intros H. destruct (si_run calls sched) as [I1 I2 _ _ _ _]. assert (Hi : i < length (s_thr (s_run calls sched))). { apply (I2 (EStopCall i)). rewrite H. apply elem_of_app. right. left. }
  apply lookup_lt_is_Some in Hi as [t Ht]. pose proof (ti_call _ _ _ (I1 i t Ht) l1 l2 H). lia.
Qed.
(** A program that starts a task only under a name not in use (not started, or stopped since) and stops all tasks before it destroys the scheduler: *)
Fixpoint in_use_ok (used : gset string) (calls : list scall) : Prop :=
  match calls with
  | [] => True
  | SStart name _ :: rest => name ∉ used /\ in_use_ok ({[name]} ∪ used) rest
  | SStop name :: rest => in_use_ok (used ∖ {[name]}) rest
  | SDestroy :: rest => used = ∅ /\ in_use_ok used rest
  end.
Definition used_of (s : sst) : gset string := dom (s_map s) ∖ (match s_join s with Some (_, n) => {[n]} | None => ∅ end).
Theorem C76_not_terminated calls sched : in_use_ok ∅ calls -> s_terminated (s_run calls sched) = false.
Proof.
  intros H. assert (G : s_terminated (s_run calls sched) = false /\ exists u, u ≡ used_of (s_run calls sched) /\ in_use_ok u (s_calls (s_run calls sched))); [|apply G].
  induction sched as [|a sched IH] using rev_ind; [split; [done|]; exists ∅; split; [unfold used_of; cbn; set_solver|done]|].
  pose proof (si_run calls sched) as [_ _ _ I4 I5 I6]. unfold s_run in *. rewrite fold_left_app. cbn [fold_left]. set (s := fold_left _ sched _) in *. destruct s as [thr map cl join log term]. cbn [s_thr s_map s_calls s_join s_log s_terminated] in *.
  destruct IH as (-> & u & Hu & Hin). unfold used_of in *. cbn [s_map s_join s_step] in *. destruct a as [|i].
  - destruct join as [[i name]|].
    + destruct (thr !! i) as [[rep run pc]|]; [|split; [done|]; by exists u]. destruct pc; try (split; [done|]; by exists u). cbn [s_map s_join s_calls s_terminated]. split; [done|]. exists u. split; [|done]. rewrite dom_delete. set_solver.
    + destruct cl as [|[name rep|name|] rest]; cbn [s_terminated s_calls s_map s_join]; [split; [done|]; by exists u| | |].
      * cbn [in_use_ok] in Hin. destruct Hin as [Hn Hin]. destruct (map !! name) as [k|] eqn:Em.
        -- exfalso. apply Hn. apply Hu. apply elem_of_difference. split; [by apply elem_of_dom|apply not_elem_of_empty].
        -- split; [done|]. exists ({[name]} ∪ u). split; [|done]. cbn [s_map s_join]. rewrite dom_insert. set_solver.
      * cbn [in_use_ok] in Hin. destruct (map !! name) as [k|] eqn:Em.
        -- split; [done|]. exists (u ∖ {[name]}). split; [|done]. cbn [s_map s_join]. set_solver.
        -- split; [done|]. exists (u ∖ {[name]}). split; [|done]. cbn [s_map s_join]. apply not_elem_of_dom in Em. set_solver.
      * cbn [in_use_ok] in Hin. destruct Hin as [He Hin]. assert (Hm : map = ∅). { apply dom_empty_iff_L. apply leibniz_equiv. rewrite He in Hu. set_solver. }
        rewrite (decide_True (P := map = ∅)) by done. split; [done|]. by exists u.
  - destruct (thr !! i); [|split; [done|]; by exists u]. destruct (thr_step i s) as [t' ev]. split; [done|]. by exists u.
Qed.
(** A call of stop returns: three steps of the task's thread are enough, whatever else runs. *)
Theorem C76_stop_returns calls sched sched' i name : s_join (s_run calls sched) = Some (i, name) -> SMain ∉ sched' -> 3 <= count (SRun i) sched' ->
  s_terminated (s_run calls sched) = false -> EStopRet i ∈ s_log (s_run calls (sched ++ sched' ++ [SMain])).
Proof.
  intros Hj Hm Hc Hterm. destruct (si_run calls sched) as [I1 _ _ _ _ I6]. destruct (I6 i name Hj) as (_ & t & Ht & Hrun).
  unfold s_run in *. rewrite !fold_left_app. cbn [fold_left]. set (s := fold_left s_step sched _) in *.
  set (rank := fun t : sthr => match th_pc t with TCheck => 1 | TSleep => 3 | TTask => 2 | TEnd => 0 end).
  assert (G : forall l s t, SMain ∉ l -> s_join s = Some (i, name) -> s_thr s !! i = Some t -> th_running t = false -> s_terminated s = false -> rank t <= count (SRun i) l ->
    let s' := fold_left s_step l s in s_join s' = Some (i, name) /\ s_terminated s' = false /\ exists t', s_thr s' !! i = Some t' /\ th_pc t' = TEnd).
  { clear. induction l as [|a l IH]; intros s t Hm Hj Ht Hr Hterm Hc.
    - cbn. split_and!; try done. exists t. split; [done|]. rewrite count_nil in Hc. unfold rank in Hc. destruct (th_pc t); [lia|lia|lia|done].
    - destruct a as [|k]; [exfalso; apply Hm; left|]. cbn [fold_left]. destruct s as [thr map cl join log term]. cbn [s_thr s_join s_terminated] in *. subst join term. cbn [s_step].
      change (SRun k :: l) with ([SRun k] ++ l) in Hc. rewrite count_app, count_one in Hc. assert (Hm' : SMain ∉ l) by (intros H; apply Hm; by right).
      destruct (decide (k = i)) as [->|Hne].
      + rewrite decide_True in Hc by done. rewrite Ht. destruct (thr_step i t) as [t' ev] eqn:Es. apply (IH _ t'); cbn [s_thr s_join s_terminated]; try done.
        * apply list_lookup_insert. by eapply lookup_lt_Some.
        * pose proof (thr_step_keeps i t) as [_ K]. rewrite Es in K. cbn in K. congruence.
        * unfold thr_step in Es. unfold rank in *. rewrite Hr in Es. destruct (th_pc t) eqn:Ep; injection Es as <- <-; cbn; try lia; [destruct (th_repeat t); lia|rewrite Ep; lia].
      + rewrite decide_False in Hc by congruence. destruct (thr !! k) as [tk|] eqn:Ek; [|apply (IH _ t); done]. destruct (thr_step k tk) as [t' ev]. apply (IH _ t); cbn [s_thr s_join s_terminated]; try done. by rewrite list_lookup_insert_ne. }
  destruct (G sched' s t Hm Hj Ht Hrun Hterm) as (G1 & G2 & t' & G3 & G4); [unfold rank; destruct (th_pc t); lia|].
  destruct (fold_left s_step sched' s) as [thr map cl join log term]. cbn [s_join s_terminated s_thr] in *. subst join term. cbn [s_step]. rewrite G3. destruct t' as [r rn pc]. cbn in G4. subst pc. cbn [s_log]. apply elem_of_app. right. left.
Qed.
(** A repeated task that is not stopped is executed again and again: at least once in three steps of its thread. *)
Theorem C76_repeats calls pre post i name : EStarted i name true ∈ s_log (s_run calls pre) -> EStopCall i ∉ s_log (s_run calls (pre ++ post)) -> s_terminated (s_run calls (pre ++ post)) = false ->
  count (SRun i) post <= 3 * (count (EBegin i) (s_log (s_run calls (pre ++ post))) - count (EBegin i) (s_log (s_run calls pre))) + 2.
Proof.
  intros Hs Hn Hterm.
  set (off := fun t : sthr => match th_pc t with TCheck => 1 | TSleep => 2 | TTask => 0 | TEnd => 0 end).
  assert (Hlog : forall s a, exists ev, s_log (s_step s a) = s_log s ++ ev).
  { clear. intros s a. destruct s as [thr map cl join log term]. cbn [s_step s_log]. destruct term; [exists []; by rewrite app_nil_r|]. destruct a as [|k].
    - destruct join as [[k n]|]; [destruct (thr !! k) as [[? ? []]|]; try (exists []; by rewrite app_nil_r); by eexists|]. destruct cl as [|[n r|n|] cl]; try (exists []; by rewrite app_nil_r); destruct (map !! n); try (exists []; by rewrite app_nil_r); by eexists.
    - destruct (thr !! k) as [t|]; [|exists []; by rewrite app_nil_r]. destruct (thr_step k t). by eexists. }
  assert (G : exists t t0, s_thr (s_run calls pre) !! i = Some t0 /\ s_thr (s_run calls (pre ++ post)) !! i = Some t /\ th_repeat t = true /\ th_running t = true /\ th_pc t <> TEnd /\
    count (EBegin i) (s_log (s_run calls pre)) <= count (EBegin i) (s_log (s_run calls (pre ++ post))) /\
    count (SRun i) post + off t0 = 3 * (count (EBegin i) (s_log (s_run calls (pre ++ post))) - count (EBegin i) (s_log (s_run calls pre))) + off t).
  2:{ destruct G as (t & t0 & _ & _ & _ & _ & _ & _ & G). unfold off in G. destruct (th_pc t), (th_pc t0); lia. }
  induction post as [|a post IH] using rev_ind.
  - rewrite app_nil_r in *. destruct (si_run calls pre) as [I1 _ I3 _ _ _]. destruct (I3 _ _ _ Hs) as (t & Ht & Hr). exists t, t. split_and!; try done; [by apply (ti_run _ _ _ (I1 i t Ht))| |rewrite count_nil; lia].
    (* a running repeated task is not at its end *)
    assert (E : forall sched t, s_thr (s_run calls sched) !! i = Some t -> th_repeat t = true -> th_running t = true -> th_pc t <> TEnd); [|by apply (E pre); [..|apply (ti_run _ _ _ (I1 i t Ht))]].
    clear. induction sched as [|a sched IH] using rev_ind; [done|]. intros t. unfold s_run. rewrite fold_left_app. cbn [fold_left]. fold (s_run calls sched). set (s := s_run calls sched) in *. destruct s as [thr map cl join log term]. cbn [s_thr s_step] in *.
    destruct term; [apply IH|]. destruct a as [|k].
    + destruct join as [[k n]|]; [destruct (thr !! k) as [[? ? []]|]; apply IH|]. destruct cl as [|[n r|n|] cl]; try apply IH.
      * destruct (map !! n); [apply IH|]. cbn [s_thr]. intros H. apply lookup_app_Some in H as [H|[_ H]]; [by apply IH|]. apply list_lookup_singleton_Some in H as [_ <-]. done.
      * destruct (map !! n) as [k|]; [|apply IH]. cbn [s_thr]. destruct (decide (k = i)) as [->|Hne]; [|rewrite list_lookup_alter_ne by done; apply IH]. rewrite list_lookup_alter. destruct (thr !! i); [|done]. by intros [= <-].
    + destruct (thr !! k) as [tk|] eqn:Ek; [|apply IH]. destruct (thr_step k tk) as [t' ev] eqn:Es. cbn [s_thr]. destruct (decide (k = i)) as [->|Hne]; [|rewrite list_lookup_insert_ne by done; apply IH].
      rewrite list_lookup_insert by (by eapply lookup_lt_Some). intros [= ->] Hr Hrun. pose proof (thr_step_keeps i tk) as [K1 K2]. rewrite Es in K1, K2. cbn in K1, K2. specialize (IH tk Ek ltac:(congruence) ltac:(congruence)).
      unfold thr_step in Es. destruct (th_pc tk) eqn:Ep; [injection Es as <- <-..|done]; cbn in *; [by rewrite Hrun|done|by rewrite Hr].
  - rewrite app_assoc in *. assert (Hr1 : s_run calls ((pre ++ post) ++ [a]) = s_step (s_run calls (pre ++ post)) a) by (unfold s_run; by rewrite fold_left_app). rewrite Hr1 in *.
    destruct (Hlog (s_run calls (pre ++ post)) a) as [ev0 Hev0].
    destruct IH as (t & t0 & G1 & G2 & G3 & G4 & G5 & G6 & G7).
    { intros H. apply Hn. rewrite Hev0. apply elem_of_app. by left. }
    { clear -Hterm. destruct (s_run calls (pre ++ post)) as [? ? ? ? ? []]; [exact Hterm|reflexivity]. }
    rewrite count_app. set (s := s_run calls (pre ++ post)) in *. destruct s as [thr map cl join log term]. cbn [s_thr s_log s_terminated] in *. cbn [s_step] in *. destruct term; [done|]. destruct a as [|k].
    + rewrite count_one, (decide_False (P := SMain = SRun i)) by done. rewrite Nat.add_0_r. destruct join as [[k n]|].
      * destruct (thr !! k) as [[? ? []]|]; cbn [s_thr s_log] in *; exists t, t0; split_and!; try done; rewrite count_app, count_one, decide_False by done; lia.
      * destruct cl as [|[n r|n|] cl]; cbn [s_thr s_log] in *; try (exists t, t0; split_and!; done).
        -- destruct (map !! n); cbn [s_thr s_log] in *; exists t, t0; [split_and!; done|]. rewrite count_app, count_one, decide_False by done. split_and!; try done; try lia. rewrite lookup_app_l; [done|]. by eapply lookup_lt_Some.
        -- destruct (map !! n) as [k|]; cbn [s_thr s_log] in *; [|exists t, t0; split_and!; done]. exists t, t0. rewrite count_app, count_one, decide_False by done. split_and!; try done; try lia. rewrite list_lookup_alter_ne; [done|]. intros ->. apply Hn, elem_of_app. right. left.
    + rewrite count_one. destruct (thr !! k) as [tk|] eqn:Ek.
      2:{ exists t, t0. cbn [s_thr s_log]. split_and!; try done. rewrite decide_False; [lia|]. intros [= ->]. congruence. }
      destruct (decide (k = i)) as [->|Hne].
      * rewrite decide_True by done. rewrite G2 in Ek. injection Ek as <-. pose proof (thr_step_keeps i t) as [K1 K2]. destruct (thr_step i t) as [t' ev] eqn:Es. cbn [fst snd s_thr s_log] in *. exists t', t0. rewrite list_lookup_insert by (by eapply lookup_lt_Some). rewrite count_app.
        unfold thr_step in Es. unfold off in *. rewrite G4, G3 in Es. destruct (th_pc t) eqn:Ep; [injection Es as <- <-..|done]; cbn [th_pc th_repeat th_running]; rewrite ?count_nil, ?count_one; repeat first [rewrite decide_True by done|rewrite decide_False by done]; split_and!; try done; lia.
      * rewrite decide_False by congruence. pose proof (thr_step_about k tk) as Hab. destruct (thr_step k tk) as [t' ev]. cbn [fst snd s_thr s_log] in *. exists t, t0. rewrite list_lookup_insert_ne by done. rewrite count_app.
        rewrite (count_none (EBegin i) ev); [split_and!; try done; lia|]. intros H. destruct (Hab _ H) as [Hx _]. cbn in Hx. congruence.
Qed.
(** What the claim says more is false: a one-shot task stopped before its delay is over is executed nevertheless (the flag is tested before the sleep only); *)
Theorem C47_stopped_in_time_refuted : exists calls sched l1 l2, s_log (s_run calls sched) = l1 ++ EStopCall 0 :: l2 /\ EStarted 0 "t" false ∈ l1 /\ EBegin 0 ∉ l1 /\ EBegin 0 ∈ l2.
Proof.
  exists [SStart "t" false; SStop "t"], [SMain; SRun 0; SMain; SRun 0; SRun 0; SMain], [EStarted 0 "t" false], [EBegin 0; EFinish 0; EStopRet 0]. split; [reflexivity|]. split; [left|]. split; [|left].
  intros H%elem_of_list_singleton. discriminate.
Qed.
(** (A thread that has not tested the flag when it is lowered never executes its task.) *)
Lemma stopped_at_check calls sched i t : s_thr (s_run calls sched) !! i = Some t -> th_pc t = TCheck -> th_running t = false -> forall sched', count (EBegin i) (s_log (s_run calls (sched ++ sched'))) = count (EBegin i) (s_log (s_run calls sched)).
Proof.
  intros Ht Hp Hr sched'. unfold s_run. rewrite fold_left_app. fold (s_run calls sched). set (s := s_run calls sched) in *. clearbody s.
  assert (Hp' : th_pc t = TCheck \/ th_pc t = TEnd) by auto. clear Hp. revert s t Ht Hp' Hr. induction sched' as [|a l IH]; intros s t Ht Hp Hr; [done|]. cbn [fold_left].
  assert (G : exists t', s_thr (s_step s a) !! i = Some t' /\ (th_pc t' = TCheck \/ th_pc t' = TEnd) /\ th_running t' = false /\ count (EBegin i) (s_log (s_step s a)) = count (EBegin i) (s_log s)).
  2:{ destruct G as (t' & G1 & G2 & G3 & <-). by apply (IH _ t'). }
  destruct s as [thr map cl join log term]. cbn [s_thr s_log] in *. cbn [s_step]. destruct term; [by exists t|]. destruct a as [|k].
  - destruct join as [[k n]|].
    + destruct (thr !! k) as [[? ? []]|]; cbn [s_thr s_log]; exists t; split_and!; try done. rewrite count_app, count_one, decide_False by done. lia.
    + destruct cl as [|[n r|n|] cl]; cbn [s_thr s_log]; try (exists t; split_and!; done).
      * destruct (map !! n); cbn [s_thr s_log]; exists t; [done|]. rewrite count_app, count_one, decide_False by done. split_and!; try done; try lia. rewrite lookup_app_l; [done|]. by eapply lookup_lt_Some.
      * destruct (map !! n) as [k|]; cbn [s_thr s_log]; [|by exists t]. rewrite count_app, count_one, decide_False by done. destruct (decide (k = i)) as [->|Hne].
        -- exists (SThr (th_repeat t) false (th_pc t)). rewrite list_lookup_alter, Ht. split_and!; (lia || done || auto).
        -- exists t. rewrite list_lookup_alter_ne by done. split_and!; (lia || done || auto).
  - destruct (thr !! k) as [tk|] eqn:Ek; [|by exists t]. destruct (decide (k = i)) as [->|Hne].
    + rewrite Ht in Ek. injection Ek as <-. unfold thr_step. destruct Hp as [Hp|Hp]; rewrite Hp; cbn [s_thr s_log]; rewrite app_nil_r; rewrite list_lookup_insert by (by eapply lookup_lt_Some); eexists; (split; [done|]); cbn; rewrite ?Hr; auto.
    + pose proof (thr_step_about k tk) as Hab. destruct (thr_step k tk) as [t' ev]. cbn [fst snd s_thr s_log] in *. exists t. rewrite list_lookup_insert_ne by done. rewrite count_app, (count_none _ ev); [split_and!; try done; lia|]. intros H. destruct (Hab _ H) as [Hx _]. cbn in Hx. congruence.
Qed.
(** it is not executed if the stop is called before its thread has run at all; *)
Theorem C47_stopped_at_once calls sched i : SRun i ∉ sched -> EStopCall i ∈ s_log (s_run calls sched) -> forall sched', EBegin i ∉ s_log (s_run calls (sched ++ sched')).
Proof.
  intros Hs Hc sched'. destruct (si_run calls sched) as [I1 I2 _ _ _ _]. pose proof (I2 _ Hc) as Hi. cbn in Hi. apply lookup_lt_is_Some in Hi as [t Ht].
  assert (G : forall l, SRun i ∉ l -> EBegin i ∉ s_log (s_run calls l) /\ forall t, s_thr (s_run calls l) !! i = Some t -> th_pc t = TCheck).
  { clear. induction l as [|a l IH] using rev_ind; [split; [apply not_elem_of_nil|done]|]. intros Hn. destruct IH as [IH1 IH2]; [intros H; apply Hn, elem_of_app; by left|].
    unfold s_run in *. rewrite fold_left_app. cbn [fold_left]. destruct (fold_left s_step l _) as [thr map cl join log term]. cbn [s_thr s_log s_step] in *. destruct term; [done|]. destruct a as [|k].
    - destruct join as [[k n]|].
      + destruct (thr !! k) as [[? ? []]|]; cbn [s_thr s_log]; try done. split; [|done]. rewrite elem_of_app, elem_of_list_singleton. intros [|]; done.
      + destruct cl as [|[n r|n|] cl]; cbn [s_thr s_log]; try done.
        * destruct (map !! n); cbn [s_thr s_log]; [done|]. split; [rewrite elem_of_app, elem_of_list_singleton; intros [|]; done|]. intros t H. apply lookup_app_Some in H as [H|[_ H]]; [by apply IH2|]. apply list_lookup_singleton_Some in H as [_ <-]. done.
        * destruct (map !! n) as [k|]; cbn [s_thr s_log]; [|done]. split; [rewrite elem_of_app, elem_of_list_singleton; intros [|]; done|]. intros t. destruct (decide (k = i)) as [->|Hne]; [|rewrite list_lookup_alter_ne by done; apply IH2].
          rewrite list_lookup_alter. destruct (thr !! i) as [ti|] eqn:Ei; [|done]. intros [= <-]. cbn. by apply IH2.
    - assert (Hki : k <> i) by (intros ->; apply Hn, elem_of_app; right; left). destruct (thr !! k) as [tk|] eqn:Ek; [|done]. pose proof (thr_step_about k tk) as Hab. destruct (thr_step k tk) as [t' ev]. cbn [fst snd s_thr s_log] in *. rewrite list_lookup_insert_ne by done. split; [|done].
      rewrite elem_of_app. intros [H|H]; [done|]. destruct (Hab _ H) as [Hx _]. cbn in Hx. congruence. }
  destruct (G sched Hs) as [G1 G2]. assert (Hr : th_running t = false). { destruct (th_running t) eqn:E; [|done]. by apply (ti_run _ _ _ (I1 i t Ht)) in E. }
  pose proof (stopped_at_check calls sched i t Ht (G2 t Ht) Hr sched') as H. rewrite (count_none _ _ G1) in H. intros Hin. unfold count in H. apply length_zero_iff_nil in H.
  apply (not_elem_of_nil (EBegin i)). rewrite <-H. by apply elem_of_list_filter.
Qed.
Example C47_at_once_case : EStopCall 0 ∈ s_log (s_run [SStart "t" false; SStop "t"] [SMain; SMain]). Proof. right; left. Qed.
(** and starting a task under a name that is in use, even that of a finished one-shot task, ends the program. *)
Theorem C47_name_in_use_refuted calls sched name rep rest : s_terminated (s_run calls sched) = false -> s_join (s_run calls sched) = None -> s_calls (s_run calls sched) = SStart name rep :: rest ->
  is_Some (s_map (s_run calls sched) !! name) -> s_terminated (s_run calls (sched ++ [SMain])) = true.
Proof. intros H1 H2 H3 [k H4]. unfold s_run in *. rewrite fold_left_app. cbn [fold_left]. destruct (fold_left s_step sched _) as [thr map cl join log term]. cbn [s_terminated s_join s_calls s_map] in *. subst. cbn. by rewrite H4. Qed.
Example C47_finished_name_case : let s := s_run [SStart "t" false; SStart "t" false] [SMain; SRun 0; SRun 0; SRun 0; SMain] in EFinish 0 ∈ s_log s /\ s_terminated s = true.
Proof. split; [right; right; left|reflexivity]. Qed.
(** ... and so does destroying the scheduler while a name is in use, even that of a one-shot task that has ended; otherwise its destruction is harmless. *)
Theorem C47_destroyed_in_use_refuted calls sched rest : s_terminated (s_run calls sched) = false -> s_join (s_run calls sched) = None -> s_calls (s_run calls sched) = SDestroy :: rest ->
  (s_terminated (s_run calls (sched ++ [SMain])) = true <-> exists name, is_Some (s_map (s_run calls sched) !! name)).
Proof.
  intros H1 H2 H3. unfold s_run in *. rewrite fold_left_app. cbn [fold_left]. destruct (fold_left s_step sched _) as [thr map cl join log term]. cbn [s_terminated s_join s_calls s_map] in *. subst. cbn [s_step s_terminated].
  destruct (decide (map = ∅)) as [->|Hm]; (split; [intros E|intros [nm E]]); try done.
  - rewrite lookup_empty in E. by destruct E.
  - apply map_choose in Hm as (nm & i & Hi). by exists nm, i.
Qed.
Example C47_destroyed_case : let s := s_run [SStart "t" false; SDestroy] [SMain; SRun 0; SRun 0; SRun 0] in EFinish 0 ∈ s_log s /\ s_terminated s = false /\ s_join s = None /\ s_calls s = [SDestroy] /\ is_Some (s_map s !! "t") /\
  s_terminated (s_run [SStart "t" false; SDestroy] [SMain; SRun 0; SRun 0; SRun 0; SMain]) = true.
Proof. split; [right; right; left|]. split_and!; done. Qed.
Print Assumptions C47_destroyed_in_use_refuted.
(** A disciplined program with a repeated and a one-shot task, and a name used again. *)
Definition sched_calls : list scall := [SStart "a" true; SStart "b" false; SStop "a"; SStart "a" true; SStop "b"; SStop "a"; SDestroy].
Definition sched_demo : list sact := [SMain; SRun 0; SRun 0; SMain; SRun 1; SRun 0; SRun 0; SRun 0; SMain; SRun 0; SRun 0; SMain; SMain; SRun 1; SRun 1; SMain; SMain; SRun 2; SMain; SRun 2; SRun 2; SRun 2; SMain; SMain].
Example C76_case : in_use_ok ∅ sched_calls /\ s_calls (s_run sched_calls sched_demo) = [] /\ count (EBegin 0) (s_log (s_run sched_calls sched_demo)) = 2 /\ EStopRet 2 ∈ s_log (s_run sched_calls sched_demo).
Proof. split; [cbn; set_solver|]. split; [reflexivity|]. split; [reflexivity|]. apply (bool_decide_unpack _). vm_compute. done. Qed.
Print Assumptions C76_one_shot_at_most_once.
Print Assumptions C76_stop_is_final.
Print Assumptions C76_at_most_one_after_stop.
Print Assumptions C76_not_terminated.
Print Assumptions C76_stop_returns.
Print Assumptions C76_repeats.
Print Assumptions C47_stopped_in_time_refuted.
Print Assumptions C47_stopped_at_once.
Print Assumptions C47_name_in_use_refuted.
