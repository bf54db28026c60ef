From stdpp Require Import prelude list_numbers.
From Verif Require Import SafeQueue_Model SafeQueue_Spec.

Definition cnt (st : status) (thr : list qthread) : nat := length (filter (fun th => th_st th = st) thr).
Definition ind (st : status) (th : qthread) : nat := if decide (th_st th = st) then 1 else 0.
Lemma cnt_cons st th thr : cnt st (th :: thr) = ind st th + cnt st thr.
Proof. unfold cnt, ind. rewrite filter_cons. by destruct (decide _). Qed.
Lemma cnt_insert st (thr : list qthread) t th th' : thr !! t = Some th ->
  cnt st (<[t:=th']> thr) + ind st th = cnt st thr + ind st th'.
Proof.
  revert t; induction thr as [|y thr IH]; intros [|t] H; try done.
  - simpl in H. injection H as ->. simpl. rewrite !cnt_cons. lia.
  - simpl in *. rewrite !cnt_cons. specialize (IH t H). lia.
Qed.
Lemma cnt_pos st (thr : list qthread) t th : thr !! t = Some th -> th_st th = st -> 0 < cnt st thr.
Proof.
  revert t; induction thr as [|y thr IH]; intros [|t] H Hs; try done; rewrite cnt_cons.
  - simpl in H. injection H as ->. unfold ind. rewrite decide_True by done. lia.
  - specialize (IH t H Hs). lia.
Qed.
Lemma cnt_zero st thr : (forall t th, thr !! t = Some th -> th_st th <> st) -> cnt st thr = 0.
Proof.
  induction thr as [|y thr IH]; intros H; [done|]. rewrite cnt_cons, IH.
  - unfold ind. rewrite decide_False; [done|]. by apply (H 0).
  - intros t th Hl. apply (H (S t) th Hl).
Qed.
Lemma set_status_insert st t thr th : thr !! t = Some th -> set_status st t thr = <[t := Th st (th_ops th)]> thr.
Proof. 
  intros H. unfold set_status. apply list_eq. intros i. destruct (decide (i = t)) as [->|Hne].
  - rewrite list_lookup_alter, H, list_lookup_insert; [done|by eapply lookup_lt_Some].
  - by rewrite list_lookup_alter_ne, list_lookup_insert_ne by done.
Qed.
Lemma elem_sleepers st thr t : t ∈ sleepers st thr <-> exists th, thr !! t = Some th /\ th_st th = st.
Proof.
  unfold sleepers. rewrite elem_of_list_filter, elem_of_seq. split.
  - intros [H _]. destruct (thr !! t) as [th|]; [|done]. exists th. split; [done|]. by apply bool_decide_eq_true in H.
  - intros (th & H & Hs). rewrite H. split; [by apply bool_decide_eq_true|]. apply lookup_lt_Some in H. lia.
Qed.
(** wake_one wakes one sleeper if there is one. *)
Lemma wake_one_cases a b pick thr :
  (cnt a thr = 0 /\ wake_one a b pick thr = thr) \/
  (exists t th, thr !! t = Some th /\ th_st th = a /\ wake_one a b pick thr = <[t := Th b (th_ops th)]> thr).
Proof.
  unfold wake_one. destruct (sleepers a thr) as [|t0 l] eqn:Es.
  - left. split; [|done]. apply cnt_zero. intros t th Hl Hs.
    assert (t ∈ sleepers a thr) by (apply elem_sleepers; eauto). rewrite Es in *. set_solver.
  - right. assert (Hlt : pick mod length (t0 :: l) < length (t0 :: l)) by (apply Nat.mod_upper_bound; done).
    destruct ((t0 :: l) !! (pick mod length (t0 :: l))) as [t|] eqn:Et; [|apply lookup_ge_None in Et; lia].
    assert (Hin : t ∈ sleepers a thr) by (rewrite Es; by eapply elem_of_list_lookup_2).
    apply elem_sleepers in Hin as (th & H & Hs). exists t, th. split; [done|]. split; [done|]. by apply set_status_insert.
Qed.
Lemma notify_lookup_n n pick thr t th' : notify n pick thr !! t = Some th' ->
  exists th, thr !! t = Some th /\ th_ops th' = th_ops th /\
    (th_st th' = th_st th \/ (th_st th = AsleepNE /\ th_st th' = AwakeNE /\ (n = OneNE \/ n = AllNE)) \/
     (th_st th = AsleepNF /\ th_st th' = AwakeNF /\ n = OneNF)).
Proof.
  assert (Hone : forall a b, wake_one a b pick thr !! t = Some th' ->
    exists th, thr !! t = Some th /\ th_ops th' = th_ops th /\ (th_st th' = th_st th \/ (th_st th = a /\ th_st th' = b))).
  { intros a b H. destruct (wake_one_cases a b pick thr) as [[_ E]|(u & th & Hu & Hs & E)]; rewrite E in H; [eauto|].
    destruct (decide (t = u)) as [->|Hne].
    - rewrite list_lookup_insert in H by (by eapply lookup_lt_Some). injection H as <-. exists th. simpl. auto.
    - rewrite list_lookup_insert_ne in H by done. eauto. }
  destruct n; simpl.
  - eauto.
  - intros H. apply Hone in H as (th & H1 & H2 & [H3|[H3 H4]]); eauto 10.
  - intros H. apply Hone in H as (th & H1 & H2 & [H3|[H3 H4]]); eauto 10.
  - unfold wake_all. rewrite list_lookup_fmap. destruct (thr !! t) as [th|]; [|done]. simpl. intros [= <-].
    exists th. split; [done|]. destruct (decide (th_st th = AsleepNE)); [|auto]. simpl. auto 10.
Qed.
Lemma notify_lookup n pick thr t th' : notify n pick thr !! t = Some th' ->
  exists th, thr !! t = Some th /\ th_ops th' = th_ops th /\
    (th_st th' = th_st th \/ (th_st th = AsleepNE /\ th_st th' = AwakeNE) \/ (th_st th = AsleepNF /\ th_st th' = AwakeNF)).
Proof. intros H. apply notify_lookup_n in H as (th & H1 & H2 & H3). exists th. naive_solver. Qed.
Lemma notify_length n pick thr : length (notify n pick thr) = length thr.
Proof.
  assert (H1 : forall a b, length (wake_one a b pick thr) = length thr).
  { intros a b. destruct (wake_one_cases a b pick thr) as [[_ E]|(u & th & Hu & Hs & E)]; rewrite E; [done|]. by rewrite insert_length. }
  destruct n; simpl; auto. unfold wake_all. by rewrite fmap_length.
Qed.

(** ** Sequential facts. *)
Lemma drop_loop_spec max q : drop_loop max q =
  (drop (if max =? 0 then 0 else S (length q) - max) q, if max =? 0 then 0 else Nat.min (length q) (S (length q) - max)).
Proof.
  induction q as [|x q IH]; [simpl; destruct (max =? 0); [done|]; destruct (1 - max); done|].
  cbn [drop_loop]. rewrite IH. unfold is_full.
  destruct (Nat.eqb_spec max 0) as [->|Hm]; [done|]. destruct (Nat.ltb_spec 0 max); [|lia]. cbn [andb].
  destruct (Nat.leb_spec max (length (x :: q))) as [Hle|Hgt].
  - simpl length in *. replace (S (S (length q)) - max) with (S (S (length q) - max)) by lia. cbn [drop]. f_equal; lia.
  - simpl length in *. replace (S (S (length q)) - max) with 0 by lia. done.
Qed.
Lemma exec_fifo o w max q q' max' n e : exec o w max q = Done q' max' n e ->
  fifo (Some (max, q)) e = Some (max', q') /\ call_of e = o.
Proof.
  destruct o; simpl; unfold full_spec, is_full.
  - destruct (Nat.ltb_spec (length q) max); [|done]. intros [= <- <- <- <-]. simpl. unfold full_spec.
    destruct (Nat.leb_spec max (length q)); [lia|]. by rewrite andb_false_r.
  - destruct ((0 <? max) && (max <=? length q)) eqn:E; intros [= <- <- <- <-]; cbn [fifo call_of]; unfold full_spec; rewrite ?E; done.
  - rewrite drop_loop_spec. intros [= <- <- <- <-]. simpl. split; [|done].
    destruct (Nat.eqb_spec max 0) as [->|Hm]; [done|].
    replace (Nat.min (length q) (S (length q) - max)) with (S (length q) - max) by lia. by rewrite Nat.eqb_refl.
  - destruct q as [|x q]; [done|]. intros [= <- <- <- <-]. simpl. by rewrite Nat.eqb_refl.
  - destruct q as [|x q]; intros [= <- <- <- <-]; simpl; [done|]. by rewrite Nat.eqb_refl.
  - destruct q as [|x q]; [destruct w; [done|]; destruct zero; [|done]|]; intros [= <- <- <- <-]; simpl; [done|]. by rewrite Nat.eqb_refl.
  - intros [= <- <- <- <-]. simpl. by rewrite Nat.eqb_refl.
  - intros [= <- <- <- <-]. simpl. by destruct q.
  - intros [= <- <- <- <-]. simpl. unfold full_spec. destruct ((0 <? max) && (max <=? length q)); done.
  - intros [= <- <- <- <-]. done.
  - intros [= <- <- <- <-]. done.
Qed.

(** ** Shape of every step. *)
Definition st_ok (th : qthread) : Prop :=
  match th_st th with
  | Ready => True
  | AsleepNE | AwakeNE => exists ops, th_ops th = Pop :: ops \/ th_ops th = TimedPop false :: ops
  | AsleepNF | AwakeNF => exists x ops, th_ops th = Push x :: ops
  | Expired => exists ops, th_ops th = TimedPop false :: ops
  end.
Definition WF (progs : list (list qop)) (s : qst) : Prop :=
  length (q_thr s) = length progs /\
  forall t th, q_thr s !! t = Some th -> st_ok th /\ progs !! t = Some (calls_of t (q_log s) ++ th_ops th).

Inductive shape (s : qst) : qst -> Prop :=
| sh_same : shape s s
| sh_ub : shape s (Qst (q_items s) (q_max s) (q_thr s) true (q_log s))
| sh_status t th st : q_thr s !! t = Some th -> q_ub s = false ->
    ((th_st th = AsleepNE /\ st = AwakeNE) \/ (th_st th = AsleepNF /\ st = AwakeNF) \/
     (th_st th = AsleepNE /\ st = Expired /\ exists z ops, th_ops th = TimedPop z :: ops) \/
     ((th_st th = Ready \/ th_st th = AwakeNE \/ th_st th = AwakeNF) /\ exists o ops w, th_ops th = o :: ops /\ (w = false <-> th_st th = Ready) /\
        ((exec o w (q_max s) (q_items s) = WaitNE /\ st = AsleepNE) \/ (exec o w (q_max s) (q_items s) = WaitNF /\ st = AsleepNF)))) ->
    shape s (Qst (q_items s) (q_max s) (<[t := Th st (th_ops th)]> (q_thr s)) false (q_log s))
| sh_done t th o ops w q max n e pick : q_thr s !! t = Some th -> q_ub s = false -> th_ops th = o :: ops ->
    (th_st th = Ready \/ th_st th = AwakeNE \/ th_st th = AwakeNF) -> (w = false <-> th_st th = Ready) ->
    exec o w (q_max s) (q_items s) = Done q max n e ->
    shape s (Qst q max (notify n pick (<[t := Th Ready ops]> (q_thr s))) false (q_log s ++ [(t, e)]))
| sh_timeout t th o ops : q_thr s !! t = Some th -> q_ub s = false -> th_ops th = o :: ops ->
    (th_st th = Expired \/ (th_st th = AwakeNE /\ is_timed o = true)) ->
    shape s (Qst (q_items s) (q_max s) (<[t := Th Ready ops]> (q_thr s)) false (q_log s ++ [(t, ETimed (zero_of o) None)])).

Lemma step_shape s a : shape s (qstep s a).
Proof.
  unfold qstep. destruct (q_ub s) eqn:Eub; [constructor|]. destruct a as [t pick ex|t|t].
  - destruct (q_thr s !! t) as [[st [|o ops]]|] eqn:Et; [constructor| |constructor].
    assert (Hgo : forall w, (st = Ready \/ st = AwakeNE \/ st = AwakeNF) -> (w = false <-> st = Ready) ->
      shape s (match exec o w (q_max s) (q_items s) with
            | Done q max n e => Qst q max (notify n pick (<[t := Th Ready ops]> (q_thr s))) false (q_log s ++ [(t, e)])
            | WaitNE => Qst (q_items s) (q_max s) (set_status AsleepNE t (q_thr s)) false (q_log s)
            | WaitNF => Qst (q_items s) (q_max s) (set_status AsleepNF t (q_thr s)) false (q_log s)
            | Crash => Qst (q_items s) (q_max s) (q_thr s) true (q_log s) end)).
    { intros w Hst Hw. destruct (exec o w (q_max s) (q_items s)) as [q max n e| | |] eqn:Ex.
      - eapply (sh_done s t (Th st (o :: ops)) o ops w q max n e pick); done.
      - rewrite (set_status_insert _ _ _ _ Et). apply (sh_status s t _ AsleepNE Et Eub). right; right; right. split; [done|].
        exists o, ops, w. split; [done|]. split; [done|]. auto.
      - rewrite (set_status_insert _ _ _ _ Et). apply (sh_status s t _ AsleepNF Et Eub). right; right; right. split; [done|].
        exists o, ops, w. split; [done|]. split; [done|]. auto.
      - constructor. }
    destruct st; cbv zeta.
    + apply Hgo; [auto|done].
    + constructor.
    + destruct (is_timed o && ex) eqn:Ez; [|apply Hgo; [auto|done]].
      apply andb_true_iff in Ez as [Ez _]. eapply (sh_timeout s t _ o ops Et); auto.
    + constructor.
    + apply Hgo; [auto|done].
    + eapply (sh_timeout s t _ o ops Et); auto.
  - destruct (q_thr s !! t) as [[st ops]|] eqn:Et; [|constructor]. destruct st; try constructor.
    + rewrite (set_status_insert _ _ _ _ Et). apply (sh_status s t _ AwakeNE Et Eub). auto.
    + rewrite (set_status_insert _ _ _ _ Et). apply (sh_status s t _ AwakeNF Et Eub). auto.
  - destruct (q_thr s !! t) as [[st ops]|] eqn:Et; [|constructor]. destruct st, ops as [|[] ?]; try constructor.
    rewrite (set_status_insert _ _ _ _ Et). apply (sh_status s t _ Expired Et Eub). simpl. eauto 10.
Qed.

Lemma calls_of_snoc t l u e : calls_of t (l ++ [(u, e)]) = calls_of t l ++ (if decide (u = t) then [call_of e] else []).
Proof.
  unfold calls_of. rewrite filter_app, !fmap_app. f_equal. rewrite filter_cons. simpl. by destruct (decide (u = t)).
Qed.
Lemma exec_wait o w max q : 
  (exec o w max q = WaitNE -> q = [] /\ (o = Pop \/ (o = TimedPop false /\ w = false))) /\
  (exec o w max q = WaitNF -> max <= length q /\ exists x, o = Push x).
Proof.
  destruct o; simpl; try (by split).
  - destruct (Nat.ltb_spec (length q) max); [by split|]. split; [done|]. intros _. split; [lia|eauto].
  - destruct (is_full max q); by split.
  - destruct (drop_loop max q); by split.
  - destruct q; split; auto; done.
  - destruct q; by split.
  - destruct q; [destruct w; [by split|]; destruct zero; split; auto; done|by split].
Qed.
Lemma wf_step progs s a : WF progs s -> WF progs (qstep s a).
Proof.
  intros [Hlen H]. destruct (step_shape s a) as [| |t th st Ht Hub Hc|t th o ops w q max n e pick Ht Hub Ho Hst Hw Hx|t th o ops Ht Hub Ho Hst]; [by split|by split| | |].
  - cbn [q_thr q_log]. split; [cbn [q_thr]; by rewrite insert_length|]. intros u thu Hu. cbn [q_thr q_log] in *.
    destruct (decide (u = t)) as [->|Hne]; [|rewrite list_lookup_insert_ne in Hu by done; auto].
    rewrite list_lookup_insert in Hu by (by eapply lookup_lt_Some). injection Hu as <-. destruct (H _ _ Ht) as [Hok Hp].
    split; [|done]. unfold st_ok in *. cbn [th_st th_ops].
    destruct Hc as [[E ->]|[[E ->]|[(E & -> & z & ops & Ho)|(E & o & ops & w & Ho & Hw & [[Hx ->]|[Hx ->]])]]].
    + by rewrite E in Hok.
    + by rewrite E in Hok.
    + rewrite E in Hok. destruct Hok as [ops' [Hq|Hq]]; [congruence|]. eauto.
    + apply exec_wait in Hx as [_ [->|[-> _]]]; eauto.
    + apply exec_wait in Hx as (_ & x & ->). eauto.
  - cbn [q_thr q_log]. split; [cbn [q_thr]; by rewrite notify_length, insert_length|]. intros u thu Hu. cbn [q_thr q_log] in *.
    apply notify_lookup in Hu as (thu' & Hu & Hops & Hs). rewrite Hops. rewrite calls_of_snoc.
    apply exec_fifo in Hx as [_ Hcall].
    destruct (decide (t = u)) as [<-|Hne].
    + rewrite list_lookup_insert in Hu by (by eapply lookup_lt_Some). injection Hu as <-. cbn [th_st th_ops] in *.
      destruct Hs as [Hs|[[? ?]|[? ?]]]; [|done..]. unfold st_ok. rewrite Hs. split; [done|].
      destruct (H _ _ Ht) as [_ Hp]. rewrite Hp, Ho, Hcall. by rewrite <- app_assoc.
    + rewrite list_lookup_insert_ne in Hu by done. destruct (H _ _ Hu) as [Hok Hp]. rewrite app_nil_r. split; [|done].
      unfold st_ok in *. rewrite Hops. destruct Hs as [->|[[E ->]|[E ->]]]; [done| |]; by rewrite E in Hok.
  - cbn [q_thr q_log]. split; [cbn [q_thr]; by rewrite insert_length|]. intros u thu Hu. cbn [q_thr q_log] in *. rewrite calls_of_snoc.
    destruct (decide (t = u)) as [<-|Hne].
    + rewrite list_lookup_insert in Hu by (by eapply lookup_lt_Some). injection Hu as <-. cbn [th_st th_ops] in *.
      split; [done|]. destruct (H _ _ Ht) as [Hok Hp]. rewrite Hp, Ho.
      assert (Ho' : o = TimedPop false).
      { unfold st_ok in Hok. rewrite Ho in Hok. destruct Hst as [E|[E Hz]]; rewrite E in Hok.
        - destruct Hok as [? Hq]. by injection Hq.
        - destruct Hok as [? [Hq|Hq]]; injection Hq as -> ->; done. }
      subst o. simpl. by rewrite <- app_assoc.
    + rewrite list_lookup_insert_ne in Hu by done. rewrite app_nil_r. auto.
Qed.
Lemma wf_new max progs : WF progs (qst_new max progs).
Proof.
  split; [apply fmap_length|]. intros t th Ht. cbn [qst_new q_thr] in Ht. rewrite list_lookup_fmap in Ht.
  destruct (progs !! t) as [p|]; [|done]. injection Ht as <-. done.
Qed.

Lemma fifo_run_snoc max l e : fifo_run max (l ++ [e]) = fifo (fifo_run max l) e.
Proof. unfold fifo_run. by rewrite fold_left_app. Qed.
(** ** Linearizability. *)
Definition Lin max0 (s : qst) : Prop := fifo_run max0 (snd <$> q_log s) = Some (q_max s, q_items s).
Lemma lin_step max0 progs s a : WF progs s -> Lin max0 s -> Lin max0 (qstep s a).
Proof.
  intros [_ HW] H. unfold Lin in *.
  destruct (step_shape s a) as [| |t th st Ht Hub Hc|t th o ops w q max n e pick Ht Hub Ho Hst Hw Hx|t th o ops Ht Hub Ho Hst]; [done|done|done| |];
    cbn [q_log q_items q_max]; rewrite fmap_app; cbn [fmap list_fmap snd]; rewrite fifo_run_snoc, H.
  - by apply exec_fifo in Hx as [-> _].
  - destruct (HW _ _ Ht) as [Hok _]. unfold st_ok in Hok.
    assert (Hz : zero_of o = false).
    { rewrite Ho in Hok. destruct Hst as [E|[E _]]; rewrite E in Hok.
      - destruct Hok as [? Hq]. by injection Hq as -> _.
      - destruct Hok as [? [Hq|Hq]]; by injection Hq as -> _. }
    rewrite Hz. done.
Qed.
Lemma run_ind (P : qst -> Prop) s acts : P s -> (forall s a, P s -> P (qstep s a)) -> P (qrun s acts).
Proof. intros H0 Hs. revert s H0; induction acts as [|a acts IH]; intros s H0; [done|]. cbn [qrun fold_left]. apply IH. auto. Qed.

Lemma wf_run max progs acts : WF progs (qrun (qst_new max progs) acts).
Proof. apply (run_ind (WF progs)); [apply wf_new|intros; by apply wf_step]. Qed.
Lemma lin_run max progs acts : Lin max (qrun (qst_new max progs) acts).
Proof.
  apply (run_ind (fun s => WF progs s /\ Lin max s)); [split; [apply wf_new|done]|].
  intros s a [H1 H2]. split; [by apply wf_step|by eapply lin_step].
Qed.

(** ** Specification-level facts. *)
Definition ev_plain (e : qev) : Prop := match e with EReplace _ | ESetMax _ => False | _ => True end.
Lemma omap_snoc {A B} (f : A -> option B) l x : omap f (l ++ [x]) = omap f l ++ match f x with Some y => [y] | None => [] end.
Proof. rewrite omap_app. simpl. by destruct (f x). Qed.
Lemma fifo_max max l m q : Forall (fun e => match e with ESetMax _ => False | _ => True end) l ->
  fifo_run max l = Some (m, q) -> m = max.
Proof.
  revert m q; induction l as [|e l IH] using rev_ind; intros m q Hp.
  - intros [= <- <-]. done.
  - apply Forall_app in Hp as [Hp He]. rewrite Forall_singleton in He. rewrite fifo_run_snoc.
    destruct (fifo_run max l) as [[m0 q0]|]; [|done]. specialize (IH _ _ Hp eq_refl) as ->.
    destruct e as [x|x b|x n|x|[x|]|z [x|]|n|b|b|l'|n]; simpl in *; try done; unfold take_front; intros Hf;
      repeat case_match; simplify_eq/=; done.
Qed.
(** Items enter at the back and leave at the front. *)
Lemma fifo_account max l m q : Forall ev_plain l -> fifo_run max l = Some (m, q) ->
  (exists out, entered l = out ++ q /\ delivered l `sublist_of` out /\ length out = length (delivered l) + dropped l) /\
  (0 < max -> length q <= max).
Proof.
  revert m q; induction l as [|e l IH] using rev_ind; intros m q Hp.
  - intros [= <- <-]. split; [exists []; done|simpl; lia].
  - apply Forall_app in Hp as [Hp He]. rewrite Forall_singleton in He. rewrite fifo_run_snoc.
    destruct (fifo_run max l) as [[m0 q0]|] eqn:El; [|done].
    assert (Hm : m0 = max).
    { eapply fifo_max; [|exact El]. eapply Forall_impl; [exact Hp|]. by intros []. }
    subst m0. specialize (IH _ _ Hp eq_refl) as [(out & Hent & Hdel & Hlen) Hcap].
    unfold entered, delivered, dropped in *. rewrite !omap_snoc.
    assert (Hpush : forall x, full_spec max q0 = false -> 0 < max -> length (q0 ++ [x]) <= max).
    { intros x Hf Hm. unfold full_spec in Hf. rewrite app_length. simpl. destruct (Nat.ltb_spec 0 max); [|lia].
      destruct (Nat.leb_spec max (length q0)); [done|lia]. }
    assert (Hpop : forall x q1, take_front x q0 = Some q1 -> q0 = x :: q1).
    { intros x q1. unfold take_front. destruct q0 as [|y q']; [done|]. destruct (Nat.eqb_spec x y); [|done]. naive_solver. }
    destruct e as [x|x b|x n|x|[x|]|z [x|]|n|b|b|l'|n]; cbn [fifo] in *; try done.
    + destruct (full_spec max q0) eqn:Ef; [done|]. intros [= <- <-]. rewrite !app_nil_r. split; [|auto].
      exists out. rewrite Hent, app_assoc. done.
    + destruct (full_spec max q0) eqn:Ef; [destruct b; [done|]|destruct b; [|done]]; intros [= <- <-]; rewrite !app_nil_r.
      * split; [|auto]. exists out. done.
      * split; [|auto]. exists out. rewrite Hent, app_assoc. done.
    + destruct (Nat.eqb_spec n (if max =? 0 then 0 else S (length q0) - max)) as [Hn|]; [|done]. intros [= <- <-]. rewrite !app_nil_r.
      assert (Hnl : n <= length q0) by (destruct (Nat.eqb_spec max 0); lia). split.
      * exists (out ++ take n q0). rewrite Hent. split; [|split].
        -- rewrite <- !app_assoc. rewrite (app_assoc (take n q0)), take_drop. done.
        -- by apply sublist_inserts_r.
        -- rewrite app_length, take_length, Hlen, sum_list_with_app || rewrite app_length, take_length, Hlen.
           unfold sum_list. rewrite ?sum_list_with_app. simpl. lia.
      * intros Hm. rewrite app_length, drop_length. simpl. destruct (Nat.eqb_spec max 0); lia.
    + destruct (take_front x q0) as [q1|] eqn:Et; [|done]. intros [= <- <-]. apply Hpop in Et. subst q0. rewrite !app_nil_r. split.
      * exists (out ++ [x]). rewrite Hent. split; [by rewrite <- app_assoc|]. split; [by apply sublist_app|]. rewrite !app_length. simpl. lia.
      * intros Hm. specialize (Hcap Hm). simpl in Hcap. lia.
    + destruct (take_front x q0) as [q1|] eqn:Et; [|done]. intros [= <- <-]. apply Hpop in Et. subst q0. rewrite !app_nil_r. split.
      * exists (out ++ [x]). rewrite Hent. split; [by rewrite <- app_assoc|]. split; [by apply sublist_app|]. rewrite !app_length. simpl. lia.
      * intros Hm. specialize (Hcap Hm). simpl in Hcap. lia.
    + case_bool_decide; [|done]. intros [= <- <-]. rewrite !app_nil_r. split; [by exists out|auto].
    + destruct (take_front x q0) as [q1|] eqn:Et; [|done]. intros [= <- <-]. apply Hpop in Et. subst q0. rewrite !app_nil_r. split.
      * exists (out ++ [x]). rewrite Hent. split; [by rewrite <- app_assoc|]. split; [by apply sublist_app|]. rewrite !app_length. simpl. lia.
      * intros Hm. specialize (Hcap Hm). simpl in Hcap. lia.
    + destruct (negb z || _); [|done]. intros [= <- <-]. rewrite !app_nil_r. split; [by exists out|auto].
    + destruct (_ =? _); [|done]. intros [= <- <-]. rewrite !app_nil_r. split; [by exists out|auto].
    + destruct (Bool.eqb _ _); [|done]. intros [= <- <-]. rewrite !app_nil_r. split; [by exists out|auto].
    + destruct (Bool.eqb _ _); [|done]. intros [= <- <-]. rewrite !app_nil_r. split; [by exists out|auto].
Qed.

(** Completed calls are calls of the programs. *)
Lemma log_in_progs progs s t e : WF progs s -> (t, e) ∈ q_log s -> t < length (q_thr s) ->
  exists p, progs !! t = Some p /\ call_of e ∈ p.
Proof.
  intros [_ H] Hin Ht. destruct (q_thr s !! t) as [th|] eqn:Et; [|apply lookup_ge_None in Et; lia].
  destruct (H _ _ Et) as [_ Hp]. eexists. split; [exact Hp|]. apply elem_of_app. left. unfold calls_of.
  apply elem_of_list_fmap. exists e. split; [done|]. apply elem_of_list_fmap. exists (t, e). split; [done|].
  apply elem_of_list_filter. done.
Qed.
Definition TB (s : qst) : Prop := forall t e, (t, e) ∈ q_log s -> t < length (q_thr s).
Lemma tb_step s a : TB s -> TB (qstep s a).
Proof.
  intros H. destruct (step_shape s a) as [| |t th st Ht Hub Hc|t th o ops w q max n e pick Ht Hub Ho Hst Hw Hx|t th o ops Ht Hub Ho Hst]; [done|done| | |];
    intros u eu Hu; cbn [q_log q_thr] in *.
  - rewrite insert_length. eauto.
  - rewrite notify_length, insert_length. apply elem_of_app in Hu as [Hu|Hu]; [eauto|].
    apply elem_of_list_singleton in Hu. injection Hu as -> ->. by eapply lookup_lt_Some.
  - rewrite insert_length. apply elem_of_app in Hu as [Hu|Hu]; [eauto|].
    apply elem_of_list_singleton in Hu. injection Hu as -> ->. by eapply lookup_lt_Some.
Qed.
Lemma log_ops P max progs acts : all_ops P progs ->
  Forall (fun e => P (call_of e)) (snd <$> q_log (qrun (qst_new max progs) acts)).
Proof.
  intros HP. set (s := qrun _ _). apply Forall_forall. intros e He. apply elem_of_list_fmap in He as ([t e'] & -> & Hin).
  assert (HT : TB s). { apply (run_ind TB); [|apply tb_step]. intros t0 e0 H0. apply elem_of_nil in H0. done. }
  destruct (log_in_progs progs s t e' (wf_run max progs acts) Hin (HT _ _ Hin)) as (p & Hp & Hc).
  unfold all_ops in HP. rewrite Forall_lookup in HP. specialize (HP _ _ Hp). rewrite Forall_forall in HP. by apply HP.
Qed.

(** ** Wake-ups. *)
Lemma wf_next progs s t th o ops P : WF progs s -> all_ops P progs -> q_thr s !! t = Some th -> th_ops th = o :: ops -> P o.
Proof.
  intros [_ H] HP Ht Ho. destruct (H _ _ Ht) as [_ Hp]. unfold all_ops in HP. rewrite Forall_lookup in HP.
  specialize (HP _ _ Hp). rewrite Forall_forall in HP. apply HP. rewrite Ho. set_solver.
Qed.
Definition ConsInv (s : qst) : Prop := cnt AsleepNE (q_thr s) = 0 \/ length (q_items s) <= cnt AwakeNE (q_thr s).
Definition ProdInv (s : qst) : Prop := cnt AsleepNF (q_thr s) = 0 \/ q_max s <= length (q_items s) + cnt AwakeNF (q_thr s).

Lemma cnt_wake_one a b c pick thr :
  (cnt a thr = 0 /\ wake_one a b pick thr = thr) \/
  (0 < cnt a thr /\ cnt c (wake_one a b pick thr) + (if decide (a = c) then 1 else 0) = cnt c thr + (if decide (b = c) then 1 else 0)).
Proof.
  destruct (wake_one_cases a b pick thr) as [[E ->]|(t & th & Ht & Hs & ->)]; [auto|].
  right. split; [by eapply cnt_pos|]. pose proof (cnt_insert c thr t th (Th b (th_ops th)) Ht) as H. unfold ind in H. simpl in H.
  rewrite Hs in H. lia.
Qed.
Lemma cnt_wake_all c thr : cnt AsleepNE (wake_all AsleepNE AwakeNE thr) = 0 /\
  (c <> AsleepNE -> c <> AwakeNE -> cnt c (wake_all AsleepNE AwakeNE thr) = cnt c thr).
Proof.
  unfold wake_all. split.
  - apply cnt_zero. intros t th Hl. rewrite list_lookup_fmap in Hl. destruct (thr !! t) as [th'|]; [|done]. injection Hl as <-.
    destruct (decide (th_st th' = AsleepNE)); [done|]. done.
  - intros H1 H2. induction thr as [|th thr IH]; [done|]. rewrite fmap_cons, !cnt_cons, IH. f_equal. unfold ind.
    destruct (decide (th_st th = AsleepNE)) as [E|]; [|done]. simpl. rewrite E. rewrite !decide_False by congruence. done.
Qed.
(** Effect of a completed call on the number of items, and its notification. *)
Lemma exec_note o w max q q' max' n e : exec o w max q = Done q' max' n e ->
  match n with
  | NoNote => length q' = length q \/ (exists l, o = Replace l /\ q' = []) 
  | OneNE => length q' <= S (length q) /\ (exists x, o = Push x \/ o = TryPush x \/ o = ForcePush x)
  | OneNF => S (length q') = length q /\ is_pop o = true
  | AllNE => exists l, o = Replace l
  end.
Proof.
  destruct o; simpl.
  - destruct (_ <? _); [|done]. intros [= <- <- <- <-]. rewrite app_length. simpl. split; [lia|eauto].
  - destruct (is_full max q) eqn:E; intros [= <- <- <- <-]; [auto|]. rewrite app_length. simpl. split; [lia|eauto].
  - rewrite drop_loop_spec. intros [= <- <- <- <-]. rewrite app_length, drop_length. simpl. split; [lia|eauto].
  - destruct q; [done|]. intros [= <- <- <- <-]. done.
  - destruct q; intros [= <- <- <- <-]; [auto|done].
  - destruct q; [destruct w; [done|]; destruct zero; [|done]|]; intros [= <- <- <- <-]; [auto|done].
  - intros [= <- <- <- <-]. auto.
  - intros [= <- <- <- <-]. auto.
  - intros [= <- <- <- <-]. auto.
  - destruct l; intros [= <- <- <- <-]; eauto.
  - intros [= <- <- <- <-]. auto.
Qed.
Lemma force_len x w max q q' max' n e : exec (ForcePush x) w max q = Done q' max' n e ->
  length q' = (if max =? 0 then S (length q) else Nat.min (S (length q)) max).
Proof.
  cbn [exec]. rewrite drop_loop_spec. intros [= <- <- <- <-]. rewrite app_length, drop_length. cbn [length]. destruct (Nat.eqb_spec max 0); lia.
Qed.

Lemma ind_eq st th : th_st th = st -> ind st th = 1.
Proof. intros H. unfold ind. by rewrite decide_True. Qed.
Lemma ind_ne st th : th_st th <> st -> ind st th = 0.
Proof. intros H. unfold ind. by rewrite decide_False. Qed.
Lemma ind_le st th : ind st th <= 1.
Proof. unfold ind. destruct (decide _); lia. Qed.

Lemma cons_step progs s a : WF progs s -> all_ops no_timed progs -> ConsInv s -> ConsInv (qstep s a).
Proof.
  intros HW HP H. pose proof HW as [_ HW']. unfold ConsInv in *.
  destruct (step_shape s a) as [| |t th st Ht Hub Hc|t th o ops w q max n e pick Ht Hub Ho Hst Hw Hx|t th o ops Ht Hub Ho Hst]; [done|done| | |]; cbn [q_thr q_items].
  - pose proof (cnt_insert AsleepNE _ _ _ (Th st (th_ops th)) Ht) as C1. pose proof (cnt_insert AwakeNE _ _ _ (Th st (th_ops th)) Ht) as C2.
    destruct Hc as [[E ->]|[[E ->]|[(E & -> & z & ops & Ho)|(E & o & ops & w & Ho & Hw & [[Hx ->]|[Hx ->]])]]].
    + rewrite (ind_eq AsleepNE) in C1 by done. rewrite ind_ne in C1 by done.
      rewrite (ind_ne AwakeNE th) in C2 by congruence. rewrite ind_eq in C2 by done. lia.
    + rewrite !ind_ne in C1 by (simpl; congruence). rewrite !ind_ne in C2 by (simpl; congruence). lia.
    + by pose proof (wf_next _ _ _ _ _ _ _ HW HP Ht Ho).
    + apply exec_wait in Hx as [-> _]. right. simpl. lia.
    + pose proof Hx as Hx'. apply exec_wait in Hx' as (_ & x & ->).
      assert (th_st th <> AwakeNE /\ th_st th <> AsleepNE) as [A1 A2].
      { destruct (HW' _ _ Ht) as [Hok _]. unfold st_ok in Hok. rewrite Ho in Hok.
        split; intros E'; rewrite E' in Hok; destruct Hok as [? [? | ?]]; done. }
      rewrite !ind_ne in C1 by (simpl; congruence). rewrite !ind_ne in C2 by (simpl; congruence). lia.
  - set (thr := <[t:=Th Ready ops]> (q_thr s)).
    pose proof (cnt_insert AsleepNE _ _ _ (Th Ready ops) Ht) as C1. pose proof (cnt_insert AwakeNE _ _ _ (Th Ready ops) Ht) as C2. fold thr in C1, C2.
    rewrite (ind_ne _ (Th Ready ops)) in C1 by done. rewrite (ind_ne _ (Th Ready ops)) in C2 by done.
    rewrite (ind_ne AsleepNE th) in C1 by (destruct Hst as [E|[E|E]]; congruence).
    pose proof (ind_le AwakeNE th) as C3.
    assert (Hpop : ind AwakeNE th = 1 -> o = Pop).
    { intros Hi. destruct (decide (th_st th = AwakeNE)) as [E|E]; [|rewrite ind_ne in Hi by done; lia].
      destruct (HW' _ _ Ht) as [Hok _]. unfold st_ok in Hok. rewrite Ho, E in Hok.
      destruct Hok as [? [Hq|Hq]]; injection Hq as -> ->; [done|]. by pose proof (wf_next _ _ _ _ _ _ _ HW HP Ht Ho). }
    pose proof (exec_note _ _ _ _ _ _ _ _ Hx) as Hn. destruct n; cbn [notify].
    + destruct Hn as [Hn|(l & -> & ->)]; [|right; simpl; lia].
      destruct (decide (ind AwakeNE th = 1)) as [Hi|Hi].
      * apply Hpop in Hi. subst o. simpl in Hx. destruct (q_items s); simplify_eq/=.
      * destruct H as [H|H]; [left; lia|right; lia].
    + destruct Hn as (Hn & x & Hox).
      assert (Hi : ind AwakeNE th = 0).
      { destruct (decide (ind AwakeNE th = 1)) as [Hi|Hi]; [|lia]. apply Hpop in Hi. subst o. naive_solver. }
      destruct (cnt_wake_one AsleepNE AwakeNE AsleepNE pick thr) as [[E ->]|[D1 D2]]; [by left|].
      destruct (cnt_wake_one AsleepNE AwakeNE AwakeNE pick thr) as [[E _]|[_ D3]]; [lia|].
      simpl in D2, D3.
      right. destruct H as [H|H]; lia.
    + destruct Hn as [Hn _].
      assert (D : forall c, c <> AsleepNF -> c <> AwakeNF -> cnt c (wake_one AsleepNF AwakeNF pick thr) = cnt c thr).
      { intros c N1 N2. destruct (cnt_wake_one AsleepNF AwakeNF c pick thr) as [[_ ->]|[_ D]]; [done|].
        rewrite !decide_False in D by done. lia. }
      rewrite !D by done. destruct H as [H|H]; [left; lia|right; lia].
    + left. by destruct (cnt_wake_all AsleepNE thr) as [-> _].
  - pose proof (wf_next _ _ _ _ _ _ _ HW HP Ht Ho) as Hno. destruct Hst as [E|[E Hz]].
    + destruct (HW' _ _ Ht) as [Hok _]. unfold st_ok in Hok. rewrite Ho, E in Hok. destruct Hok as [? Hq]. by injection Hq as -> ->.
    + by destruct o.
Qed.

Lemma prod_step progs s a : WF progs s -> all_ops no_replace progs -> all_ops no_setmax progs -> ProdInv s -> ProdInv (qstep s a).
Proof.
  intros HW HP HP2 H. pose proof HW as [_ HW']. unfold ProdInv in *.
  destruct (step_shape s a) as [| |t th st Ht Hub Hc|t th o ops w q max n e pick Ht Hub Ho Hst Hw Hx|t th o ops Ht Hub Ho Hst]; [done|done| | |]; cbn [q_thr q_items q_max].
  - pose proof (cnt_insert AsleepNF _ _ _ (Th st (th_ops th)) Ht) as C1. pose proof (cnt_insert AwakeNF _ _ _ (Th st (th_ops th)) Ht) as C2.
    destruct Hc as [[E ->]|[[E ->]|[(E & -> & z & ops & Ho)|(E & o & ops & w & Ho & Hw & [[Hx ->]|[Hx ->]])]]].
    + rewrite !ind_ne in C1 by (simpl; congruence). rewrite !ind_ne in C2 by (simpl; congruence). lia.
    + rewrite (ind_eq AsleepNF) in C1 by done. rewrite ind_ne in C1 by done.
      rewrite (ind_ne AwakeNF th) in C2 by congruence. rewrite ind_eq in C2 by done. lia.
    + rewrite !ind_ne in C1 by (simpl; congruence). rewrite !ind_ne in C2 by (simpl; congruence). lia.
    + pose proof Hx as Hx'. apply exec_wait in Hx' as (_ & Ho').
      assert (th_st th <> AwakeNF /\ th_st th <> AsleepNF) as [A1 A2].
      { destruct (HW' _ _ Ht) as [Hok _]. unfold st_ok in Hok. rewrite Ho in Hok.
        split; intros E'; rewrite E' in Hok; destruct Hok as (? & ? & ?); destruct Ho' as [->|[-> _]]; done. }
      rewrite !ind_ne in C1 by (simpl; congruence). rewrite !ind_ne in C2 by (simpl; congruence). lia.
    + apply exec_wait in Hx as [Hle _]. right. lia.
  - set (thr := <[t:=Th Ready ops]> (q_thr s)).
    pose proof (cnt_insert AsleepNF _ _ _ (Th Ready ops) Ht) as C1. pose proof (cnt_insert AwakeNF _ _ _ (Th Ready ops) Ht) as C2. fold thr in C1, C2.
    rewrite (ind_ne _ (Th Ready ops)) in C1 by done. rewrite (ind_ne _ (Th Ready ops)) in C2 by done.
    rewrite (ind_ne AsleepNF th) in C1 by (destruct Hst as [E|[E|E]]; congruence).
    pose proof (ind_le AwakeNF th) as C3.
    assert (Hpush : ind AwakeNF th = 1 -> exists x, o = Push x).
    { intros Hi. destruct (decide (th_st th = AwakeNF)) as [E|E]; [|rewrite ind_ne in Hi by done; lia].
      destruct (HW' _ _ Ht) as [Hok _]. unfold st_ok in Hok. rewrite Ho, E in Hok.
      destruct Hok as (x & ? & Hq); injection Hq as -> ->. eauto. }
    pose proof (wf_next _ _ _ _ _ _ _ HW HP Ht Ho) as Hnr. pose proof (wf_next _ _ _ _ _ _ _ HW HP2 Ht Ho) as Hns.
    assert (Hmax : max = q_max s).
    { apply exec_fifo in Hx as [Hf Hcall]. destruct e as [x|x b|x m|x|[x|]|z [x|]|m|b|b|l'|m]; simpl in Hcall; subst o; try done; simpl in Hf;
       unfold take_front in Hf; repeat case_match; simplify_eq/=; done. }
    subst max.
    assert (D : forall n, n = NoNote \/ n = OneNE -> cnt AsleepNF (notify n pick thr) = cnt AsleepNF thr /\ cnt AwakeNF (notify n pick thr) = cnt AwakeNF thr).
    { intros n' [->| ->]; [done|]. cbn [notify].
      destruct (cnt_wake_one AsleepNE AwakeNE AsleepNF pick thr) as [[E ->]|[D1 D2]]; [done|].
      destruct (cnt_wake_one AsleepNE AwakeNE AwakeNF pick thr) as [[E ->]|[D1' D3]]; [done|].
      simpl in D2, D3. lia. }
    pose proof (exec_note _ _ _ _ _ _ _ _ Hx) as Hn. destruct n.
    + destruct (D NoNote ltac:(auto)) as [-> ->]. destruct Hn as [Hn|(l & -> & ->)]; [|done].
      assert (Hi : ind AwakeNF th = 0).
      { destruct (decide (ind AwakeNF th = 1)) as [Hi|Hi]; [|lia]. apply Hpush in Hi as [x ->]. simpl in Hx. destruct (_ <? _); simplify_eq/=. }
      destruct H as [H|H]; [left; lia|right; lia].
    + destruct (D OneNE ltac:(auto)) as [-> ->].
      assert (Hgrow : length (q_items s) + ind AwakeNF th <= length q \/ q_max s <= length q).
      { destruct Hn as (Hn & x & [->|[->| ->]]).
        - simpl in Hx. destruct (_ <? _); simplify_eq/=. rewrite app_length. simpl. left. lia.
        - assert (Hi : ind AwakeNF th = 0).
          { destruct (decide (ind AwakeNF th = 1)) as [Hi|Hi]; [|lia]. apply Hpush in Hi as [y Hy]. done. }
          simpl in Hx. destruct (is_full _ _); simplify_eq/=. rewrite app_length. left. lia.
        - assert (Hi : ind AwakeNF th = 0).
          { destruct (decide (ind AwakeNF th = 1)) as [Hi|Hi]; [|lia]. apply Hpush in Hi as [y Hy]. done. }
          apply force_len in Hx. destruct (Nat.eqb_spec (q_max s) 0); [right; lia|]. destruct (Nat.min_spec (S (length (q_items s))) (q_max s)); [left|right]; lia. }
      destruct H as [H|H]; [left; lia|right; lia].
    + destruct Hn as [Hn Hpop].
      assert (Hi : ind AwakeNF th = 0).
      { destruct (decide (ind AwakeNF th = 1)) as [Hi|Hi]; [|lia]. apply Hpush in Hi as [x ->]. done. }
      cbn [notify]. destruct (cnt_wake_one AsleepNF AwakeNF AsleepNF pick thr) as [[E ->]|[D1 D2]]; [by left|].
      destruct (cnt_wake_one AsleepNF AwakeNF AwakeNF pick thr) as [[E _]|[_ D3]]; [lia|].
      simpl in D2, D3.
      right. destruct H as [H|H]; lia.
    + destruct Hn as [l ->]. done.
  - pose proof (cnt_insert AsleepNF _ _ _ (Th Ready ops) Ht) as C1. pose proof (cnt_insert AwakeNF _ _ _ (Th Ready ops) Ht) as C2.
    rewrite !ind_ne in C1 by (simpl; destruct Hst as [E|[E _]]; congruence).
    rewrite !ind_ne in C2 by (simpl; destruct Hst as [E|[E _]]; congruence). lia.
Qed.
Lemma cons_run max progs acts : all_ops no_timed progs -> ConsInv (qrun (qst_new max progs) acts).
Proof.
  intros HP. apply (run_ind (fun s => WF progs s /\ ConsInv s)).
  - split; [apply wf_new|]. right. simpl. lia.
  - intros s a [H1 H2]. split; [by apply wf_step|by eapply cons_step].
Qed.
Lemma prod_run max progs acts : all_ops no_replace progs -> all_ops no_setmax progs -> ProdInv (qrun (qst_new max progs) acts).
Proof.
  intros HP HP2. apply (run_ind (fun s => WF progs s /\ ProdInv s)).
  - split; [apply wf_new|]. left. apply cnt_zero. intros t th Ht. cbn [qst_new q_thr] in Ht. rewrite list_lookup_fmap in Ht.
    destruct (progs !! t); [|done]. injection Ht as <-. done.
  - intros s a [H1 H2]. split; [by apply wf_step|by eapply prod_step].
Qed.
Lemma quiescent_no_awake progs s st : WF progs s -> quiescent s -> st = AwakeNE \/ st = AwakeNF -> cnt st (q_thr s) = 0.
Proof.
  intros [_ HW] HQ Hst. apply cnt_zero. intros t th Ht E. destruct (HQ _ _ Ht) as [Ho|[E'|E']].
  - destruct (HW _ _ Ht) as [Hok _]. unfold st_ok in Hok. rewrite Ho in Hok. destruct Hst; subst st; rewrite E in Hok; naive_solver.
  - destruct Hst; congruence.
  - destruct Hst; congruence.
Qed.

(** ** A single consumer without spurious wake-ups never pops an empty queue. *)
Definition OneInv (c : nat) (s : qst) : Prop :=
  q_ub s = false /\ (forall th, q_thr s !! c = Some th -> th_st th = AwakeNE -> q_items s <> []).
Lemma exec_nonempty o w max q q' max' n e : exec o w max q = Done q' max' n e -> no_replace o -> is_pop o = false ->
  (q <> [] -> q' <> []) /\ (n = OneNE \/ n = AllNE -> q' <> []).
Proof.
  intros Hx Hr Hp. assert (Ha : forall x, q ++ [x] <> []) by (intros x; by destruct q).
  destruct o; cbn [exec is_pop no_replace] in *; try done.
  - destruct (_ <? _); [|done]. injection Hx as <- <- <- <-. auto.
  - destruct (is_full max q); injection Hx as <- <- <- <-; [naive_solver|auto].
  - destruct (drop_loop max q) as [l k]. injection Hx as <- <- <- <-. split; intros _; by destruct l.
  - injection Hx as <- <- <- <-. naive_solver.
  - injection Hx as <- <- <- <-. naive_solver.
  - injection Hx as <- <- <- <-. naive_solver.
  - injection Hx as <- <- <- <-. naive_solver.
Qed.
Lemma exec_crash o w max q : exec o w max q = Crash -> w = true /\ q = [] /\ is_timed o = true.
Proof.
  destruct o; simpl; try done.
  - by destruct (_ <? _).
  - by destruct (is_full max q).
  - by destruct (drop_loop max q).
  - by destruct q.
  - by destruct q.
  - destruct q; [|done]. destruct w; [done|]. by destruct zero.
Qed.
Lemma one_step progs c s a : WF progs s -> all_ops no_replace progs ->
  (forall t p o, progs !! t = Some p -> o ∈ p -> is_pop o = true -> t = c) ->
  (forall t, a <> ASpurious t) -> OneInv c s -> OneInv c (qstep s a).
Proof.
  intros HW HP Hcons Hns [Hub HI]. pose proof HW as [_ HW'].
  assert (Hc1 : forall t th o ops, q_thr s !! t = Some th -> th_ops th = o :: ops -> is_pop o = true -> t = c).
  { intros t th o ops Ht Ho Hp. destruct (HW' _ _ Ht) as [_ Hpp]. eapply Hcons; [exact Hpp| |exact Hp]. rewrite Ho. set_solver. }
  assert (Hset : forall t th st, q_thr s !! t = Some th -> st <> AwakeNE ->
    OneInv c (Qst (q_items s) (q_max s) (<[t := Th st (th_ops th)]> (q_thr s)) false (q_log s))).
  { intros t th st Ht Hs. split; [done|]. cbn [q_thr q_items]. intros th' Hl Hs'.
    destruct (decide (t = c)) as [->|Hne].
    - rewrite list_lookup_insert in Hl by (by eapply lookup_lt_Some). injection Hl as <-. done.
    - rewrite list_lookup_insert_ne in Hl by done. eauto. }
  unfold qstep. rewrite Hub. destruct a as [t pick ex|t|t].
  - destruct (q_thr s !! t) as [[st [|o ops]]|] eqn:Et; [by split| |by split].
    assert (Hlt : t < length (q_thr s)) by (by eapply lookup_lt_Some).
    assert (Hto : forall lg, OneInv c (Qst (q_items s) (q_max s) (<[t:=Th Ready ops]> (q_thr s)) false lg)).
    { intros lg. split; [done|]. cbn [q_thr q_items]. intros th' Hl Hs'. destruct (decide (t = c)) as [->|Hne].
      - rewrite list_lookup_insert in Hl by done. by injection Hl as <-.
      - rewrite list_lookup_insert_ne in Hl by done. eauto. }
    assert (Hgo : forall w, (w = true -> st = AwakeNE \/ st = AwakeNF) ->
      OneInv c (match exec o w (q_max s) (q_items s) with
            | Done q max n e => Qst q max (notify n pick (<[t := Th Ready ops]> (q_thr s))) false (q_log s ++ [(t, e)])
            | WaitNE => Qst (q_items s) (q_max s) (set_status AsleepNE t (q_thr s)) false (q_log s)
            | WaitNF => Qst (q_items s) (q_max s) (set_status AsleepNF t (q_thr s)) false (q_log s)
            | Crash => Qst (q_items s) (q_max s) (q_thr s) true (q_log s) end)).
    { intros w Hw. destruct (exec o w (q_max s) (q_items s)) as [q max n e| | |] eqn:Ex.
      - split; [done|]. cbn [q_thr q_items]. intros th Hl Hs. apply notify_lookup_n in Hl as (th' & Hl & Hops & Hst').
        pose proof (wf_next _ _ _ _ _ _ _ HW HP Et eq_refl) as Hnr.
        destruct (decide (t = c)) as [->|Hne].
        + rewrite list_lookup_insert in Hl by done. injection Hl as <-. simpl in Hst'. destruct Hst' as [?|[(? & _)|(? & _)]]; congruence.
        + rewrite list_lookup_insert_ne in Hl by done.
          assert (Hnp : is_pop o = false). { destruct (is_pop o) eqn:Ep; [|done]. exfalso. apply Hne. by eapply Hc1. }
          destruct (exec_nonempty _ _ _ _ _ _ _ _ Ex Hnr Hnp) as [N1 N2].
          destruct Hst' as [E|[(E1 & E2 & E3)|(E1 & E2 & E3)]]; [|auto|congruence].
          apply N1. apply (HI th' Hl). congruence.
      - rewrite (set_status_insert _ _ _ _ Et). by apply (Hset t _ AsleepNE Et).
      - rewrite (set_status_insert _ _ _ _ Et). by apply (Hset t _ AsleepNF Et).
      - exfalso. apply exec_crash in Ex as (Hwt & Hq & Htm). destruct (HW' _ _ Et) as [Hok _]. unfold st_ok in Hok. simpl in Hok.
        assert (t = c) as -> by (eapply Hc1; [exact Et|done|]; by destruct o).
        destruct (Hw Hwt) as [->| ->]; [by apply (HI _ Et)|]. destruct Hok as (x & ops' & Hq'). by injection Hq' as -> ->. }
    destruct st; cbv zeta.
    + by apply Hgo.
    + by split.
    + destruct (is_timed o && ex); [apply Hto|apply Hgo; auto].
    + by split.
    + apply Hgo; auto.
    + apply Hto.
  - by destruct (Hns t).
  - destruct (q_thr s !! t) as [[st ops]|] eqn:Et; [|by split]. destruct st, ops as [|[] ?]; try by split.
    rewrite (set_status_insert _ _ _ _ Et). by apply (Hset t _ Expired Et).
Qed.
Lemma sublist_eq_len (l1 l2 : list nat) : l1 `sublist_of` l2 -> length l2 <= length l1 -> l1 = l2.
Proof.
  induction 1 as [|x l1 l2 Hs IH|x l1 l2 Hs IH]; simpl; intros Hl; [done|f_equal; apply IH; lia|].
  apply sublist_length in Hs. lia.
Qed.
(** A queue whose maximum is 0 never completes a push. *)
Lemma zero_never progs s acts : WF progs s -> q_max s = 0 -> (forall t x, (t, EPush x) ∉ q_log s) -> all_ops no_setmax progs ->
  q_max (qrun s acts) = 0 /\ forall t x, (t, EPush x) ∉ q_log (qrun s acts).
Proof.
  intros HW Hm Hl HP.
  assert (H : WF progs (qrun s acts) /\ q_max (qrun s acts) = 0 /\ forall t x, (t, EPush x) ∉ q_log (qrun s acts)); [|tauto].
  apply (run_ind (fun s => WF progs s /\ q_max s = 0 /\ forall t x, (t, EPush x) ∉ q_log s)); [done|].
  clear s acts HW Hm Hl. intros s a (HW & Hm & Hl). split; [by apply wf_step|].
  destruct (step_shape s a) as [| |u th st Hu Hub Hc|u th o ops w q max n e pick Hu Hub Ho Hst Hw Hx|u th o ops Hu Hub Ho Hst]; [done|done|done| |].
  - cbn [q_max q_log]. pose proof (wf_next _ _ _ _ _ _ _ HW HP Hu Ho) as Hns. rewrite Hm in Hx. split.
    + destruct o; simpl in Hx; repeat case_match; simplify_eq/=; done.
    + intros u' y Hin. apply elem_of_app in Hin as [Hin|Hin]; [by eapply Hl|]. apply elem_of_list_singleton in Hin. injection Hin as <- <-.
      apply exec_fifo in Hx as Hf. destruct Hf as [_ Hcall]. simpl in Hcall. subst o. simpl in Hx. done.
  - cbn [q_max q_log]. split; [done|]. intros u' y Hin. apply elem_of_app in Hin as [Hin|Hin]; [by eapply Hl|]. by apply elem_of_list_singleton in Hin.
Qed.
Lemma wf_copy s progs : WF progs (copy_of s progs).
Proof.
  split; [apply fmap_length|]. intros t th Ht. cbn [copy_of q_thr] in Ht. rewrite list_lookup_fmap in Ht.
  destruct (progs !! t) as [p|]; [|done]. injection Ht as <-. done.
Qed.
