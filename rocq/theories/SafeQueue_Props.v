(** * Properties of the safe queue: C16 - C20, C55. *)
From stdpp Require Import prelude list_numbers.
From Verif Require Import SafeQueue_Model SafeQueue_Spec SafeQueue_Proofs.

(** C16. Every execution is that of a sequential bounded FIFO queue in which
    each call takes effect at one instant: the completed calls, in the order of the log, have the results the
    specification gives, and the calls of each thread appear in its program order. *)
Theorem C16_linearizable : forall max progs acts, let s := qrun (qst_new max progs) acts in
  fifo_run max (snd <$> q_log s) = Some (q_max s, q_items s) /\
  (forall t th, q_thr s !! t = Some th -> progs !! t = Some (calls_of t (q_log s) ++ th_ops th)).
Proof.
  intros max progs acts s. split; [apply lin_run|]. intros t th Ht. by apply (wf_run max progs acts).
Qed.
Print Assumptions C16_linearizable.
(** Consequences: items leave in order of entry, each once; the maximum is respected. *)
Theorem C16_fifo_bounded : forall max progs acts, 0 < max -> all_ops no_replace progs -> all_ops no_setmax progs ->
  let s := qrun (qst_new max progs) acts in let l := snd <$> q_log s in
  (exists out, entered l = out ++ q_items s /\ delivered l `sublist_of` out /\ length out = length (delivered l) + dropped l) /\
  (dropped l = 0 -> entered l = delivered l ++ q_items s) /\
  length (q_items s) <= max.
Proof.
  intros max progs acts Hmax H1 H2 s l. pose proof (lin_run max progs acts) as HL.
  assert (Hpl : Forall ev_plain l).
  { pose proof (log_ops _ max progs acts H1) as F1. pose proof (log_ops _ max progs acts H2) as F2. fold s l in F1, F2.
    rewrite Forall_forall in *. intros e He. specialize (F1 e He). specialize (F2 e He). by destruct e. }
  destruct (fifo_account _ _ _ _ Hpl HL) as [(out & E1 & E2 & E3) E4]. split; [eauto|]. split; [|auto].
  intros Hd. assert (delivered l = out) as ->; [|done]. apply sublist_eq_len; [done|]. lia.
Qed.
Print Assumptions C16_fifo_bounded.
Example C16_case : q_log (qrun (qst_new 1 [[Push 7; Push 8]; [Pop; TryPop]; [ForcePush 9; TryPush 5]])
    [ARun 1 0 false; ARun 0 0 false; ARun 0 0 false; ARun 1 0 false; ARun 2 0 false; ARun 0 0 false; ARun 2 0 false; ARun 1 0 false; ARun 0 0 false]) =
  [(0, EPush 7); (1, EPop 7); (2, EForce 9 0); (2, ETryPush 5 false); (1, ETryPop (Some 9)); (0, EPush 8)].
Proof. reflexivity. Qed.

(** C17. *)
Theorem C17_accounting : forall max progs acts, all_ops no_replace progs -> all_ops no_setmax progs ->
  let s := qrun (qst_new max progs) acts in let l := snd <$> q_log s in
  length (entered l) = length (delivered l) + length (q_items s) + dropped l.
Proof.
  intros max progs acts H1 H2 s l. pose proof (lin_run max progs acts) as HL.
  assert (Hpl : Forall ev_plain l).
  { pose proof (log_ops _ max progs acts H1) as F1. pose proof (log_ops _ max progs acts H2) as F2. fold s l in F1, F2.
    rewrite Forall_forall in *. intros e He. specialize (F1 e He). specialize (F2 e He). by destruct e. }
  destruct (fifo_account _ _ _ _ Hpl HL) as [(out & E1 & E2 & E3) E4]. fold s in E1. fold l in E1, E2, E3.
  rewrite E1, app_length. lia.
Qed.
Print Assumptions C17_accounting.
(** It drops the oldest items, as many as needed to make room, and enqueues the item; it never waits. *)
Theorem C17_force_minimal : forall max progs acts t x n l1 l2,
  q_log (qrun (qst_new max progs) acts) = l1 ++ (t, EForce x n) :: l2 ->
  exists m q, fifo_run max (snd <$> l1) = Some (m, q) /\
    n = (if m =? 0 then 0 else S (length q) - m) /\
    fifo_run max (snd <$> l1 ++ [(t, EForce x n)]) = Some (m, drop n q ++ [x]).
Proof.
  intros max progs acts t x n l1 l2 El. pose proof (lin_run max progs acts) as HL. unfold Lin in HL. rewrite El in HL.
  rewrite fmap_app, fmap_cons in HL. unfold fifo_run in *. rewrite fold_left_app in HL. cbn [fold_left snd] in HL.
  rewrite fmap_app, fold_left_app. cbn [fmap list_fmap fold_left snd].
  assert (Hnone : forall l : list qev, fold_left fifo l None = None) by (induction l; done).
  destruct (fold_left fifo (snd <$> l1) (Some (max, []))) as [[m q]|] eqn:E; [|by rewrite Hnone in HL].
  exists m, q. split; [done|]. destruct (Nat.eqb_spec n (if m =? 0 then 0 else S (length q) - m)) as [Hn|Hn].
  - split; [exact Hn|]. cbn [fifo]. destruct (Nat.eqb_spec n (if m =? 0 then 0 else S (length q) - m)); done.
  - cbn [fifo] in HL. destruct (Nat.eqb_spec n (if m =? 0 then 0 else S (length q) - m)); [done|]. by rewrite Hnone in HL.
Qed.
Print Assumptions C17_force_minimal.
Theorem C17_force_never_waits : forall s t x ops pick ex, q_ub s = false -> q_thr s !! t = Some (Th Ready (ForcePush x :: ops)) ->
  exists n, q_log (qstep s (ARun t pick ex)) = q_log s ++ [(t, EForce x n)] /\
    last (q_items (qstep s (ARun t pick ex))) = Some x.
Proof.
  intros s t x ops pick ex Hub Ht. unfold qstep. rewrite Hub, Ht. cbn [exec]. destruct (drop_loop _ _) as [q n].
  exists n. cbn [q_log q_items]. split; [done|]. by rewrite last_snoc.
Qed.
Print Assumptions C17_force_never_waits.
Example C17_case : let s := qrun (qst_new 2 [[ForcePush 1; ForcePush 2; ForcePush 3; Pop]]) (repeat (ARun 0 0 false) 4) in
  (snd <$> q_log s) = [EForce 1 0; EForce 2 0; EForce 3 1; EPop 2] /\ q_items s = [3].
Proof. split; reflexivity. Qed.

(** C18: no execution pops an empty queue. *)
Definition C18_statement : Prop := forall max progs acts, q_ub (qrun (qst_new max progs) acts) = false.
(** False: a spurious wake-up; or the item is taken by another consumer between the notification and the wake-up. *)
Theorem C18_spurious_refuted : ~ C18_statement.
Proof. intros H. specialize (H 5 [[TimedPop false]] [ARun 0 0 false; ASpurious 0; ARun 0 0 false]). discriminate. Qed.
Print Assumptions C18_spurious_refuted.
Theorem C18_stolen_refuted : exists max progs acts, (forall t, ASpurious t ∉ acts) /\ q_ub (qrun (qst_new max progs) acts) = true.
Proof.
  exists 5, [[TimedPop false]; [Push 7]; [TryPop]], [ARun 0 0 false; ARun 1 0 false; ARun 2 0 false; ARun 0 0 false].
  split; [|reflexivity]. intros t. set_solver.
Qed.
Print Assumptions C18_stolen_refuted.
(** It holds with a single consuming thread and no spurious wake-ups (and no replacement of the contents). *)
Theorem C18_single_consumer : forall max progs acts c, all_ops no_replace progs ->
  (forall t p o, progs !! t = Some p -> o ∈ p -> is_pop o = true -> t = c) -> (forall t, ASpurious t ∉ acts) ->
  q_ub (qrun (qst_new max progs) acts) = false.
Proof.
  intros max progs acts c HP Hc Hsp.
  assert (H : forall acts s, (forall t, ASpurious t ∉ acts) -> WF progs s -> OneInv c s -> OneInv c (qrun s acts)).
  { clear acts Hsp. induction acts as [|a acts IH]; intros s Hsp HW HI; [done|]. cbn [qrun fold_left]. apply IH.
    - intros t Hin. apply (Hsp t). by apply elem_of_list_further.
    - by apply wf_step.
    - eapply one_step; eauto. intros t ->. apply (Hsp t). constructor. }
  apply H; [done|apply wf_new|]. split; [done|]. intros th Ht. cbn [qst_new q_thr] in Ht. rewrite list_lookup_fmap in Ht.
  destruct (progs !! c); [|done]. by injection Ht as <-.
Qed.
Print Assumptions C18_single_consumer.
Example C18_case : let progs := [[TimedPop false; TimedPop false]; [Push 7]; [ForcePush 8]] in
  all_ops no_replace progs /\ (forall t p o, progs !! t = Some p -> o ∈ p -> is_pop o = true -> t = 0) /\
  q_log (qrun (qst_new 1 progs) [ARun 0 0 false; ARun 1 0 false; ARun 2 0 false; ARun 0 0 false; ARun 0 0 false; AExpire 0; ARun 0 0 false]) =
   [(1, EPush 7); (2, EForce 8 1); (0, ETimed false (Some 8)); (0, ETimed false None)].
Proof.
  split; [by repeat constructor|]. split; [|reflexivity].
  intros [|[|[|t]]] p o Hp Ho Hpop; [done|..]; injection Hp as <- || done; apply elem_of_list_singleton in Ho; by subst o.
Qed.

(** C19: with maximum 0 a push completes when it runs. *)
Definition C19_statement : Prop := forall progs acts t x ops,
  let s := qrun (qst_new 0 progs) acts in
  q_ub s = false -> q_thr s !! t = Some (Th Ready (Push x :: ops)) ->
  exists pick, (t, EPush x) ∈ q_log (qstep s (ARun t pick false)).
(** False, and no push ever completes: *)
Theorem C19_zero_refuted : ~ C19_statement /\
  (forall progs acts t x, all_ops no_setmax progs -> (t, EPush x) ∉ q_log (qrun (qst_new 0 progs) acts)).
Proof.
  assert (H : forall progs acts t x, all_ops no_setmax progs -> (t, EPush x) ∉ q_log (qrun (qst_new 0 progs) acts)).
  { intros progs acts t x HP. eapply zero_never; [apply wf_new|done| |done]. intros ? ?. cbn. set_solver. }
  split; [|exact H]. intros HS. specialize (HS [[Push 7]] [] 0 7 [] eq_refl eq_refl) as [pick Hin].
  apply (H [[Push 7]] [ARun 0 pick false] 0 7); [by repeat constructor|]. exact Hin.
Qed.
Print Assumptions C19_zero_refuted.
(** A copy-constructed or move-constructed queue should behave as its source. *)
Definition C19_copy_statement : Prop := forall s progs acts,
  q_log (qrun (copy_of s progs) acts) = q_log (qrun (Qst (q_items s) (q_max s) (Th Ready <$> progs) false []) acts).
(** False, and no push on a copy ever completes, whatever the source. *)
Theorem C19_copy_refuted : ~ C19_copy_statement /\
  (forall s progs acts t x, all_ops no_setmax progs -> (t, EPush x) ∉ q_log (qrun (copy_of s progs) acts)).
Proof.
  split.
  - intros H. specialize (H (qrun (qst_new 2 [[Push 1]]) [ARun 0 0 false]) [[Push 5]] [ARun 0 0 false]). discriminate.
  - intros s progs acts t x HP. eapply zero_never; [apply wf_copy|done| |done]. intros ? ?. cbn. set_solver.
Qed.
Print Assumptions C19_copy_refuted.
(** The non-blocking pushes do treat 0 as "no limit": they are never refused and drop nothing. *)
Theorem C19_nonblocking : forall progs acts t, all_ops no_setmax progs ->
  let l := q_log (qrun (qst_new 0 progs) acts) in
  (forall x, (t, ETryPush x false) ∉ l) /\ (forall x n, (t, EForce x n) ∈ l -> n = 0).
Proof.
  intros progs acts t HP. set (s := qrun _ acts). pose proof (lin_run 0 progs acts) as HL. fold s in HL. unfold Lin in HL. cbv zeta.
  assert (Hno : Forall (fun e => match e with ESetMax _ => False | _ => True end) (snd <$> q_log s)).
  { pose proof (log_ops _ 0 progs acts HP) as F. fold s in F. eapply Forall_impl; [exact F|]. by intros []. }
  assert (Hnone : forall l : list qev, fold_left fifo l None = None) by (induction l; done).
  assert (Hsp : forall e, (t, e) ∈ q_log s -> exists q, fifo (Some (0, q)) e <> None).
  { intros e He. apply elem_of_list_split in He as (l1 & l2 & E). rewrite E in HL, Hno. rewrite fmap_app, fmap_cons in HL, Hno.
    apply Forall_app in Hno as [Hno _].
    unfold fifo_run in HL. rewrite fold_left_app in HL. cbn [fold_left snd] in HL.
    destruct (fold_left fifo (snd <$> l1) (Some (0, []))) as [[m q]|] eqn:E1; [|by rewrite Hnone in HL].
    pose proof (fifo_max _ _ _ _ Hno E1) as ->. exists q. intros E2. rewrite E2, Hnone in HL. done. }
  split.
  - intros x Hin. destruct (Hsp _ Hin) as [q Hq]. done.
  - intros x n Hin. destruct (Hsp _ Hin) as [q Hq]. simpl in Hq. destruct (Nat.eqb_spec n 0); done.
Qed.
Print Assumptions C19_nonblocking.
(** On a copy, of any queue: it starts with the source's items and is a FIFO queue without a maximum; its calls appear in program order; the first call on it takes the source's oldest item. *)
Theorem C19_copy_linearizable : forall s0 progs acts, let s := qrun (copy_of s0 progs) acts in
  fold_left fifo (snd <$> q_log s) (Some (0, q_items s0)) = Some (q_max s, q_items s) /\
  (forall t th, q_thr s !! t = Some th -> progs !! t = Some (calls_of t (q_log s) ++ th_ops th)).
Proof.
  intros s0 progs acts.
  set (P := fun s => WF progs s /\ fold_left fifo (snd <$> q_log s) (Some (0, q_items s0)) = Some (q_max s, q_items s)).
  assert (G : P (qrun (copy_of s0 progs) acts)).
  { apply (run_ind P); [split; [apply wf_copy|done]|]. intros s a [HW' H]. split; [by apply wf_step|]. destruct HW' as [_ HW].
    destruct (step_shape s a) as [| |t th st Ht Hub Hc|t th o ops w q max n e pick Ht Hub Ho Hst Hw Hx|t th o ops Ht Hub Ho Hst]; [done|done|done| |];
      cbn [q_log q_items q_max]; rewrite fmap_app, fold_left_app; cbn [fmap list_fmap snd fold_left]; rewrite H.
    - by apply exec_fifo in Hx as [-> _].
    - destruct (HW _ _ Ht) as [Hok _]. unfold st_ok in Hok.
      assert (Hz : zero_of o = false).
      { rewrite Ho in Hok. destruct Hst as [E|[E _]]; rewrite E in Hok.
        - destruct Hok as [? Hq]. by injection Hq as -> _.
        - destruct Hok as [? [Hq|Hq]]; by injection Hq as -> _. }
      rewrite Hz. done. }
  destruct G as [G1 G2]. split; [done|]. intros t th Ht. by apply G1.
Qed.
Print Assumptions C19_copy_linearizable.
Theorem C19_copy_first : forall s0 progs t ops pick ex, progs !! t = Some (TryPop :: ops) ->
  q_log (qrun (copy_of s0 progs) [ARun t pick ex]) = [(t, ETryPop (head (q_items s0)))] /\ q_items (qrun (copy_of s0 progs) [ARun t pick ex]) = tail (q_items s0).
Proof.
  intros s0 progs t ops pick ex Hp. cbn [qrun fold_left]. unfold qstep. cbn [copy_of q_ub q_thr q_items q_max q_log]. rewrite list_lookup_fmap, Hp. cbn [fmap option_fmap option_map exec].
  by destruct (q_items s0).
Qed.
Print Assumptions C19_copy_first.
Example C19_case : q_log (qrun (qst_new 0 [[TryPush 1; TryPush 2; ForcePush 3]]) (repeat (ARun 0 0 false) 3)) =
  [(0, ETryPush 1 true); (0, ETryPush 2 true); (0, EForce 3 0)].
Proof. reflexivity. Qed.

(** C20: in a state where nothing can happen by itself any more, a consumer is blocked
    only if the queue is empty and a producer only if it is full. *)
Definition C20_consumers : list (list qop) -> Prop := fun progs => forall max acts,
  let s := qrun (qst_new max progs) acts in quiescent s -> blocked_consumer s -> q_items s = [].
Definition C20_producers : list (list qop) -> Prop := fun progs => forall max acts,
  let s := qrun (qst_new max progs) acts in quiescent s -> blocked_producer s -> q_max s <= length (q_items s).
(** False for consumers: the notification of a push goes to a timed pop that expires at
    the same moment; the consumer blocked in pop sleeps on beside an available item. *)
Theorem C20_lost_wakeup_refuted : ~ (forall progs, C20_consumers progs).
Proof.
  intros H. specialize (H [[TimedPop false]; [Pop]; [Push 7]] 5
    [ARun 0 0 false; ARun 1 0 false; ARun 2 0 false; ARun 0 0 true]). cbv zeta in H.
  enough (E : [7] = []) by done. apply H.
  - intros [|[|[|t]]] th Hl; [..|done]; injection Hl as <-; auto.
  - exists 1. eexists. split; reflexivity.
Qed.
Print Assumptions C20_lost_wakeup_refuted.
(** False for producers: swapping in an empty queue (or assigning one), or raising the maximum, wakes nobody. *)
Theorem C20_swap_refuted : ~ (forall progs, all_ops no_setmax progs -> C20_producers progs) /\
  ~ (forall progs, all_ops no_replace progs -> C20_producers progs).
Proof.
  split; intros H.
  - specialize (H [[Push 1; Push 2]; [Replace []]] ltac:(by repeat constructor) 1 [ARun 0 0 false; ARun 0 0 false; ARun 1 0 false]).
    cbv zeta in H. enough (E : 1 <= 0) by lia. apply H.
    + intros [|[|t]] th Hl; [..|done]; injection Hl as <-; auto.
    + exists 0. eexists. split; reflexivity.
  - specialize (H [[Push 1; Push 2]; [SetMax 5]] ltac:(by repeat constructor) 1 [ARun 0 0 false; ARun 0 0 false; ARun 1 0 false]).
    cbv zeta in H. enough (E : 5 <= 1) by lia. apply H.
    + intros [|[|t]] th Hl; [..|done]; injection Hl as <-; auto.
    + exists 0. eexists. split; reflexivity.
Qed.
Print Assumptions C20_swap_refuted.
(** They hold without timed pops, resp. without replacement and change of maximum. *)
Theorem C20_consumers_woken : forall progs, all_ops no_timed progs -> C20_consumers progs.
Proof.
  intros progs HP max acts s HQ (t & th & Ht & Hs). destruct (cons_run max progs acts HP) as [H|H]; fold s in H.
  - pose proof (cnt_pos _ _ _ _ Ht Hs). lia.
  - rewrite (quiescent_no_awake progs s AwakeNE (wf_run max progs acts) HQ) in H by auto. apply nil_length_inv. lia.
Qed.
Print Assumptions C20_consumers_woken.
Theorem C20_producers_woken : forall progs, all_ops no_replace progs -> all_ops no_setmax progs -> C20_producers progs.
Proof.
  intros progs HP HP2 max acts s HQ (t & th & Ht & Hs). destruct (prod_run max progs acts HP HP2) as [H|H]; fold s in H.
  - pose proof (cnt_pos _ _ _ _ Ht Hs). lia.
  - rewrite (quiescent_no_awake progs s AwakeNF (wf_run max progs acts) HQ) in H by auto. lia.
Qed.
Print Assumptions C20_producers_woken.
Example C20_case : let progs := [[Push 1; Push 2]; [TryPush 3; Pop; Pop; Pop; Pop]] in
  let s := qrun (qst_new 1 progs) [ARun 0 0 false; ARun 0 0 false; ARun 1 0 false; ARun 1 0 false; ARun 0 0 false; ARun 1 0 false; ARun 1 0 false] in
  all_ops no_timed progs /\ all_ops no_replace progs /\ all_ops no_setmax progs /\ quiescent s /\ blocked_consumer s /\ q_items s = [].
Proof.
  split; [by repeat constructor|]. split; [by repeat constructor|]. split; [by repeat constructor|]. split; [|split; [|reflexivity]].
  - intros [|[|t]] th Hl; [..|done]; injection Hl as <-; auto.
  - exists 1. eexists. split; reflexivity.
Qed.

(** C55: concurrent swaps always return. *)
Definition swaps_done (s : swap_st) : Prop := Forall (fun c => sw_pc c = 3) (sw_thr s).
Definition C55_statement : Prop := forall n calls sched, Forall (fun p => p.1 < n /\ p.2 < n) calls ->
  exists sched', swaps_done (swap_run (swap_new n calls) (sched ++ sched')).
(** False: a.swap(b) in one thread and b.swap(a) in another. *)
Theorem C106_swap_deadlock_refuted : ~ C55_statement.
Proof.
  intros H. destruct (H 2 [(0, 1); (1, 0)] [0; 1]) as [sched' Hd]; [by repeat constructor; simpl; lia|].
  unfold swap_run in Hd. rewrite fold_left_app in Hd. simpl in Hd.
  set (s := SwapSt [Some 0; Some 1] [SwapCall 0 1 1; SwapCall 1 0 1]) in Hd.
  assert (Hs : forall l, fold_left swap_step l s = s).
  { induction l as [|[|[|t]] l IH]; [done|..]; simpl; exact IH. }
  change (Forall (fun c => sw_pc c = 3) (sw_thr (fold_left swap_step sched' s))) in Hd. rewrite Hs in Hd.
  by apply Forall_cons in Hd as [? _].
Qed.
Print Assumptions C106_swap_deadlock_refuted.
