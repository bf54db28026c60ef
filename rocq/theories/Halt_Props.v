(** * Properties of the event processor's life: C27 (halt stops it), C59 (no lost wake-up).
    For every wait strategy, any number of other threads with any programs of halt/publish/wait-until-running/join, every schedule, any handler exceptions.
    [all_threads n l]: the piece of schedule [l] has a step of the consumer thread and of each of the n other threads; a fair schedule is a sequence of such pieces. *)
From stdpp Require Import prelude list_numbers.
From Coq Require Import ZArith Lia ZifyBool.
From Verif Require Import Base Halt_Model Halt_Proofs Halt_Live.
Local Open Scope Z_scope.

Definition total_pubs (progs : list (list hop)) : nat := sum_list_with (fun p => length (filter (fun o => o = OPub) p)) progs.

Lemma bound_run g s acts : bound (hrun g s acts) = bound s.
Proof. induction acts as [|a acts IH] using rev_ind; [done|]. by rewrite hrun_snoc, bound_step. Qed.
Lemma bound_new progs : bound (hst_new progs) = -1 + Z.of_nat (total_pubs progs).
Proof. unfold bound, total_pubs. cbn [h_cursor h_callers hst_new]. f_equal. f_equal. induction progs as [|p progs IH]; [done|]. simpl. f_equal. exact IH. Qed.
Lemma callers_run g s acts : length (h_callers (hrun g s acts)) = length (h_callers s).
Proof. induction acts as [|a acts IH] using rev_ind; [done|]. by rewrite hrun_snoc, callers_length. Qed.
Definition past_clear (pc : rpc) : bool := match pc with RCas | RClear => false | _ => true end.
Lemma past_step g s a : past_clear (h_run s) = true -> past_clear (h_run (hstep g s a)) = true.
Proof.
  intros H. destruct a as [o w|t]; cbn [hstep].
  - unfold run_step. destruct (h_run s) as [| | | | | | | |wk|to| | | |nx avail| | | | |] eqn:E; try done; repeat match goal with |- context [if ?b then _ else _] => destruct b end; try done; destruct w, (h_strat g), o; cbn; rewrite ?E; done.
  - destruct (decide (h_run s = RAsleep false)) as [E|E]; [|by rewrite call_awake].
    unfold call_step. destruct (h_callers s !! t) as [[[] [|[] ?]]|]; try done; repeat match goal with |- context [if ?b then _ else _] => destruct b end; cbn; rewrite ?E; done.
Qed.
(** What a completed halt() has done, if the consumer had cleared its alert before. *)
Lemma halt_done g s1 t rest a2 : h_callers s1 !! t = Some (Caller CIdle (OHalt :: rest)) -> past_clear (h_run s1) = true ->
  let s2 := hrun g s1 a2 in past_clear (h_run s2) = true /\
  (h_callers s2 !! t = Some (Caller CIdle (OHalt :: rest)) \/ (h_running s2 = false /\ (h_callers s2 !! t = Some (Caller CAlert rest) \/ h_alerted s2 = true))).
Proof.
  intros Ht Hp. cbv zeta. induction a2 as [|a a2 IH] using rev_ind; [cbn; auto|]. rewrite hrun_snoc. set (s := hrun g s1 a2) in *. clearbody s. destruct IH as [Hps IH]. clear s1 Ht Hp.
  split; [by apply past_step|].
  destruct a as [o w|u]; cbn [hstep].
  - assert (Ec : h_callers (run_step g s o w) = h_callers s).
    { unfold run_step. destruct (h_run s); repeat match goal with |- context [if ?b then _ else _] => destruct b end; try done; destruct w, (h_strat g), o; done. }
    rewrite Ec. destruct IH as [IH|(H1 & H2)]; [by left|right].
    assert (E : h_running (run_step g s o w) = false /\ h_alerted (run_step g s o w) = h_alerted s).
    { unfold run_step. destruct (h_run s); try done; repeat match goal with |- context [if ?b then _ else _] => destruct b eqn:? end; try done; destruct w, (h_strat g), o; done. }
    destruct E as [-> ->]. auto.
  - unfold call_step. destruct (decide (u = t)) as [->|Hne].
    + assert (Hlt : forall c, h_callers s !! t = Some c -> (t < length (h_callers s))%nat) by (intros c Hc; by eapply lookup_lt_Some).
      destruct IH as [IH|(H1 & [H2|H2])].
      * rewrite IH. right. cbn. split; [done|]. left. rewrite list_lookup_insert; [done|by eapply Hlt].
      * rewrite H2. right. cbn. auto.
      * right. destruct (h_callers s !! t) as [[[] [|[] ?]]|]; cbn; rewrite ?H1, ?H2; auto; repeat match goal with |- context [if ?b then _ else _] => destruct b end; cbn; auto.
    + assert (Hk : forall c r a n cu pc, (h_running s = false -> r = false) -> (h_alerted s = true -> a = true) ->
        h_callers (c_set s u c r a n cu pc) !! t = Some (Caller CIdle (OHalt :: rest)) \/
        h_running (c_set s u c r a n cu pc) = false /\ (h_callers (c_set s u c r a n cu pc) !! t = Some (Caller CAlert rest) \/ h_alerted (c_set s u c r a n cu pc) = true)).
      { intros c r a n cu pc Hr Ha. cbn [h_callers h_running h_alerted c_set]. rewrite list_lookup_insert_ne by done. destruct IH as [IH|(H1 & H2)]; [by left|right].
        split; [auto|]. destruct H2; auto. }
      destruct (h_callers s !! u) as [[[] [|[] ?]]|]; cbn -[c_set]; try done; repeat match goal with |- context [if ?b then _ else _] => destruct b eqn:? end; try done; first [by apply Hk; auto|destruct IH as [IH|[_ IH]]; [by left|right; auto]].
Qed.

(** ** C27. *)
(** If halt() is called when run() is past its clear_alert() (whatever it is doing: waiting, in a handler, asleep), then once the call has returned, run() returns
    in every fair schedule, within a number of rounds bounded by the number of publications. Partial: see the next theorems for the other timings. *)
Theorem C27_stops : forall g progs a1 t rest a2 rounds, (h_tso g = true -> h_strat g <> LiteBlocking) -> let s1 := hrun g (hst_new progs) a1 in let s2 := hrun g s1 a2 in
  h_callers s1 !! t = Some (Caller CIdle (OHalt :: rest)) -> in_loop (h_run s1) = true ->
  h_callers s2 !! t = Some (Caller CIdle rest) ->
  Forall (all_threads (length progs)) rounds -> (12 + total_pubs progs <= length rounds)%nat ->
  finished (h_run (hrun g s2 (concat rounds))) = true.
Proof.
  intros g progs a1 t rest a2 rounds Ht s1 s2 Hc Hl Hd Hr Hlen.
  assert (Hpc : past_clear (h_run s1) = true) by (unfold in_loop in Hl; by destruct (h_run s1)).
  destruct (halt_done g s1 t rest a2 Hc Hpc) as [Hp2 H]. fold s2 in Hp2, H.
  assert (Hne : OHalt :: rest <> rest) by (intros E; apply (f_equal length) in E; cbn in E; lia).
  destruct H as [H|(H1 & [H|H2])]; [rewrite Hd in H; injection H as H; by symmetry in H|rewrite Hd in H; done|].
  assert (Es : s2 = hrun g (hst_new progs) (a1 ++ a2)) by (unfold s2, s1; by rewrite hrun_app).
  assert (W : WInv g s2) by (rewrite Es; by apply winv_reach). assert (Q : QInv s2) by (rewrite Es; by apply qinv_reach).
  assert (Hn : length (h_callers s2) = length progs) by (rewrite Es, callers_run; cbn; by rewrite fmap_length).
  apply halt_stops; [done|constructor; try done| |].
  - unfold past_clear in Hp2. by destruct (h_run s2).
  - by rewrite Hn.
  - etransitivity; [|exact Hlen]. assert (Hb : bound s2 = -1 + Z.of_nat (total_pubs progs)) by (rewrite Es, bound_run; apply bound_new).
    pose proof (bound_le s2). destruct Q as [Q1 Q2 _]. unfold hrank, dmax. rewrite Hb in *. destruct (h_run s2) as [| | | | | | | |[]| | | | |nx avail| | | | |]; try lia. destruct (csigb s2); lia.
Qed.
Print Assumptions C27_stops.
(** While the consumer is alive nothing but halt(), or an exception that is not a std::exception, ends it. *)
Definition no_other (a : hact) : Prop := match a with HRun HOther _ => False | _ => True end.
Record Lost (s : hst) : Prop := {
  lo_run : h_running s = false; lo_al : h_alerted s = false;
  lo_pc : match h_run s with RCas | RClear | RAlert | RStop | RDone | RFail | RThrew => False | _ => True end;
  lo_calm : forall t c, h_callers s !! t = Some c -> calm_caller c;
  lo_join : h_callers s !! 0%nat = Some (Caller CIdle [OJoin])
}.
Lemma run_callers g s o w : h_callers (run_step g s o w) = h_callers s.
Proof. unfold run_step. destruct (h_run s); repeat match goal with |- context [if ?b then _ else _] => destruct b end; try done; destruct w, (h_strat g), o; done. Qed.
Lemma lost_step g s a : no_other a -> Lost s -> Lost (hstep g s a).
Proof.
  intros Ho [L1 L2 L3 L4 L5]. pose proof (calm_step g s a L4) as C. destruct a as [o w|t]; cbn [hstep] in *.
  - constructor; [| | |done|by rewrite run_callers]; clear C L4 L5; unfold run_step; destruct (h_run s) as [| | | | | | | |wk|to| | | |nx avail| | | | |] eqn:E; rewrite ?L1, ?L2; try done;
      repeat match goal with |- context [if ?b then _ else _] => destruct b eqn:? end; try done; destruct w, (h_strat g), o; cbn; rewrite ?E; done.
  - unfold call_step in *. destruct (h_callers s !! t) as [[pc todo]|] eqn:Hu; [|by constructor].
    pose proof (L4 t _ Hu) as [H1 H2]. cbn in H1, H2.
    assert (Hj : forall c', (t = 0%nat -> c' = Caller CIdle [OJoin]) -> <[t := c']> (h_callers s) !! 0%nat = Some (Caller CIdle [OJoin])).
    { intros c' Hc'. destruct (decide (t = 0%nat)) as [->|Hne]; [|by rewrite list_lookup_insert_ne]. rewrite list_lookup_insert by (by eapply lookup_lt_Some). by rewrite Hc'. }
    assert (Hnf : finished (h_run s) = false) by (destruct (h_run s); done).
    destruct (decide (t = 0%nat)) as [->|Hne].
    { rewrite L5 in Hu. injection Hu as <- <-. rewrite Hnf in *. by constructor. }
    destruct pc; [destruct todo as [|[] rest]| | |]; repeat match goal with |- context [if ?b then _ else _] => destruct b eqn:? end; cbn -[c_set] in C |- *; try done; try (constructor; cbn; try done; by apply Hj).
    constructor; cbn; try done; [|by apply Hj]. by destruct (h_run s).
Qed.
(** halt() called between run()'s compare-and-swap and its clear_alert() is lost for ever: this is what start() followed by stop() of the event loop can do
    (start() returns as soon as is_running()), and stop() then waits for ever in join(). For every wait strategy, with any other threads publishing. *)
Theorem C27_start_stop_refuted : forall g others, Forall (fun p => OHalt ∉ p) others ->
  exists acts, let s := hrun g (hst_new ([OAwaitRunning; OHalt; OJoin] :: others)) acts in
    h_callers s !! 0%nat = Some (Caller CIdle [OJoin]) /\
    forall acts', Forall no_other acts' -> let s' := hrun g s acts' in in_loop (h_run s') = true /\ h_callers s' !! 0%nat = Some (Caller CIdle [OJoin]).
Proof.
  intros g others Hoth.
  exists ([HRun HOk WNone; HCall 0; HCall 0; HCall 0] ++ (match h_strat g with Spin => [] | _ => [HCall 0] end) ++ [HRun HOk WNone]). cbv zeta.
  set (s := hrun g _ _).
  assert (L : Lost s).
  { assert (Hcalm : forall c', (c' = Caller CIdle [OJoin]) -> forall t c, (c' :: (Caller CIdle <$> others)) !! t = Some c -> calm_caller c).
    { intros c' -> [|t] c Hc; cbn in Hc; [injection Hc as <-; split; [done|]; cbn; intros Hin; apply elem_of_list_singleton in Hin; done|].
      apply list_lookup_fmap_Some in Hc as (p & Hp & ->). rewrite Forall_forall in Hoth. split; [done|]. cbn. apply Hoth. by eapply elem_of_list_lookup_2. }
    unfold s, hrun. destruct g as [[] tso]; cbn; constructor; cbn; try done; by apply Hcalm. }
  split; [apply L|]. intros acts' Ho. clearbody s. clear Hoth. assert (L' : Lost (hrun g s acts')).
  { revert s L. induction acts' as [|a acts' IH]; intros s L; [done|]. apply Forall_cons in Ho as [Ho1 Ho2]. cbn. apply IH; [done|]. by apply lost_step. }
  split; [|apply L']. pose proof (lo_pc _ L') as Hp. unfold in_loop. by destruct (h_run (hrun g s acts')).
Qed.
Print Assumptions C27_start_stop_refuted.

(** halt() called before run() has its compare-and-swap and finished after its clear_alert(): the consumer stays alive, with is_running() true, but never handles an
    event again: every wait ends at once with an alert that it ignores. *)
Record Stuck (s : hst) : Prop := {
  st_run : h_running s = true; st_al : h_alerted s = true;
  st_pc : h_run s = RCheck \/ h_run s = RAlert;
  st_log : h_log s = [];
  st_calm : forall t c, h_callers s !! t = Some c -> calm_caller c
}.
Lemma stuck_step g s a : Stuck s -> Stuck (hstep g s a).
Proof.
  intros [L1 L2 L3 L4 L5]. pose proof (calm_step g s a L5) as C. destruct a as [o w|t]; cbn [hstep] in *.
  - constructor; [| | | |done]; clear C L5; unfold run_step; destruct L3 as [->| ->]; rewrite ?L1, ?L2; cbn; auto.
  - destruct (decide (h_run s = RAsleep false)) as [E|E]; [destruct L3; congruence|]. pose proof (call_awake g s t E) as Er.
    constructor; [| |by rewrite Er| |done]; clear C Er; unfold call_step; destruct (h_callers s !! t) as [[pc todo]|] eqn:Hu; try done; pose proof (L5 t _ Hu) as [H1 H2]; cbn in H1, H2;
      (destruct pc; [destruct todo as [|[] rest]| | |]); repeat match goal with |- context [if ?b then _ else _] => destruct b eqn:? end; cbn; try done.
    exfalso. apply H2. left.
Qed.
Theorem C27_halt_before_run_refuted : forall g others, Forall (fun p => OHalt ∉ p) others ->
  exists acts, let s := hrun g (hst_new ([OHalt] :: others)) acts in
    h_callers s !! 0%nat = Some (Caller CIdle []) /\
    forall acts', let s' := hrun g s acts' in in_loop (h_run s') = true /\ h_running s' = true /\ h_log s' = [].
Proof.
  intros g others Hoth.
  exists ([HCall 0; HRun HOk WNone; HRun HOk WNone; HCall 0] ++ (match h_strat g with Spin => [] | _ => [HCall 0] end)). cbv zeta.
  set (s := hrun g _ _).
  assert (L : Stuck s /\ h_callers s !! 0%nat = Some (Caller CIdle [])).
  { assert (Hcalm : forall c', (c' = Caller CIdle []) -> forall t c, (c' :: (Caller CIdle <$> others)) !! t = Some c -> calm_caller c).
    { intros c' -> [|t] c Hc; cbn in Hc; [injection Hc as <-; split; [done|]; cbn; by apply not_elem_of_nil|].
      apply list_lookup_fmap_Some in Hc as (p & Hp & ->). rewrite Forall_forall in Hoth. split; [done|]. cbn. apply Hoth. by eapply elem_of_list_lookup_2. }
    unfold s, hrun. destruct g as [[] tso]; cbn; (split; [constructor; cbn; try done; try (by left); by apply Hcalm|done]). }
  destruct L as [L L0]. split; [done|]. intros acts'. clearbody s. clear Hoth L0. assert (L' : Stuck (hrun g s acts')).
  { revert s L. induction acts' as [|a acts' IH]; intros s L; [done|]. cbn. apply IH. by apply stuck_step. }
  split; [|split; apply L']. unfold in_loop. by destruct (st_pc _ L') as [->| ->].
Qed.
Print Assumptions C27_halt_before_run_refuted.
(** The hypotheses of C27_stops are met: a consumer asleep in the blocking strategy, an event published while halt() is under way. *)
Example C27_met : let g := HCfg Blocking false in let progs := [[OAwaitRunning; OHalt; OJoin]; [OPub]] in
  let a1 := repeat (HRun HOk WNone) 10 ++ [HCall 0] in let a2 := [HCall 0; HCall 1; HCall 0; HCall 0] in
  let s1 := hrun g (hst_new progs) a1 in let s2 := hrun g s1 a2 in
  h_callers s1 !! 0%nat = Some (Caller CIdle (OHalt :: [OJoin])) /\ h_run s1 = RAsleep false /\ h_callers s2 !! 0%nat = Some (Caller CIdle [OJoin]) /\
  all_threads (length progs) [HRun HOk WNone; HCall 0; HCall 1] /\ total_pubs progs = 1%nat.
Proof.
  cbv zeta. do 3 (split; [by vm_compute|]). split; [|by vm_compute]. split; [exists HOk, WNone; left|]. intros [|[|t]] Ht; [do 1 right; left|do 2 right; left|cbn in Ht; lia].
Qed.

(** ** C59: no lost wake-up. *)
(** Without halt(), every published event is handled, in order, in every fair schedule, with every wait strategy (or the handler has failed with an exception
    that is not a std::exception). Partial: with the lite blocking strategy, only on sequentially consistent memory. *)
Theorem C59_wakes : forall g progs acts rounds T, (h_tso g = true -> h_strat g <> LiteBlocking) -> Forall (fun p => OHalt ∉ p) progs ->
  let s := hrun g (hst_new progs) acts in let s' := hrun g s (concat rounds) in
  0 <= T <= h_cursor s -> Forall (all_threads (length progs)) rounds -> (Z.to_nat (T + 1) * 20 + 14 <= length rounds)%nat ->
  h_log s' = seqZ 0 (Z.of_nat (length (h_log s'))) /\ (T ∈ h_log s' \/ failed (h_run s') = true).
Proof.
  intros g progs acts rounds T Ht Hp s s' HT Hr Hlen.
  assert (Es : s' = hrun g (hst_new progs) (acts ++ concat rounds)) by (unfold s', s; by rewrite hrun_app).
  assert (Q' : QInv s') by (rewrite Es; apply qinv_reach).
  assert (A : Awake g T s).
  { assert (A0 : Awake g (-1) s).
    { unfold s. clear -Ht Hp. induction acts as [|a acts IH] using rev_ind; [|rewrite hrun_snoc; by apply awake_step].
      constructor; [exact (winv_reach g progs [] Ht)|exact (qinv_reach g progs [])| |done|done|cbn; lia].
      intros t c Hc. apply list_lookup_fmap_Some in Hc as (p & Hpp & ->). rewrite Forall_forall in Hp. split; [done|]. cbn. apply Hp. by eapply elem_of_list_lookup_2. }
    destruct A0. constructor; try done. lia. }
  assert (Hlog : exists n, 0 <= n /\ h_log s' = seqZ 0 n).
  { destruct Q' as [_ Q2 Q3]. destruct (h_run s'); try done; exists (h_next s'); split; try done; lia. }
  split. { destruct Hlog as (n & Hn & ->). rewrite seqZ_length. by rewrite Z2Nat.id by lia. }
  destruct (wakes g T s rounds Ht A) as [H|H].
  - unfold s. rewrite callers_run. cbn. by rewrite fmap_length.
  - etransitivity; [|exact Hlen]. destruct (aw_q _ _ _ A) as [_ Q2 _]. unfold wrank, wphase. destruct (h_run s) as [| | | | | | | |[]|[]| | | | | | | | |]; destruct (Z.ltb_spec T (h_next s)); try lia.
    + destruct (csigb s); lia.
    + destruct (_ <=? _); lia.
  - fold s' in H. destruct (failed (h_run s')) eqn:Ef; [by right|left]. destruct Q' as [_ Q2 Q3].
    assert (E : h_log s' = seqZ 0 (h_next s')) by (by destruct (h_run s')). rewrite E. apply elem_of_seqZ. lia.
  - right. done.
Qed.
Print Assumptions C59_wakes.
(** With stores that can be delayed past a later load (x86, ARM), the lite blocking strategy loses a wake-up: its store to signal_needed_ and its read of the cursor
    are release and acquire, not ordered with each other. The event is published, the publisher has finished, and the consumer sleeps for ever (spurious wake-ups aside). *)
Definition no_spurious (a : hact) : Prop := match a with HRun _ WSpurious => False | _ => True end.
Theorem C59_lite_refuted : exists acts, let g := HCfg LiteBlocking true in let s := hrun g (hst_new [[OPub]]) acts in
  h_cursor s = 0 /\ h_callers s = [Caller CIdle []] /\ forall acts', Forall no_spurious acts' -> h_log (hrun g s acts') = [].
Proof.
  exists (repeat (HRun HOk WNone) 7 ++ [HCall 0; HCall 0; HRun HOk WNone]). cbv zeta. split; [by vm_compute|]. split; [by vm_compute|].
  intros acts' Ho. set (s := hrun (HCfg LiteBlocking true) (hst_new [[OPub]]) _). assert (E : hrun (HCfg LiteBlocking true) s acts' = s); [|rewrite E; by vm_compute].
  assert (Hs : s = Hst true false true false false 0 (-1) 0 (RAsleep false) [Caller CIdle []] []) by by vm_compute. clearbody s. subst s.
  induction acts' as [|a acts' IH]; [done|]. apply Forall_cons in Ho as [Ho1 Ho2]. unfold hrun. cbn [fold_left].
  assert (E : hstep (HCfg LiteBlocking true) (Hst true false true false false 0 (-1) 0 (RAsleep false) [Caller CIdle []] []) a = Hst true false true false false 0 (-1) 0 (RAsleep false) [Caller CIdle []] []).
  { destruct a as [o w|t]; cbn [hstep]; [by destruct w|]. by destruct t as [|t]. }
  rewrite E. by apply IH.
Qed.
Print Assumptions C59_lite_refuted.
Example C59_met : let g := HCfg LiteBlocking false in let progs := [[OPub; OPub]] in let s := hrun g (hst_new progs) (repeat (HRun HOk WNone) 12 ++ [HCall 0]) in
  Forall (fun p => OHalt ∉ p) progs /\ h_cursor s = 0 /\ h_run s = RAsleep false /\ h_log (hrun g s (concat (repeat [HRun HOk WNone; HCall 0] 40))) = [0; 1].
Proof. cbv zeta. split; [|by vm_compute]. constructor; [|done]. intros H. apply elem_of_list_In in H. cbn in H. destruct H as [|[|]]; done. Qed.

(** ** C64: the sequence of a processor tells which events it has handled. *)
Definition in_batch (pc : rpc) : bool := match pc with RHandle _ _ | RFail | RThrew => true | _ => false end.
(** Always, every event up to the sequence has been handled; and between batches (in particular while waiting, and after a normal return of run()) the events
    handled are exactly those up to the sequence. For every wait strategy, also with delayed stores, and whatever the handler throws. *)
Theorem C64_sequence : forall g progs acts, let s := hrun g (hst_new progs) acts in
  (forall i, 0 <= i <= h_seq s -> i ∈ h_log s) /\
  (in_batch (h_run s) = false -> h_log s = seqZ 0 (h_seq s + 1)).
Proof.
  intros g progs acts s. pose proof (qinv_reach g progs acts) as [_ Q2 Q3]. pose proof (sinv_reach g progs acts) as [S1 S2]. fold s in Q2, Q3, S1, S2.
  assert (in_batch (h_run s) = false -> h_log s = seqZ 0 (h_seq s + 1)) as Hb.
  { destruct (h_run s); try done; intros _; rewrite Q3, S2; f_equal; lia. }
  split; [|done]. intros i Hi.
  assert (exists n, h_seq s + 1 <= n /\ h_log s = seqZ 0 n) as (n & Hn & ->); [|apply elem_of_seqZ; lia].
  destruct (h_run s) eqn:E; try (eexists; split; [|exact Q3]; lia).
  all: pose proof (fail_log g progs acts) as H; fold s in H; unfold FInv in H; rewrite E in H; destruct H as (n & H1 & H2); exists n; split; [lia|done].
Qed.
Print Assumptions C64_sequence.
Example C64_case : let s := hrun (HCfg Blocking false) (hst_new [[OPub; OPub]]) ([HCall 0; HCall 0; HCall 0; HCall 0] ++ repeat (HRun HOk WNone) 7) in
  h_log s = [0; 1] /\ h_seq s = -1 /\ in_batch (h_run s) = true /\ h_seq (run_step (HCfg Blocking false) s HOk WNone) = 1.
Proof. by vm_compute. Qed.
