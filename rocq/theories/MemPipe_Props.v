(** * Properties of the in-memory middleware: C21. *)
From stdpp Require Import prelude list_numbers.
From Verif Require Import Base SafeQueue_Model SafeQueue_Proofs MemPipe_Model MemPipe_Proofs.

(** C21. What the code guarantees for every schedule, whatever the policy and the number of threads:
    [gone] are the events that left the queue; the events delivered, and the one being delivered, are a subsequence of them;
    nothing is invented, duplicated or reordered, and everything published is accounted for. *)
Theorem C21_flow : forall discard max progs acts, let s := mprun discard max (mp_new progs) acts in
  (exists gone, (mp_entered s).*2 = gone ++ mp_q s /\ (mp_out s ++ in_flight s) `sublist_of` gone) /\
  length (mp_entered s) = length (mp_out s) + length (in_flight s) + length (mp_q s) + mp_dropped s /\
  (forall t p, mp_pubs s !! t = Some p -> progs !! t = Some (published_by t s ++ pu_todo p)).
Proof.
  intros discard max progs acts s. destruct (minv_run discard max progs acts) as [(gone & F1 & F2 & F3) P B L]. fold s in F1, F2, F3, P.
  split; [eauto|]. split; [|done]. rewrite <-(fmap_length snd (mp_entered s)), F1. rewrite !app_length in *. lia.
Qed.
Print Assumptions C21_flow.

(** The same for one publishing thread, when no two events are equal: it sees its own events
    delivered in the order it published them, each at most once. *)
Theorem C21_order : forall discard max progs acts, NoDup (concat progs) -> let s := mprun discard max (mp_new progs) acts in
  NoDup (mp_out s) /\ (forall x, x ∈ mp_out s -> x ∈ concat progs) /\
  (forall t prog, progs !! t = Some prog -> filter (fun x => x ∈ prog) (mp_out s) `sublist_of` prog).
Proof. exact order_lemma. Qed.
Print Assumptions C21_order.
Example C21_order_case : let s := mprun true 2 (mp_new [[1; 2; 3]; [10; 20]])
     [MPub 0; MPub 1; MPoll false; MPub 1; MPub 1; MPub 1; MPub 0; MPub 0; MPub 0; MPoll false; MPub 0; MPub 0; MPub 0; MPoll false; MPoll false] in
  mp_out s = [1; 2] /\ mp_q s = [3] /\ mp_dropped s = 2 /\ mp_disc s = 1 /\ NoDup (concat [[1; 2; 3]; [10; 20]]).
Proof. cbn [concat app]. repeat split; [vm_compute; reflexivity..|]. repeat constructor; set_solver. Qed.

(** Blocking policy: nothing is ever lost; what was accepted is delivered, in order, or still waiting. *)
Theorem C21_blocking_exact : forall max progs acts, let s := mprun false max (mp_new progs) acts in
  (mp_entered s).*2 = mp_out s ++ in_flight s ++ mp_q s /\ mp_disc s = 0.
Proof.
  intros max progs acts s. destruct (minv_run false max progs acts) as [(gone & F1 & F2 & F3) P B L]. fold s in F1, F2, F3, P, B.
  destruct (B eq_refl) as (B1 & B2 & _). split; [|done]. rewrite F1. rewrite app_assoc. f_equal. symmetry. apply sublist_eq_len; [done|lia].
Qed.
Print Assumptions C21_blocking_exact.
Example C21_blocking_case : let s := mprun false 1 (mp_new [[1; 2]; [3]]) [MPub 0; MPub 1; MPub 0; MPoll false; MPub 1; MPoll false; MPub 0] in
  mp_out s = [1] /\ mp_q s = [3] /\ (pu_todo <$> mp_pubs s) = [[2]; []].
Proof. repeat split. Qed.

(** The number of discarded events is reported exactly. *)
Definition C21_report_statement : Prop := forall max progs acts, let s := mprun true max (mp_new progs) acts in
  Forall (fun p => pu_pc p = PubIdle) (mp_pubs s) ->
  length (mp_entered s) = length (mp_out s) + length (in_flight s) + length (mp_q s) + mp_disc s.
(** True when one thread publishes at a time. *)
Theorem C91_report : forall max prog acts, let s := mprun true max (mp_new [prog]) acts in
  Forall (fun p => pu_pc p = PubIdle) (mp_pubs s) ->
  length (mp_entered s) = length (mp_out s) + length (in_flight s) + length (mp_q s) + mp_disc s.
Proof.
  intros max prog acts s Hi. destruct (C21_flow true max [prog] acts) as (_ & E & _). fold s in E. rewrite E. f_equal.
  assert (StatInv s) as Hs by (apply mp_ind; [done|apply stat_step]). unfold StatInv in Hs.
  destruct (mp_pubs s) as [|[pc todo] [|? ?]]; [done| |by destruct pc]. rewrite Forall_singleton in Hi. cbn in Hi. by subst pc.
Qed.
Print Assumptions C91_report.
Example C21_report_case : let s := mprun true 2 (mp_new [[1; 2; 3; 4]]) (repeat (MPub 0) 12) in
  Forall (fun p => pu_pc p = PubIdle) (mp_pubs s) /\ mp_disc s = 2 /\ mp_q s = [3; 4].
Proof. repeat split. repeat constructor. Qed.
(** False for two threads: the counter is a plain integer and one of two concurrent additions is lost. *)
Theorem C91_report_refuted : ~ C21_report_statement.
Proof.
  intros H. specialize (H 1 [[1; 2]; [3]] [MPub 0; MPub 0; MPub 0; MPub 0; MPub 1; MPub 0; MPub 1; MPub 0; MPub 1]).
  cbn in H. specialize (H ltac:(repeat constructor)). lia.
Qed.
Print Assumptions C91_report_refuted.

(** Everything accepted can still be delivered: as long as the polling thread lives, it alone (whatever the publishers do or not)
    hands over all that is queued. *)
Definition C21_drain_statement : Prop := forall discard max progs acts, MSpurious ∉ acts -> let s := mprun discard max (mp_new progs) acts in
  exists more, Forall poller_only more /\
    mp_out (mprun discard max s more) = mp_out s ++ in_flight s ++ mp_q s /\ mp_q (mprun discard max s more) = [].
Theorem C92_drain : forall discard max progs acts, MSpurious ∉ acts -> MPoll true ∉ acts ->
  let s := mprun discard max (mp_new progs) acts in
  exists more, Forall poller_only more /\
    mp_out (mprun discard max s more) = mp_out s ++ in_flight s ++ mp_q s /\ mp_q (mprun discard max s more) = [].
Proof. exact drain_lemma. Qed.
Print Assumptions C92_drain.
(** False when a listener throws: the exception ends the polling thread (std::packaged_task keeps it, nobody asks),
    isRunning() stays true, and no later event is ever delivered. *)
Theorem C92_drain_refuted : ~ C21_drain_statement.
Proof.
  intros H. destruct (H true 4 [[1; 2]] [MPub 0; MPub 0; MPub 0; MPub 0; MPoll false; MPoll true]) as (more & Hm & E & _).
  { intros Hin. repeat (apply elem_of_cons in Hin as [Hin|Hin]; [done|]). by apply elem_of_nil in Hin. }
  rewrite dead_lemma in E by done. done.
Qed.
Print Assumptions C92_drain_refuted.
Theorem C92_throw_silences : forall discard max s more, mp_poll s = PollDead ->
  mp_out (mprun discard max s more) = mp_out s.
Proof. exact dead_lemma. Qed.
Print Assumptions C92_throw_silences.
Example C21_throw_case : mp_poll (mprun true 4 (mp_new [[1; 2]]) [MPub 0; MPoll false; MPoll true]) = PollDead.
Proof. done. Qed.

(** The polling thread never pops an empty queue, unless its wait is woken spuriously (C18). *)
Theorem C92_no_crash : forall discard max progs acts, MSpurious ∉ acts -> mp_ub (mprun discard max (mp_new progs) acts) = false.
Proof. intros. by apply pollinv_run. Qed.
Print Assumptions C92_no_crash.
Theorem C92_crash_refuted : ~ (forall discard max progs acts, mp_ub (mprun discard max (mp_new progs) acts) = false).
Proof. intros H. by specialize (H true 4 [] [MPoll false; MSpurious; MPoll false]). Qed.
Print Assumptions C92_crash_refuted.

(** Whatever the publishers do meanwhile, and however often waits expire: after twice as many steps of the polling thread as there are events queued, and one more,
    all events accepted before have left the queue; a blocking publisher's ones have all been handed over. *)
Definition live (s : mpst) : Prop := mp_ub s = false /\ mp_poll s <> PollDead /\ (mp_poll s = PollAwake -> mp_q s <> []) /\ (mp_poll s = PollAsleep -> mp_q s = []).
Definition polls (acts : list mpact) : nat := length (List.filter (fun a => match a with MPoll _ => true | _ => false end) acts).
Definition due (G : nat) (s : mpst) : nat := 2 * (G - (length (mp_entered s) - length (mp_q s))) + length (in_flight s).
Lemma live_step discard max G s a : live s -> a <> MSpurious -> a <> MPoll true -> length (mp_q s) <= length (mp_entered s) -> G <= length (mp_entered s) ->
  let s' := mpstep discard max s a in
  live s' /\ length (mp_q s') <= length (mp_entered s') /\ length (mp_entered s) <= length (mp_entered s') /\
  (0 < due G s -> due G s' <= due G s) /\ (a = MPoll false -> due G s' < due G s \/ due G s = 0) /\ length (mp_entered s) - length (mp_q s) <= length (mp_entered s') - length (mp_q s').
Proof.
  intros (L1 & L2 & L3 & L4) Ha1 Ha2 Hq HG. cbn zeta. unfold mpstep. rewrite L1. unfold live, due, in_flight.
  destruct a as [t|th| |]; [| | |done].
  - destruct (mp_pubs s !! t) as [[[|n|v] [|x todo]]|]; try (cbn; rewrite ?L1; split_and!; first [done|lia]).
    destruct discard.
    + cbn [exec]. destruct (drop_loop_drop max (mp_q s)) as (n & -> & Hn). cbn [mp_ub mp_poll mp_q mp_entered]. rewrite !app_length, drop_length. cbn [length].
      assert (Hw : length (match wake_poll (mp_poll s) with PollGot y => [y] | _ => [] end) = length (match mp_poll s with PollGot y => [y] | _ => [] end)) by (by destruct (mp_poll s)).
      split_and!; try done; try lia.
      * by destruct (mp_poll s).
      * intros _. by destruct (drop n (mp_q s)).
      * by destruct (mp_poll s).
    + cbn [exec]. destruct (length (mp_q s) <? max); [|split_and!; first [done|lia]]. cbn [mp_ub mp_poll mp_q mp_entered]. rewrite !app_length. cbn [length].
      assert (Hw : length (match wake_poll (mp_poll s) with PollGot y => [y] | _ => [] end) = length (match mp_poll s with PollGot y => [y] | _ => [] end)) by (by destruct (mp_poll s)).
      split_and!; try done; try lia.
      * by destruct (mp_poll s).
      * intros _. by destruct (mp_q s).
      * by destruct (mp_poll s).
  - assert (th = false) as -> by (destruct th; done). cbn [exec].
    destruct (mp_poll s) eqn:Ep; try done.
    + destruct (mp_q s) as [|y q] eqn:Eq; cbn [mp_ub mp_poll mp_q mp_entered length] in *; split_and!; try done; try lia; try (intros _; lia).
    + rewrite L4 by done. cbn [length] in *. rewrite Ep. split_and!; try done; try lia; try (intros _; lia).
    + destruct (mp_q s) as [|y q] eqn:Eq; [by specialize (L3 eq_refl)|]. cbn [mp_ub mp_poll mp_q mp_entered length] in *; split_and!; try done; try lia; try (intros _; lia).
    + cbn [mp_ub mp_poll mp_q mp_entered length] in *; split_and!; try done; try lia; try (intros _; lia).
  - destruct (mp_poll s) eqn:Ep; cbn [mp_ub mp_poll mp_q mp_entered length] in *; rewrite ?Ep; split_and!; try done; try lia.
Qed.
Lemma live_run discard max G more : MSpurious ∉ more -> MPoll true ∉ more -> forall s, live s -> length (mp_q s) <= length (mp_entered s) -> G <= length (mp_entered s) ->
  due G s <= polls more -> exists m1 m2, more = m1 ++ m2 /\ due G (mprun discard max s m1) = 0 /\
  G <= length (mp_entered (mprun discard max s more)) - length (mp_q (mprun discard max s more)).
Proof.
  induction more as [|a more IH]; intros H1 H2 s Hl Hq HG Hd.
  { exists [], []. unfold polls in Hd. cbn in *. split_and!; [done|lia|]. unfold due in Hd. lia. }
  apply not_elem_of_cons in H1 as [Ha1 H1]. apply not_elem_of_cons in H2 as [Ha2 H2].
  destruct (live_step discard max G s a Hl) as (N1 & N2 & N3 & N4 & N5 & N6); [congruence|congruence|done|done|].
  cbn [mprun fold_left]. fold (mprun discard max (mpstep discard max s a) more).
  destruct (decide (due G s = 0)) as [Hz|Hz].
  { exists [], (a :: more). split_and!; [done|done|].
    assert (Hmono : forall s0, live s0 -> length (mp_q s0) <= length (mp_entered s0) -> G <= length (mp_entered s0) - length (mp_q s0) ->
      G <= length (mp_entered (mprun discard max s0 more)) - length (mp_q (mprun discard max s0 more))).
    { clear -H1 H2. induction more as [|b more IH]; intros s0 Hl Hq HG; [done|]. apply not_elem_of_cons in H1 as [Hb1 H1]. apply not_elem_of_cons in H2 as [Hb2 H2].
      cbn [mprun fold_left]. fold (mprun discard max (mpstep discard max s0 b) more).
      destruct (live_step discard max G s0 b Hl) as (N1 & N2 & N3 & N4 & N5 & N6); [congruence|congruence|done|lia|]. apply IH; [done|done|done|done|lia]. }
    apply Hmono; [done|done|]. unfold due in Hz. lia. }
  destruct (IH H1 H2 (mpstep discard max s a) N1 N2) as (m1 & m2 & -> & E1 & E2).
  - lia.
  - unfold polls in *. cbn [List.filter] in Hd. destruct a as [t|th| |]; cbn [length] in Hd; try lia. destruct th; [done|]. specialize (N5 eq_refl). lia.
  - exists (a :: m1), m2. split_and!; [done|done|]. done.
Qed.
Theorem C92_delivered : forall discard max progs acts more, MSpurious ∉ acts ++ more -> MPoll true ∉ acts ++ more ->
  let s := mprun discard max (mp_new progs) acts in let s' := mprun discard max s more in
  2 * length (mp_q s) + 1 <= polls more ->
  length (mp_entered s) <= length (mp_entered s') - length (mp_q s') /\ (discard = false -> (mp_entered s).*2 `prefix_of` mp_out s').
Proof.
  intros discard max progs acts more H1 H2 s s' Hp.
  apply not_elem_of_app in H1 as [H1a H1b]. apply not_elem_of_app in H2 as [H2a H2b].
  assert (Hl : live s /\ length (mp_q s) <= length (mp_entered s)).
  { unfold s. clear -H1a H2a. assert (forall s0, live s0 -> length (mp_q s0) <= length (mp_entered s0) -> live (mprun discard max s0 acts) /\ length (mp_q (mprun discard max s0 acts)) <= length (mp_entered (mprun discard max s0 acts))) as H; [|apply H; [repeat split; done|done]].
    induction acts as [|a acts IH]; intros s0 Hl Hq; [done|]. apply not_elem_of_cons in H1a as [Ha1 H1]. apply not_elem_of_cons in H2a as [Ha2 H2].
    cbn [mprun fold_left]. fold (mprun discard max (mpstep discard max s0 a) acts).
    destruct (live_step discard max 0 s0 a Hl) as (N1 & N2 & _); [congruence|congruence|done|lia|]. by apply IH. }
  destruct Hl as [Hl Hq].
  destruct (live_run discard max (length (mp_entered s)) more H1b H2b s Hl Hq) as (m1 & m2 & -> & E1 & E2); [lia| |].
  { unfold due. assert (length (in_flight s) <= 1) by (unfold in_flight; destruct (mp_poll s); cbn; lia). lia. }
  split; [exact E2|]. intros ->.
  assert (Hex : forall m, (mp_entered (mprun false max s m)).*2 = mp_out (mprun false max s m) ++ in_flight (mprun false max s m) ++ mp_q (mprun false max s m)).
  { intros m. unfold s, mprun. rewrite <- fold_left_app. apply C21_blocking_exact. }
  assert (Hsuf : forall m s0, exists e o, mp_entered (mprun false max s0 m) = mp_entered s0 ++ e /\ mp_out (mprun false max s0 m) = mp_out s0 ++ o).
  { clear. induction m as [|a m IH]; intros s0; [exists [], []; by rewrite !app_nil_r|].
    cbn [mprun fold_left]. fold (mprun false max (mpstep false max s0 a) m). destruct (IH (mpstep false max s0 a)) as (e & o & -> & ->).
    assert (exists e o, mp_entered (mpstep false max s0 a) = mp_entered s0 ++ e /\ mp_out (mpstep false max s0 a) = mp_out s0 ++ o) as (e' & o' & -> & ->).
    { assert (Hn : exists e o, mp_entered s0 = mp_entered s0 ++ e /\ mp_out s0 = mp_out s0 ++ o) by (exists [], []; by rewrite !app_nil_r).
      unfold mpstep. destruct (mp_ub s0); [done|]. destruct a as [t|th| |].
      - destruct (mp_pubs s0 !! t) as [[[|n|v] [|x todo]]|]; try done. cbn [exec]. destruct (length (mp_q s0) <? max); [|done]. cbn.
        exists [(t, x)], []. by rewrite app_nil_r.
      - cbn [exec]. destruct (mp_poll s0); try done; try (destruct (mp_q s0); done).
        cbn. exists [], [x]. by rewrite app_nil_r.
      - by destruct (mp_poll s0).
      - by destruct (mp_poll s0). }
    exists (e' ++ e), (o' ++ o). by rewrite !app_assoc. }
  destruct (Hsuf m1 s) as (e1 & o1 & He1 & Ho1). destruct (Hsuf m2 (mprun false max s m1)) as (e2 & o2 & He2 & Ho2).
  assert (Hs' : s' = mprun false max (mprun false max s m1) m2) by (unfold s', mprun; by rewrite fold_left_app).
  rewrite Hs', Ho2. pose proof (Hex m1) as Hm1. unfold due in E1.
  assert (Hfl : in_flight (mprun false max s m1) = []) by (apply nil_length_inv; lia). rewrite Hfl in Hm1. cbn [app] in Hm1.
  assert (Hlen : length (mp_entered s) <= length (mp_out (mprun false max s m1))).
  { apply (f_equal length) in Hm1. rewrite fmap_length, app_length in Hm1. lia. }
  rewrite He1, fmap_app in Hm1.
  apply prefix_app_r. exists (drop (length (mp_entered s)) (mp_out (mprun false max s m1))).
  assert (Ht : take (length (mp_entered s)) (mp_out (mprun false max s m1)) = (mp_entered s).*2).
  { apply (f_equal (take (length (mp_entered s)))) in Hm1. rewrite take_app_le in Hm1 by (rewrite fmap_length; lia).
    rewrite take_app_le in Hm1 by lia. rewrite take_ge in Hm1 by (rewrite fmap_length; lia). done. }
  by rewrite <- Ht, take_drop.
Qed.
Print Assumptions C92_delivered.
Example C92_delivered_case : let s := mprun false 2 (mp_new [[1; 2]; [3]]) [MPoll false; MPub 0; MPub 1] in
  mp_q s = [1; 3] /\ mp_out (mprun false 2 s [MTimeout; MPoll false; MPub 0; MPoll false; MPoll false; MPub 0; MPoll false; MPoll false]) = [1; 3].
Proof. by vm_compute. Qed.

(** Only the poller's own step, popping what the queue no longer has, is undefined: publishing, discarding, time-outs and wake-ups are not, in any state, with either policy. *)
Theorem C92_only_the_pop_crashes : forall discard max s a, (forall th, a <> MPoll th) -> mp_ub (mpstep discard max s a) = mp_ub s.
Proof.
  intros discard max s a Ha. unfold mpstep. destruct (mp_ub s) eqn:E; [done|]. destruct a as [t|th| |]; [|by destruct (Ha th)| |].
  - destruct (mp_pubs s !! t) as [[[|n|v] [|x todo]]|]; try done.
    destruct discard; [destruct (exec (ForcePush x) false max (mp_q s)) as [q u1 u2 e | | |]; try done; by destruct e|].
    destruct (exec (Push x) false max (mp_q s)); done.
  - by destruct (mp_poll s).
  - by destruct (mp_poll s).
Qed.
Print Assumptions C92_only_the_pop_crashes.
Example C92_only_the_pop_case : mp_ub (mprun false 1 (mp_new [[1]]) [MPoll false; MSpurious]) = false /\ mp_ub (mprun false 1 (mp_new [[1]]) [MPoll false; MSpurious; MPoll false]) = true.
Proof. by vm_compute. Qed.
