(** * C81: the concurrent-queue middleware. *)
From stdpp Require Import prelude.
From Coq Require Import Lia.
From Verif Require Import Base ConcPipe_Model.
Local Open Scope nat_scope.
Lemma q_run_snoc d acts a : q_run d (acts ++ [a]) = q_step d (q_run d acts) a.
Proof. unfold q_run. by rewrite fold_left_app. Qed.
Lemma q_run_app d a b : q_run d (a ++ b) = fold_left (q_step d) b (q_run d a).
Proof. unfold q_run. by rewrite fold_left_app. Qed.
(** What the threads hold: the event the publisher has not yet put into the queue, the event the poller has taken out and not yet emitted. *)
Definition q_pending (s : qst) : list nat := match q_pub s with QTry e _ | QDrop e _ => [e] | _ => [] end.
Definition q_hand (s : qst) : list nat := match q_poll s with QEmit e => [e] | _ => [] end.
Definition q_uncounted (s : qst) : nat := match q_pub s with QTry _ d | QDrop _ d | QCount d => d | QIdle => 0 end.
Lemma sub_drop_mid {A} (l1 l2 : list A) x l : l1 ++ x :: l2 `sublist_of` l -> l1 ++ l2 `sublist_of` l.
Proof. intros H. etrans; [|exact H]. apply sublist_app; [done|]. by apply sublist_cons. Qed.
Record QI (d : bool) (s : qst) : Prop := {
  qi_order : q_delivered s ++ q_hand s ++ q_queue s ++ q_pending s `sublist_of` q_published s;
  qi_disc : q_discarded s ++ q_queue s ++ q_pending s `sublist_of` q_published s;
  qi_perm : q_published s ≡ₚ q_delivered s ++ q_hand s ++ q_queue s ++ q_pending s ++ q_discarded s;
  qi_count : q_stat s + q_uncounted s = length (q_discarded s);
  qi_block : d = false -> q_discarded s = [] /\ q_delivered s ++ q_hand s ++ q_queue s ++ q_pending s = q_published s /\ match q_pub s with QDrop _ _ | QCount _ => False | _ => True end
}.
Lemma qi_step d s a : QI d s -> QI d (q_step d s a).
Proof.
  intros [A B C D E]. unfold q_pending, q_hand, q_uncounted in *. destruct a as [e|acc| | |got]; cbn [q_step].
  - destruct (q_pub s) eqn:Hp; try (by constructor; unfold q_pending, q_hand, q_uncounted; rewrite ?Hp).
    constructor; unfold q_pending, q_hand, q_uncounted; cbn; rewrite ?app_nil_r in *.
    + rewrite !app_assoc. apply sublist_app; [by rewrite <-app_assoc|done].
    + rewrite app_assoc. by apply sublist_app.
    + rewrite C. solve_Permutation.
    + lia.
    + intros H. destruct (E H) as (E1 & E2 & _). split; [done|]. split; [|done]. rewrite <-E2. by rewrite !app_assoc.
  - destruct (q_pub s) as [|e n|e n|n] eqn:Hp.
    + by constructor; unfold q_pending, q_hand, q_uncounted; rewrite ?Hp.
    + destruct acc; [|destruct d; constructor; unfold q_pending, q_hand, q_uncounted; cbn; done].
      destruct d; constructor; unfold q_pending, q_hand, q_uncounted; cbn; rewrite ?app_nil_r in *; rewrite <-?app_assoc; try done.
      * rewrite (proj1 (E eq_refl)) in *. cbn in *. lia.
    + destruct d; [|by destruct (E eq_refl) as (_ & _ & [])].
      destruct (q_queue s) as [|x rest] eqn:Hq; [constructor; unfold q_pending, q_hand, q_uncounted; cbn; done|].
      destruct acc; [|constructor; unfold q_pending, q_hand, q_uncounted; cbn; done].
      constructor; unfold q_pending, q_hand, q_uncounted; cbn.
      * rewrite app_assoc in A |- *. eapply sub_drop_mid, A.
      * rewrite <-app_assoc. exact B.
      * rewrite C. solve_Permutation.
      * rewrite app_length. cbn. lia.
      * done.
    + destruct d; [|by destruct (E eq_refl) as (_ & _ & [])]. constructor; unfold q_pending, q_hand, q_uncounted; cbn; try done. lia.
  - destruct (q_poll s) eqn:Hp; try (by constructor; unfold q_pending, q_hand, q_uncounted; rewrite ?Hp).
  - by constructor.
  - destruct (q_poll s) as [| | |x] eqn:Hp.
    + by constructor; unfold q_pending, q_hand, q_uncounted; rewrite ?Hp.
    + constructor; unfold q_pending, q_hand, q_uncounted; cbn; try done; destruct (q_running s); done.
    + destruct (q_queue s) as [|x rest] eqn:Hq; [by constructor; unfold q_pending, q_hand, q_uncounted; cbn|].
      destruct got; [|by constructor; unfold q_pending, q_hand, q_uncounted; cbn].
      constructor; unfold q_pending, q_hand, q_uncounted; cbn; try done. eapply sub_drop_mid, B.
    + constructor; unfold q_pending, q_hand, q_uncounted; cbn; rewrite <-?app_assoc; try done.
Qed.
Lemma qi_run d acts : QI d (q_run d acts).
Proof. induction acts as [|a acts IH] using rev_ind; [constructor; cbn; done|]. rewrite q_run_snoc. by apply qi_step. Qed.

(** ** C81 *)
(** Delivery is in the order of publication, over any number of starts and stops; what waits comes after what has been delivered. *)
Theorem C81_order : forall discard acts, let s := q_run discard acts in q_delivered s ++ q_hand s ++ q_queue s ++ q_pending s `sublist_of` q_published s.
Proof. intros. apply (qi_run discard acts). Qed.
(** Each publication is, exactly once, delivered, in the poller's hands, waiting, being put, or discarded; ... *)
Theorem C81_accounting : forall discard acts, let s := q_run discard acts in q_published s ≡ₚ q_delivered s ++ q_hand s ++ q_queue s ++ q_pending s ++ q_discarded s.
Proof. intros. apply (qi_run discard acts). Qed.
(** ... and between publications the statistics say how many were discarded. *)
Theorem C81_count : forall discard acts, let s := q_run discard acts in q_pub s = QIdle -> q_stat s = length (q_discarded s).
Proof. intros discard acts s H. destruct (qi_run discard acts) as [_ _ _ D _]. fold s in D. unfold q_uncounted in D. rewrite H in D. lia. Qed.
(** The discarded ones are older than all that wait: the newest are kept. *)
Theorem C81_oldest_discarded : forall discard acts, let s := q_run discard acts in q_discarded s ++ q_queue s ++ q_pending s `sublist_of` q_published s.
Proof. intros. apply (qi_run discard acts). Qed.
(** The blocking publisher loses nothing. *)
Theorem C81_blocking_lossless : forall acts, let s := q_run false acts in q_delivered s ++ q_hand s ++ q_queue s ++ q_pending s = q_published s.
Proof. intros acts. destruct (qi_run false acts) as [_ _ _ _ E]. by destruct (E eq_refl) as (_ & ? & _). Qed.

(** For progress the queue has to be honest: it accepts when it is empty, and gives an element when it has one. *)
Definition honest_act (s : qst) (a : qact) : Prop :=
  match a with
  | APush b => match q_pub s with QTry _ _ => q_queue s = [] -> b = true | QDrop _ _ => b = true | _ => True end
  | APoll b => b = true
  | _ => True
  end.
Fixpoint honest (d : bool) (s : qst) (acts : list qact) : Prop := match acts with [] => True | a :: acts => honest_act s a /\ honest d (q_step d s a) acts end.
Definition is_push (a : qact) : bool := match a with APush _ => true | _ => false end.
Definition is_poll (a : qact) : bool := match a with APoll _ => true | _ => false end.
Notation pushes acts := (length (List.filter is_push acts)).
Notation polls acts := (length (List.filter is_poll acts)).
(** Discarding: a publication returns after at most twice as many steps as there are events waiting, plus three, whatever the poller does meanwhile. *)
Definition disc_rank (s : qst) : nat := match q_pub s with QTry _ _ => 2 + 2 * length (q_queue s) | QDrop _ _ => 3 + 2 * (length (q_queue s) - 1) | QCount _ => 1 | QIdle => 0 end.
Lemma disc_step s a : honest_act s a -> disc_rank s <> 0 -> (forall e, a <> APublish e) -> (if is_push a then S (disc_rank (q_step true s a)) <= disc_rank s else disc_rank (q_step true s a) <= disc_rank s).
Proof.
  intros H Hz Hn. destruct a as [e|b| | |b]; cbn [is_push].
  - by destruct (Hn e).
  - unfold disc_rank in *. cbn [q_step honest_act] in *. destruct (q_pub s) as [|e n|e n|n] eqn:Hp; [lia| | |cbn; lia].
    + destruct b; cbn [q_pub q_queue]; [lia|]. destruct (q_queue s) as [|x l] eqn:Hq; [by specialize (H eq_refl)|]. cbn [length] in *. lia.
    + subst b. destruct (q_queue s) as [|x l] eqn:Hq; cbn [q_pub q_queue length]; rewrite ?Hq; cbn [length]; lia.
  - unfold disc_rank. cbn. by destruct (q_poll s).
  - unfold disc_rank. by cbn.
  - unfold disc_rank. cbn [q_step]. destruct (q_poll s); cbn [q_pub q_queue]; try done. destruct (q_queue s) as [|x l] eqn:Hq; cbn [q_pub q_queue length]; rewrite ?Hq; cbn [length]; [done|].
    destruct b; cbn [q_pub q_queue]; rewrite ?Hq; cbn [length]; destruct (q_pub s); lia.
Qed.
Theorem C81_discarding_returns : forall acts more, let s := q_run true acts in
  (forall e, APublish e ∉ more) -> honest true s more -> 3 + 2 * length (q_queue s) <= pushes more -> q_pub (q_run true (acts ++ more)) = QIdle.
Proof.
  intros acts more s Hp Hh Hl. rewrite q_run_app. fold s. clearbody s.
  assert (G : disc_rank s <= pushes more) by (unfold disc_rank; destruct (q_pub s); lia). clear Hl. revert s Hh G. induction more as [|a more IH]; intros s Hh G; cbn [fold_left].
  - unfold disc_rank in G. destruct (q_pub s); cbn in G; try done; lia.
  - destruct Hh as [H1 H2]. assert (Hn : forall e, a <> APublish e) by (intros e ->; apply (Hp e); left). apply IH; [intros e H; apply (Hp e); by right|done|].
    destruct (decide (disc_rank s = 0)) as [E|E].
    + assert (Hi : q_pub s = QIdle) by (unfold disc_rank in E; destruct (q_pub s); [done|lia..]).
      assert (Hi' : q_pub (q_step true s a) = QIdle) by (destruct a as [e| | | |got]; cbn [q_step]; [by destruct (Hn e)|by rewrite Hi|by destruct (q_poll s)|done|destruct (q_poll s); cbn; try done; destruct (q_queue s), got; done]).
      unfold disc_rank. rewrite Hi'. lia.
    + pose proof (disc_step s a H1 E Hn) as H. cbn [List.filter] in G. destruct (is_push a); cbn [length] in *; lia.
Qed.
(** Delivery: with the poller running and not stopped, a waiting event is delivered (or discarded by the publisher) after at most three polls for each event before it, and four more. *)
Definition pcost (p : qpoll) : nat := match p with QTake => 2 | QTest => 3 | QEmit _ => 4 | QOff => 0 end.
Definition coming (x n : nat) (s : qst) : Prop :=
  x ∈ q_delivered s \/ x ∈ q_discarded s \/ (q_poll s = QEmit x /\ 1 <= n) \/ (q_poll s <> QOff /\ q_running s = true /\ exists k, q_queue s !! k = Some x /\ 3 * k + pcost (q_poll s) <= n).
Lemma coming_step d x n s a : honest_act s a -> a <> AStop -> coming x n s -> coming x (if is_poll a then n - 1 else n) (q_step d s a).
Proof.
  intros Hh Hs H. destruct a as [e|b| | |b]; cbn [is_poll].
  - cbn [q_step]. by destruct (q_pub s).
  - cbn [q_step]. destruct (q_pub s) as [|e m|e m|m]; [done| | |done].
    + destruct b; [|by destruct d]. destruct H as [H|[H|[H|(H1 & H2 & k & H3 & H4)]]]; [by left|by right; left|by right; right; left|]. do 3 right. do 2 (split; [done|]). exists k. split; [|done]. cbn. by apply lookup_app_l_Some.
    + destruct (q_queue s) as [|y l] eqn:Hq; [destruct H as [H|[H|[H|(H1 & H2 & k & H3 & H4)]]]; [by left|by right; left|by right; right; left|]; by rewrite Hq in H3|].
      destruct b; [|by destruct H as [H|[H|[H|(H1 & H2 & k & H3 & H4)]]]; [left|right; left|right; right; left|do 3 right; do 2 (split; [done|]); exists k; cbn; rewrite Hq in *]].
      destruct H as [H|[H|[H|(H1 & H2 & k & H3 & H4)]]]; [by left|right; left; cbn; apply elem_of_app; by left|by right; right; left|].
      rewrite Hq in H3. destruct k as [|k]; [injection H3 as ->; right; left; cbn; apply elem_of_app; right; left|]. do 3 right. do 2 (split; [done|]). exists k. split; [done|]. cbn. lia.
  - cbn [q_step]. destruct (q_poll s) eqn:Hp; try done. destruct H as [H|[H|[[H _]|(H1 & _)]]]; [by left|by right; left|congruence|congruence].
  - done.
  - cbn [honest_act] in Hh. subst b. cbn [q_step]. destruct (q_poll s) as [| | |y] eqn:Hp.
    + destruct H as [H|[H|[[H _]|(H1 & _)]]]; [by left|by right; left|congruence|congruence].
    + destruct H as [H|[H|[[H _]|(H1 & H2 & k & H3 & H4)]]]; [by left|by right; left|congruence|]. do 3 right. rewrite H2. cbn [q_poll q_running q_queue]. rewrite Hp in H4. do 2 (split; [done|]). exists k. split; [done|]. cbn in *. lia.
    + destruct H as [H|[H|[[H _]|(H1 & H2 & k & H3 & H4)]]]; [| |congruence|].
      * left. by destruct (q_queue s).
      * right. left. by destruct (q_queue s).
      * rewrite Hp in H4. destruct (q_queue s) as [|z l] eqn:Hq; [done|]. destruct k as [|k]; [injection H3 as ->; right; right; left; cbn in *; split; [done|lia]|].
        do 3 right. cbn [q_poll q_running q_queue]. do 2 (split; [done|]). exists k. split; [done|]. cbn in *. lia.
    + destruct H as [H|[H|[[H Hn]|(H1 & H2 & k & H3 & H4)]]].
      * left. cbn. apply elem_of_app. by left.
      * by right; left.
      * rewrite Hp in H. injection H as ->. left. cbn. apply elem_of_app. right. left.
      * do 3 right. rewrite Hp in H4. cbn [q_poll q_running q_queue]. do 2 (split; [done|]). exists k. split; [done|]. cbn in *. lia.
Qed.
Theorem C81_delivered : forall discard acts more k x, let s := q_run discard acts in
  q_poll s <> QOff -> q_running s = true -> q_queue s !! k = Some x -> AStop ∉ more -> honest discard s more -> 3 * k + 4 <= polls more ->
  let s' := q_run discard (acts ++ more) in x ∈ q_delivered s' \/ x ∈ q_discarded s'.
Proof.
  intros d acts more k x s H1 H2 H3 Hs Hh Hl s'. unfold s'. rewrite q_run_app. fold s. clearbody s. clear s'.
  assert (G : coming x (polls more) s) by (do 3 right; do 2 (split; [done|]); exists k; split; [done|]; etrans; [|exact Hl]; unfold pcost; destruct (q_poll s); lia). clear H1 H2 H3 Hl.
  revert s Hh G. induction more as [|a more IH]; intros s Hh G; cbn [fold_left].
  - cbn in G. destruct G as [G|[G|[[_ G]|(H1 & _ & k' & _ & G)]]]; [by left|by right|lia|]. unfold pcost in G. destruct (q_poll s); done || lia.
  - destruct Hh as [Hh1 Hh2]. apply IH; [intros H; apply Hs; by right|done|]. pose proof (coming_step d x _ s a Hh1 ltac:(intros ->; apply Hs; left) G) as G'.
    cbn [List.filter] in G'. destruct (is_poll a); cbn [length] in G'; [|done]. by replace (S (polls more) - 1) with (polls more) in G' by lia.
Qed.
(** Blocking: while the poller runs, a publication that waits for room returns at the latest at the first try after the polls that empty the queue. *)
Definition qcost (p : qpoll) : nat := match p with QTake => 1 | QTest => 2 | QEmit _ => 3 | QOff => 0 end.
Definition emptying (n : nat) (s : qst) : Prop :=
  q_pub s = QIdle \/ ((exists e m, q_pub s = QTry e m) /\ q_poll s <> QOff /\ q_running s = true /\ (q_queue s = [] \/ 3 * (length (q_queue s) - 1) + qcost (q_poll s) <= n)).
Lemma block_stay s a : q_pub s = QIdle -> (forall e, a <> APublish e) -> q_pub (q_step false s a) = QIdle.
Proof. intros Hi Hn. destruct a as [e| | | |got]; cbn [q_step]; [by destruct (Hn e)|by rewrite Hi|by destruct (q_poll s)|done|destruct (q_poll s); cbn; try done; destruct (q_queue s), got; done]. Qed.
Lemma emptying_step n s a : (forall e, a <> APublish e) -> a <> AStop -> honest_act s a -> emptying n s -> emptying (if is_poll a then n - 1 else n) (q_step false s a).
Proof.
  intros Hn Hs Hh [Hi|((e & m & Hp) & Hq & Hr & He)]; [left; by apply block_stay|]. destruct a as [e'|b| | |b]; [by destruct (Hn e')| | |done|]; cbn [is_poll].
  - cbn [q_step honest_act] in *. rewrite Hp in *. destruct b; [by left|]. right. split; [by exists e, m|done].
  - right. cbn [q_step]. destruct (q_poll s) eqn:Ho; [done|..]; rewrite ?Ho; (split; [by exists e, m|done]).
  - right. cbn [honest_act] in Hh. subst b. cbn [q_step]. destruct (q_poll s) as [| | |y]; [done|..]; cbn [qcost] in *.
    + rewrite Hr. cbn [q_pub q_poll q_running q_queue qcost]. split; [by exists e, m|]. do 2 (split; [done|]). destruct He as [He|He]; [by left|right; lia].
    + destruct (q_queue s) as [|z l]; cbn [q_pub q_poll q_running q_queue qcost]; (split; [by exists e, m|]); do 2 (split; [done|]); [by left|]. destruct He as [He|He]; [done|]. destruct l as [|w l]; [by left|right; cbn [length] in *; lia].
    + cbn [q_pub q_poll q_running q_queue qcost]. split; [by exists e, m|]. do 2 (split; [done|]). destruct He as [He|He]; [by left|right; lia].
Qed.
Lemma honest_app d s a b : honest d s (a ++ b) -> honest d s a /\ honest d (fold_left (q_step d) a s) b.
Proof. revert s. induction a as [|x a IH]; intros s H; [done|]. destruct H as [H1 H2]. destruct (IH _ H2). done. Qed.
Lemma emptying_run n s acts : (forall e, APublish e ∉ acts) -> AStop ∉ acts -> honest false s acts -> emptying n s -> emptying (n - polls acts) (fold_left (q_step false) acts s).
Proof.
  revert n s. induction acts as [|a acts IH]; intros n s Hp Hs Hh He; [cbn [fold_left List.filter length]; by replace (n - 0) with n by lia|]. destruct Hh as [H1 H2]. cbn [fold_left].
  pose proof (emptying_step n s a ltac:(intros e ->; apply (Hp e); left) ltac:(intros ->; apply Hs; left) H1 He) as He'. specialize (IH _ _ ltac:(intros e H; apply (Hp e); by right) ltac:(intros H; apply Hs; by right) H2 He').
  cbn [List.filter]. destruct (is_poll a); cbn [length]; [|done]. by replace (n - S (polls acts)) with (n - 1 - polls acts) by lia.
Qed.
Theorem C81_blocking_returns : forall acts more1 more2, let s := q_run false acts in
  q_poll s <> QOff -> q_running s = true -> (forall e, APublish e ∉ more1 ++ more2) -> AStop ∉ more1 ++ more2 -> honest false s (more1 ++ more2) ->
  3 * length (q_queue s) + 3 <= polls more1 -> 1 <= pushes more2 -> q_pub (q_run false (acts ++ more1 ++ more2)) = QIdle.
Proof.
  intros acts more1 more2 s H1 H2 Hp Hs Hh Hl1 Hl2. pose proof (qi_run false acts) as [_ _ _ _ Hb]. destruct (Hb eq_refl) as (_ & _ & Hb'). clear Hb. fold s in Hb'. rewrite q_run_app. fold s. clearbody s. rewrite fold_left_app.
  apply honest_app in Hh as [Hh1 Hh2].
  assert (G : emptying (polls more1) s). { destruct (q_pub s) as [|e m| |] eqn:E; [by left|right|done|done]. split; [by exists e, m|]. do 2 (split; [done|]). right. etrans; [|exact Hl1]. unfold qcost. destruct (q_poll s); lia. }
  apply (emptying_run _ _ more1) in G; [|intros e H; apply (Hp e), elem_of_app; by left|intros H; apply Hs, elem_of_app; by left|done]. rewrite Nat.sub_diag in G. set (s1 := fold_left (q_step false) more1 s) in *. clearbody s1. clear s Hb' H1 H2 Hl1 Hh1.
  assert (Hp2 : forall e, APublish e ∉ more2) by (intros e H; apply (Hp e), elem_of_app; by right). assert (Hs2 : AStop ∉ more2) by (intros H; apply Hs, elem_of_app; by right). clear Hp Hs.
  assert (K : forall l s, (forall e, APublish e ∉ l) -> q_pub s = QIdle -> q_pub (fold_left (q_step false) l s) = QIdle).
  { clear. induction l as [|a l IH]; intros s Hp Hi; [done|]. cbn [fold_left]. apply IH; [intros e H; apply (Hp e); by right|]. apply block_stay; [done|]. intros e ->. apply (Hp e). left. }
  revert s1 Hh2 G. induction more2 as [|a more2 IH]; intros s Hh G; [cbn in Hl2; lia|]. destruct Hh as [Hh1 Hh2]. cbn [fold_left].
  pose proof (emptying_step 0 s a ltac:(intros e ->; apply (Hp2 e); left) ltac:(intros ->; apply Hs2; left) Hh1 G) as G'. replace (if is_poll a then 0 - 1 else 0) with 0 in G' by (by destruct (is_poll a)).
  destruct (is_push a) eqn:Ea.
  - apply K; [intros e H; apply (Hp2 e); by right|]. destruct a as [|b| | |]; try done. destruct G as [G|((e & m & Hp) & Hq & Hr & He)]; [by apply block_stay|].
    assert (Hz : q_queue s = []) by (destruct He as [He|He]; [done|unfold qcost in He; destruct (q_poll s); done || lia]). cbn [honest_act] in Hh1. rewrite Hp in Hh1. rewrite (Hh1 Hz). cbn [q_step]. by rewrite Hp.
  - cbn [List.filter] in Hl2. rewrite Ea in Hl2. apply IH; [done|intros e H; apply (Hp2 e); by right|intros H; apply Hs2; by right|done|done].
Qed.
(** Without a poller it may wait forever: the queue refuses, nobody empties it. *)
Theorem C81_blocking_needs_poller : forall acts more e n, let s := q_run false acts in q_pub s = QTry e n -> q_poll s = QOff -> (forall a, a ∈ more -> a = APush false \/ a = APoll true \/ exists e, a = APublish e) ->
  q_pub (q_run false (acts ++ more)) = QTry e n.
Proof.
  intros acts more e n s H1 H2 Hm. rewrite q_run_app. fold s. clearbody s. revert s H1 H2 Hm. induction more as [|a more IH]; intros s H1 H2 Hm; [done|]. cbn [fold_left].
  destruct (Hm a ltac:(left)) as [->|[->|[e' ->]]]; apply IH; try (intros b Hb; apply Hm; by right); cbn [q_step]; rewrite ?H1, ?H2; done.
Qed.
(** stop() ends the poller: as long as nobody starts it again it terminates within three of its own steps, whatever the publisher does, and at most one more event is delivered. *)
Lemma q_stopping discard more : forall s, q_running s = false -> AStart ∉ more ->
  length (q_delivered (fold_left (q_step discard) more s)) <= length (q_delivered s) + match q_poll s with QEmit _ | QTake => 1 | _ => 0 end /\
  (match q_poll s with QEmit _ => 2 | QTake => 3 | QTest => 1 | QOff => 0 end <= length (List.filter is_poll more) -> q_poll (fold_left (q_step discard) more s) = QOff).
Proof.
  induction more as [|a more IH]; intros s Hr Hn; cbn [fold_left].
  - split; [lia|]. cbn. destruct (q_poll s); try lia; done.
  - apply not_elem_of_cons in Hn as [Ha Hn]. destruct a as [e|acc| | |got]; cbn [List.filter is_poll length]; try done.
    + assert (E : q_running (q_step discard s (APublish e)) = false /\ q_poll (q_step discard s (APublish e)) = q_poll s /\ q_delivered (q_step discard s (APublish e)) = q_delivered s) by (cbn; by destruct (q_pub s)).
      destruct E as (E1 & E2 & E3). specialize (IH _ E1 Hn). by rewrite E2, E3 in IH.
    + assert (E : q_running (q_step discard s (APush acc)) = false /\ q_poll (q_step discard s (APush acc)) = q_poll s /\ q_delivered (q_step discard s (APush acc)) = q_delivered s)
        by (cbn; destruct (q_pub s), acc, (q_queue s); done).
      destruct E as (E1 & E2 & E3). specialize (IH _ E1 Hn). by rewrite E2, E3 in IH.
    + assert (E : q_running (q_step discard s AStop) = false) by done. specialize (IH _ E Hn). exact IH.
    + assert (E : q_running (q_step discard s (APoll got)) = false) by (cbn; destruct (q_poll s), (q_queue s), got; done).
      destruct (IH _ E Hn) as [I1 I2]. cbn [q_step] in I1, I2 |- *. destruct (q_poll s) eqn:Ep; cbn [q_poll q_delivered] in *.
      * rewrite Ep in I1, I2. split; [lia|]. intros. apply I2. lia.
      * rewrite Hr in *. split; [lia|]. intros. apply I2. lia.
      * destruct (q_queue s); [|destruct got]; cbn [q_poll q_delivered] in *; (split; [lia|]); intros; apply I2; lia.
      * rewrite app_length in I1. cbn [length] in I1. split; [lia|]. intros. apply I2. lia.
Qed.
Theorem C81_stop : forall discard acts more, AStart ∉ more -> 3 <= length (List.filter is_poll more) -> let s := q_run discard (acts ++ AStop :: more) in
  q_poll s = QOff /\ length (q_delivered s) <= S (length (q_delivered (q_run discard acts))).
Proof.
  intros discard acts more Hn Hk. unfold q_run. rewrite fold_left_app. cbn [fold_left]. set (s := fold_left (q_step discard) acts q_new).
  destruct (q_stopping discard more (q_step discard s AStop) eq_refl Hn) as [H1 H2]. cbn zeta. split.
  - apply H2. destruct (q_poll _); lia.
  - change (q_poll (q_step discard s AStop)) with (q_poll s) in H1. change (q_delivered (q_step discard s AStop)) with (q_delivered s) in H1. destruct (q_poll s); lia.
Qed.
(** Concrete cases: a discarding publisher that is refused twice; a restart of the poller between deliveries. *)
(** A poller that was started while it was off, and not stopped since, runs: these are the conditions of the two theorems above, said with calls only. *)
Lemma q_stays_on discard more : forall s, q_poll s <> QOff -> q_running s = true -> AStop ∉ more ->
  q_poll (fold_left (q_step discard) more s) <> QOff /\ q_running (fold_left (q_step discard) more s) = true.
Proof.
  induction more as [|a more IH]; intros s H1 H2 Hn; [done|]. apply not_elem_of_cons in Hn as [Ha Hn]. cbn [fold_left]. apply IH; [| |done].
  - destruct a as [e|acc| | |got]; cbn [q_step]; [by destruct (q_pub s)|by destruct (q_pub s), acc, (q_queue s), discard|destruct (q_poll s) eqn:?; cbn; congruence|congruence|].
    destruct (q_poll s); [done|by rewrite H2|destruct (q_queue s); [done|by destruct got]|done].
  - destruct a as [e|acc| | |got]; cbn [q_step]; [by destruct (q_pub s)|by destruct (q_pub s), acc, (q_queue s), discard|destruct (q_poll s) eqn:?; cbn; congruence|congruence|].
    destruct (q_poll s); [done|done|destruct (q_queue s); [done|by destruct got]|done].
Qed.
Theorem C81_started : forall discard acts more, q_poll (q_run discard acts) = QOff -> AStop ∉ more ->
  let s := q_run discard (acts ++ AStart :: more) in q_poll s <> QOff /\ q_running s = true.
Proof.
  intros discard acts more H Hn. unfold q_run. rewrite fold_left_app. cbn [fold_left]. apply q_stays_on; [..|done]; fold (q_run discard acts); cbn [q_step]; by rewrite H.
Qed.
Theorem C81_started_delivers : forall discard acts more1 more2 k x, q_poll (q_run discard acts) = QOff -> AStop ∉ more1 ++ more2 ->
  let s := q_run discard (acts ++ AStart :: more1) in q_queue s !! k = Some x -> honest discard s more2 -> 3 * k + 4 <= polls more2 ->
  let s' := q_run discard ((acts ++ AStart :: more1) ++ more2) in x ∈ q_delivered s' \/ x ∈ q_discarded s'.
Proof.
  intros discard acts more1 more2 k x H Hn s Hx Hh Hp. apply not_elem_of_app in Hn as [Hn1 Hn2]. destruct (C81_started discard acts more1 H Hn1) as [H1 H2]. by eapply C81_delivered.
Qed.
Print Assumptions C81_started_delivers.
Example C81_case : let acts := [APublish 1; APush true; APush true; APublish 2; APush true; APush true; APublish 3; APush false; APush true; APush false; APush true; APush true; APush true;
    APublish 4; APush true; APush true; AStart; APoll true; APoll true; AStop; APoll true; APoll true; AStart; APoll true] in let s := q_run true acts in
  q_published s = [1; 2; 3; 4] /\ q_discarded s = [1; 2] /\ q_delivered s = [3] /\ q_queue s = [4] /\ q_stat s = 2 /\ q_poll s <> QOff /\ q_running s = true /\ q_delivered (q_run true (acts ++ [APoll true; APoll true])) = [3; 4].
Proof. by vm_compute. Qed.
Example C81_blocking_case : let acts := [APublish 1; APush true; AStart; APublish 2; APush false; APoll true] in let s := q_run false acts in
  q_pub s = QTry 2 0 /\ q_queue s = [1] /\ honest false s (repeat (APoll true) 6 ++ [APush true]) /\ q_published (q_run false (acts ++ repeat (APoll true) 6 ++ [APush true])) = [1; 2].
Proof. cbv zeta. split; [by vm_compute|]. split; [by vm_compute|]. split; [|by vm_compute]. cbn. by repeat split. Qed.
Print Assumptions C81_order.
Print Assumptions C81_accounting.
Print Assumptions C81_count.
Print Assumptions C81_oldest_discarded.
Print Assumptions C81_blocking_lossless.
Print Assumptions C81_discarding_returns.
Print Assumptions C81_delivered.
Print Assumptions C81_blocking_returns.
Print Assumptions C81_blocking_needs_poller.
Print Assumptions C81_stop.
