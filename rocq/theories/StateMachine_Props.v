(** * C32 - C35, C60, C61: the state machine and its listener. *)
From Coq Require Import Ascii.
From stdpp Require Import prelude strings gmap.
From Verif Require Import StateMachine_Model StateMachine_Spec StateMachine_Proofs.
Local Open Scope string_scope.
Local Open Scope list_scope.

(** ** C32 *)
(** An update of a running machine, with observers that do not call the machine, takes events in order up to the first that triggers a transition of the current state, goes
    where the description says and notifies every observer once, of the new state; or, when no event triggers, takes them all and notifies that nothing changed. *)
Theorem C32_update c s cs st :
  NoDup (names c) -> s_ub s = false -> s_stack s = FCalls (Update :: cs) :: st -> s_started s = true -> s_cur s ∈ names c ->
  exists n, let s' := steps n c quiet s in
    s_stack s' = FCalls cs :: st /\ s_started s' = true /\ s_obs s' = s_obs s /\ s_ub s' = false /\
    ((exists pre e post d, s_queue s = pre ++ e :: post /\ Forall (no_transition c (s_cur s)) pre /\ describes c (s_cur s) e d /\
        s_cur s' = d /\ s_queue s' = post /\ s_notes s' = s_notes s ++ ((fun o => Note o (shown c d) true) <$> s_obs s))
     \/ (Forall (no_transition c (s_cur s)) (s_queue s) /\ s_cur s' = s_cur s /\ s_queue s' = [] /\
         s_notes s' = s_notes s ++ ((fun o => Note o (shown c (s_cur s)) false) <$> s_obs s))).
Proof.
  intros Hn Hub Hst Hgo Hcur.
  destruct (table c !! s_cur s) as [ts|] eqn:Ht; [|by apply table_none in Ht].
  pose proof (consume_spec ts (s_cur s) (s_queue s)) as Hc.
  destruct (consume ts (s_cur s) (s_queue s)) as [[[d r] k] ch] eqn:E.
  set (s1 := Sm true d r (s_obs s) (FNotify (s_obs s) ch :: FCalls cs :: st) (s_ub s) (s_notes s) (s_accepted s) (s_consumed s ++ k) (s_since s ++ k)).
  assert (step c quiet s = s1) as H1.
  { unfold step. rewrite Hub, Hst. cbn [exec]. unfold update. rewrite Hgo, Ht, E. done. }
  exists (1 + (2 * length (s_obs s) + 1)). rewrite steps_add. cbn [steps]. rewrite H1.
  rewrite (notify_all c s1 (s_obs s) ch (FCalls cs :: st)) by done. cbn.
  repeat split. destruct Hc as [(pre & e & Hq & HF & Hf & -> & ->)|(HF & -> & -> & -> & ->)].
  - left. exists pre, e, r, d. repeat split; try done.
    + eapply Forall_impl; [exact HF|]. intros x Hx. by apply (no_transition_fire c (s_cur s) x ts).
    + by apply (describes_fire c (s_cur s) e d ts).
  - right. repeat split; try done. eapply Forall_impl; [exact HF|]. intros x Hx. by apply (no_transition_fire c (s_cur s) x ts).
Qed.
(** start(): the machine runs, and every observer is told the current state, as a change, once; stop() tells nobody. *)
Theorem C32_start c s cs st :
  s_ub s = false -> s_stack s = FCalls (Start :: cs) :: st ->
  exists n, let s' := steps n c quiet s in
    s_stack s' = FCalls cs :: st /\ s_started s' = true /\ s_ub s' = false /\ s_cur s' = s_cur s /\ s_queue s' = s_queue s /\ s_obs s' = s_obs s /\
    s_notes s' = s_notes s ++ ((fun o => Note o (shown c (s_cur s)) true) <$> s_obs s).
Proof.
  intros Hub Hst. set (s1 := Sm true (s_cur s) (s_queue s) (s_obs s) (FNotify (s_obs s) true :: FCalls cs :: st) (s_ub s) (s_notes s) (s_accepted s) (s_consumed s) (s_since s)).
  assert (step c quiet s = s1) as H1 by (unfold step; rewrite Hub, Hst; done).
  exists (1 + (2 * length (s_obs s) + 1)). rewrite steps_add. cbn [steps]. rewrite H1. rewrite (notify_all c s1 (s_obs s) true (FCalls cs :: st)) by done. done.
Qed.
Theorem C32_stop c re s cs st :
  s_ub s = false -> s_stack s = FCalls (Stop :: cs) :: st ->
  step c re s = Sm false (s_cur s) (s_queue s) (s_obs s) (FCalls cs :: st) false (s_notes s) (s_accepted s) (s_consumed s) (s_since s).
Proof. intros Hub Hst. unfold step. rewrite Hub, Hst. cbn [exec]. by rewrite Hub. Qed.
(** enqueueAndUpdate is enqueueEvent followed by update. *)
Theorem C32_enqueue_and_update c re s e cs st :
  s_ub s = false -> s_stack s = FCalls (EnqueueAndUpdate e :: cs) :: st ->
  step c re s = step c re (step c re (Sm (s_started s) (s_cur s) (s_queue s) (s_obs s) (FCalls (Enqueue e :: Update :: cs) :: st) false (s_notes s) (s_accepted s) (s_consumed s) (s_since s))).
Proof.
  intros Hub Hst. unfold step at 1. rewrite Hub, Hst. cbn [exec]. unfold step at 2. cbn [s_ub s_stack exec]. unfold enqueue. cbn.
  destruct (s_started s) eqn:E; unfold step; cbn; rewrite ?Hub; cbn; unfold update; cbn; rewrite ?E, ?Hub; try done.
Qed.
(** While stopped, events are not accepted and update does nothing. *)
Theorem C32_stopped c re s x cs st :
  s_ub s = false -> s_stack s = FCalls (x :: cs) :: st -> s_started s = false -> (x = Update \/ exists e, x = Enqueue e \/ x = EnqueueAndUpdate e) ->
  step c re s = Sm false (s_cur s) (s_queue s) (s_obs s) (FCalls cs :: st) false (s_notes s) (s_accepted s) (s_consumed s) (s_since s).
Proof.
  intros Hub Hst Hgo Hx. unfold step. rewrite Hub, Hst.
  destruct Hx as [->|[e [->| ->]]]; cbn [exec]; unfold update, enqueue; rewrite ?Hgo; cbn; by rewrite ?Hgo, ?Hub.
Qed.
(** For every user program and whatever the observers do (calling the machine again included): accepted events are taken out in the order
    in which they were accepted, none twice and none lost, and the current state is where the description leads, from the initial state, by the events taken out since the last reset. *)
Theorem C32_history c re user n :
  NoDup (names c) ->
  let s := steps n c re (sm_new c user) in
  s_accepted s = s_consumed s ++ s_queue s /\ path c (initial c) (s_since s) (s_cur s) /\ (exists before, s_consumed s = before ++ s_since s).
Proof. intros Hn. apply steps_inv; [done|]. apply new_inv. Qed.
(** The path is determined by the events: the description is deterministic. *)
Theorem C32_deterministic c q es q1 q2 : NoDup (names c) -> path c q es q1 -> path c q es q2 -> q1 = q2.
Proof.
  intros Hn H. revert q2. induction H as [q|q e d es q' Hd Hp IH|q e es q' Hno Hp IH]; intros q2 H2; inversion H2; subst; try done.
  - match goal with H : describes c q e ?d' |- _ => assert (d' = d) as ->; [|by apply IH] end.
    pose proof (describes_in _ _ _ _ Hd) as Hin. destruct (table c !! q) as [ts|] eqn:Ht; [|by apply table_none in Ht].
    apply (describes_fire _ _ _ _ _ Hn Ht) in Hd. match goal with H : describes c q e ?x |- ?x = d => apply (describes_fire _ _ _ _ _ Hn Ht) in H end. congruence.
  - match goal with H : no_transition c q e |- _ => by destruct (H d) end.
  - match goal with H : describes c q e ?d |- _ => by destruct (Hno d) end.
  - by apply IH.
Qed.

(** ** C33 *)
Theorem C33_current_is_described c re user n : well_formed c -> s_cur (steps n c re (sm_new c user)) ∈ names c.
Proof.
  intros W. pose proof (steps_inv c re n (sm_new c user) (wf_nodup c W) (new_inv c user)) as (_ & Hp & _).
  eapply path_names; [done|exact Hp|]. apply initial_in; [apply (wf_some c W)|apply (wf_nonempty c W)].
Qed.
(** A step that changes the current state is a reset, or an update of a running machine that follows a described transition on an event that was queued (or is the one given to enqueueAndUpdate). *)
Theorem C33_only_described_transitions c re s :
  NoDup (names c) -> s_cur (step c re s) <> s_cur s ->
  (exists cs st, s_stack s = FCalls (Reset :: cs) :: st /\ s_cur (step c re s) = initial c)
  \/ (s_started s = true /\ exists e, describes c (s_cur s) e (s_cur (step c re s)) /\
      ((exists cs st, s_stack s = FCalls (Update :: cs) :: st /\ e ∈ s_queue s) \/ (exists e' cs st, s_stack s = FCalls (EnqueueAndUpdate e' :: cs) :: st /\ (e ∈ s_queue s \/ e = e')))).
Proof.
  intros Hn. unfold step. destruct (s_ub s); [done|]. destruct (s_stack s) as [|[[|x cs]|[|o os] ch] st] eqn:Hst; try done.
  destruct x; cbn [exec]; try done.
  - intros _. left. by exists cs, st.
  - intros H. right. destruct (update_cur c s (FCalls cs :: st) Hn H) as (Hgo & e & He & Hd). split; [done|]. exists e. split; [done|]. left. by exists cs, st.
  - unfold enqueue. destruct (s_started s) eqn:E; done.
  - intros H. right. destruct (s_started s) eqn:E.
    + assert (s_cur (enqueue e s) = s_cur s) as Hc by (unfold enqueue; by rewrite E).
      assert (s_queue (enqueue e s) = s_queue s ++ [e]) as Hq by (unfold enqueue; by rewrite E).
      rewrite <- Hc in H. destruct (update_cur c (enqueue e s) (FCalls cs :: st) Hn H) as (_ & e' & He & Hd). split; [done|].
      exists e'. rewrite Hc in Hd. split; [done|]. right. exists e, cs, st. split; [done|].
      rewrite Hq, elem_of_app, elem_of_list_singleton in He. done.
    + exfalso. apply H. unfold enqueue, update. rewrite E. rewrite E. done.
Qed.
(** With a target that is not described the machine is stuck: update does nothing any more, and does not notify. *)
Theorem C33_undescribed_target_stuck c re s cs st :
  NoDup (names c) -> s_ub s = false -> s_stack s = FCalls (Update :: cs) :: st -> s_cur s ∉ names c ->
  step c re s = Sm (s_started s) (s_cur s) (s_queue s) (s_obs s) (FCalls cs :: st) false (s_notes s) (s_accepted s) (s_consumed s) (s_since s).
Proof.
  intros Hn Hub Hst Hc. apply table_none in Hc; [|done]. unfold step. rewrite Hub, Hst. cbn [exec]. unfold update. rewrite Hc. by destruct (s_started s); rewrite ?Hub.
Qed.
Definition bad_config := Config "m" [CState "a" [CTrans "x" "go"]].
Theorem C33_undescribed_target_refuted :
  NoDup (names bad_config) /\ s_cur (steps 9 bad_config quiet (sm_new bad_config [Start; EnqueueAndUpdate "go"])) = "x" /\ "x" ∉ names bad_config.
Proof.
  split; [|split].
  - apply NoDup_singleton.
  - vm_compute. done.
  - cbn. rewrite elem_of_list_singleton. done.
Qed.

(** ** C34 *)
(** reset() takes the machine to: stopped, in the initial state, with the events still queued. *)
Theorem C34_reset c re s cs st :
  s_ub s = false -> s_stack s = FCalls (Reset :: cs) :: st ->
  step c re s = Sm false (initial c) (s_queue s) (s_obs s) (FCalls cs :: st) false (s_notes s) (s_accepted s) (s_consumed s) [].
Proof. intros Hub Hst. unfold step. rewrite Hub, Hst. cbn. by rewrite Hub. Qed.

Definition sim (pre : list note) (s f : sm) : Prop :=
  s_started s = s_started f /\ s_cur s = s_cur f /\ s_queue s = s_queue f /\ s_obs s = s_obs f /\ s_stack s = s_stack f /\ s_ub s = s_ub f /\ s_notes s = pre ++ s_notes f.
Lemma update_sim pre c s f st : sim pre s f -> sim pre (update c s st) (update c f st).
Proof.
  intros (H1 & H2 & H3 & H4 & H5 & H6 & H7). unfold update. rewrite H1, H2, H3, H4, H6. destruct (s_started f); [|done].
  destruct (table c !! s_cur f); [|done]. destruct (consume _ _ _) as [[[d r] k] ch]. done.
Qed.
Lemma enqueue_sim pre s f e : sim pre s f -> sim pre (enqueue e s) (enqueue e f).
Proof.
  intros (H1 & H2 & H3 & H4 & H5 & H6 & H7). unfold enqueue. rewrite H1. destruct (s_started f) eqn:E; unfold sim; cbn; by rewrite ?H1, ?H2, ?H3, ?H4, ?H5, ?H6, ?H7, ?E.
Qed.
Lemma step_sim pre c re s f : sim pre s f -> sim pre (step c re s) (step c (fun ns => re (pre ++ ns)) f).
Proof.
  intros H. pose proof H as (H1 & H2 & H3 & H4 & H5 & H6 & H7). unfold step. rewrite H5, H6. destruct (s_ub f) eqn:Eub; [done|].
  destruct (s_stack f) as [|[[|x cs]|[|o os] ch] st]; [done|..].
  - unfold sim. cbn. by rewrite ?H1, ?H2, ?H3, ?H4, ?H5, ?H7.
  - destruct x; cbn [exec]; try (unfold sim; cbn; by rewrite ?H1, ?H2, ?H3, ?H4, ?H5, ?H6, ?H7, ?Eub).
    + by apply update_sim.
    + pose proof (enqueue_sim pre s f e H) as (G1 & G2 & G3 & G4 & G5 & G6 & G7). done.
    + apply update_sim. by apply enqueue_sim.
  - unfold sim. cbn. by rewrite ?H1, ?H2, ?H3, ?H4, ?H5, ?H7.
  - unfold sim. cbn. rewrite ?H1, ?H2, ?H3, ?H4, ?H5, ?H7, <- app_assoc. done.
Qed.
Lemma steps_sim pre c re n s f : sim pre s f -> sim pre (steps n c re s) (steps n c (fun ns => re (pre ++ ns)) f).
Proof. revert s f. induction n; intros s f H; simpl; [done|]. apply IHn. by apply step_sim. Qed.
(** If no event is queued when reset() is called, everything the machine shows afterwards (state, queue, notifications) is what a new machine with
    the same observers shows for the same calls. *)
Definition fresh (c : config) (obs : list nat) (cs : list call) : sm := Sm false (initial c) [] obs [FCalls cs] false [] [] [] [].
Lemma fresh_is_new c obs cs re : exists ac co si, steps (length obs) c re (sm_new c ((Register <$> obs) ++ cs)) = Sm false (initial c) [] obs [FCalls cs] false [] ac co si /\ ac = [] /\ co = [] /\ si = [].
Proof.
  exists [], [], []. split; [|done]. unfold sm_new. change obs with ([] ++ obs) at 3. generalize (@nil nat) as l. induction obs as [|o obs IH]; intros l.
  - cbn. by rewrite app_nil_r.
  - cbn [length steps]. transitivity (steps (length obs) c re (Sm false (initial c) [] (l ++ [o]) [FCalls ((Register <$> obs) ++ cs)] false [] [] [] [])); [done|].
    rewrite IH. f_equal. by rewrite <- app_assoc.
Qed.
Theorem C34_reset_fresh c re s cs n :
  s_ub s = false -> s_stack s = [FCalls (Reset :: cs)] -> s_queue s = [] ->
  let a := steps n c re (step c re s) in let b := steps n c (fun ns => re (s_notes s ++ ns)) (fresh c (s_obs s) cs) in
  s_started a = s_started b /\ s_cur a = s_cur b /\ s_queue a = s_queue b /\ s_obs a = s_obs b /\ s_stack a = s_stack b /\ s_notes a = s_notes s ++ s_notes b.
Proof.
  intros Hub Hst Hq a b. assert (sim (s_notes s) a b) as (H1 & H2 & H3 & H4 & H5 & _ & H7); [|done].
  apply steps_sim. rewrite (C34_reset c re s cs [] Hub Hst). unfold sim. cbn. by rewrite Hq, app_nil_r.
Qed.
Theorem C34_fresh_reachable c obs cs re : steps (length obs) c re (sm_new c ((Register <$> obs) ++ cs)) = fresh c obs cs.
Proof. destruct (fresh_is_new c obs cs re) as (? & ? & ? & -> & -> & -> & ->). done. Qed.
(** Events queued before the reset do have an effect after it. *)
Definition two := Config "m" [CState "a" [CTrans "b" "go"]; CState "b" [CTrans "a" "back"]].
Theorem C34_reset_refuted :
  let before := [Start; Enqueue "go"; Reset] in
  s_cur (steps 20 two quiet (sm_new two (before ++ [Start; Update]))) = "b" /\
  s_cur (steps 20 two quiet (sm_new two [Start; Update])) = "a".
Proof. vm_compute. done. Qed.

Lemma two_well_formed : well_formed two.
Proof.
  constructor.
  - cbn. apply NoDup_cons. split; [rewrite elem_of_list_singleton; done|apply NoDup_singleton].
  - cbn. rewrite elem_of_cons, elem_of_list_singleton. intros [H|H]; done.
  - done.
  - intros st t Hst Ht. cbn in Hst. rewrite elem_of_cons, elem_of_list_singleton in Hst.
    destruct Hst as [-> | ->]; cbn in Ht; rewrite elem_of_list_singleton in Ht; subst t; cbn; [right; left|left].
Qed.
(** The hypotheses of C32_update, C33 and C34_reset_fresh are met on a run with two observers. *)
Example C32_example :
  let s := steps 9 two quiet (sm_new two [Register 1; Register 2; Start; Enqueue "zz"; Enqueue "go"; Update; Reset]) in
  s_ub s = false /\ s_stack s = [FCalls [Enqueue "go"; Update; Reset]] /\ s_started s = true /\ s_cur s = "a" /\ s_queue s = ["zz"]
  /\ s_notes s = [Note 1 "m:a" true; Note 2 "m:a" true] /\
  let s := steps 16 two quiet s in
  s_ub s = false /\ s_cur s = "a" /\ s_queue s = [] /\ s_stack s = [] /\
  s_notes s = [Note 1 "m:a" true; Note 2 "m:a" true; Note 1 "m:b" true; Note 2 "m:b" true].
Proof. vm_compute. repeat split. Qed.

(** ** C35 *)
(** For every history, the actions run by the notification that follows the part [h1] of it are exactly those the specification says, in that order. *)
Definition is_notified (x : lcall) : bool := match x with Notified _ _ => true | _ => false end.
Lemma lstep_log l x : l_log (lstep l x) = l_log l ++ match x with Notified q ch => [(if ch then default [] (l_once l !! q) ++ default [] (l_acts l !! q) else []) ++ default [] (l_per l !! q)] | _ => [] end.
Proof. destruct x; cbn; by rewrite ?app_nil_r. Qed.
Lemma lrun_log_length id h : length (l_log (lrun (listener_new id) h)) = length (List.filter is_notified h).
Proof.
  induction h as [|x h IH] using rev_ind; [done|]. rewrite lrun_snoc, lstep_log, List.filter_app, !app_length, IH. by destruct x.
Qed.
Lemma lrun_log_prefix l h : exists k, l_log (lrun l h) = l_log l ++ k.
Proof.
  induction h as [|x h [k IH]] using rev_ind; [exists []; by rewrite app_nil_r|].
  rewrite lrun_snoc, lstep_log, IH. eexists. by rewrite <- app_assoc.
Qed.
Theorem C35_listener id h1 q ch h2 :
  let log := l_log (lrun (listener_new id) (h1 ++ Notified q ch :: h2)) in
  log !! length (List.filter is_notified h1) = Some (must_run id h1 q ch)
  /\ length log = length (List.filter is_notified (h1 ++ Notified q ch :: h2)).
Proof.
  intros log. split; [|apply lrun_log_length]. unfold log. rewrite cons_middle, app_assoc. unfold lrun at 1. rewrite fold_left_app.
  fold (lrun (listener_new id) (h1 ++ [Notified q ch])). set (l := lrun _ (h1 ++ _)). fold (lrun l h2).
  destruct (lrun_log_prefix l h2) as [k ->]. unfold l. rewrite lrun_snoc, lstep_log. rewrite <- app_assoc.
  rewrite lookup_app_r by (rewrite lrun_log_length; lia). rewrite lrun_log_length, Nat.sub_diag. cbn. f_equal.
  destruct (linv_run id h1) as [_ H]. destruct (H q) as (-> & -> & ->). done.
Qed.

(** A one-off action runs at most once. [a]: an action registered once only, as a one-off action. *)
Definition registers (x : lcall) : option nat := match x with AddAction _ a | AddOneOff _ a | AddPeriodic _ a => Some a | _ => None end.
Definition occ (a : nat) (l : list nat) : nat := length (filter (fun x => x = a) l).
Lemma occ_app a l k : occ a (l ++ k) = occ a l + occ a k.
Proof. unfold occ. by rewrite filter_app, app_length. Qed.
Definition oinv (a : nat) (k : string) (l : listener) : Prop :=
  (forall j, occ a (default [] (l_acts l !! j)) = 0 /\ occ a (default [] (l_per l !! j)) = 0 /\ (j <> k -> occ a (default [] (l_once l !! j)) = 0))
  /\ occ a (concat (l_log l)) + occ a (default [] (l_once l !! k)) <= 1.
Lemma occ_single a b : occ a [b] = if decide (b = a) then 1 else 0.
Proof. unfold occ. by destruct (decide (b = a)) as [->|H]; [rewrite filter_cons_True|rewrite filter_cons_False]. Qed.
Lemma occ_push a j b m j' : occ a (default [] (push j b m !! j')) = occ a (default [] (m !! j')) + (if decide (j = j' /\ b = a) then 1 else 0).
Proof.
  rewrite push_lookup, occ_app. f_equal. destruct (decide (j = j')) as [->|H].
  - rewrite occ_single. destruct (decide (b = a)), (decide _); try done; tauto.
  - rewrite decide_False by tauto. done.
Qed.
Lemma oinv_step a k l x : oinv a k l -> registers x <> Some a -> oinv a k (lstep l x).
Proof.
  intros [H1 H2] Hx. assert (forall b, registers x = Some b -> b <> a) as Hb by (intros b E ->; done).
  split.
  - intros j. destruct (H1 j) as (Ha & Hp & Ho). destruct x as [q b|q b|q b|q| |q ch]; cbn [lstep l_acts l_once l_per].
    + rewrite occ_push, Ha, decide_False; [done|]. intros [_ E]. by apply (Hb b).
    + rewrite occ_push. split; [done|split; [done|]]. intros Hj. rewrite (Ho Hj), decide_False; [done|]. intros [_ E]. by apply (Hb b).
    + rewrite occ_push, Hp, decide_False; [done|]. intros [_ E]. by apply (Hb b).
    + split; [done|split; [|done]]. destruct (decide (complete_name (l_id l) q = j)) as [->|E]; [by rewrite lookup_insert|by rewrite lookup_insert_ne].
    + split; [done|split; [|done]]. by rewrite lookup_empty.
    + split; [done|split; [done|]]. intros Hj. destruct ch; [|by apply Ho]. destruct (decide (q = j)) as [->|E]; [by rewrite lookup_delete|rewrite lookup_delete_ne by done; by apply Ho].
  - rewrite lstep_log, concat_app, occ_app. destruct x as [q b|q b|q b|q| |q ch]; cbn [lstep l_once concat]; rewrite ?Nat.add_0_r; try done.
    + rewrite occ_push, decide_False; [cbn; lia|]. intros [_ E]. by apply (Hb b).
    + rewrite app_nil_r, occ_app. destruct (H1 q) as (Ha & Hp & Ho). rewrite Hp. destruct ch; [|cbn; lia]. rewrite occ_app, Ha.
      destruct (decide (q = k)) as [->|E].
      * rewrite lookup_delete. cbn. lia.
      * rewrite lookup_delete_ne by done. rewrite (Ho E). lia.
Qed.
Lemma oinv_run a k l h : oinv a k l -> Forall (fun x => registers x <> Some a) h -> oinv a k (lrun l h).
Proof. revert l. induction h as [|x h IH]; intros l Hl HF; [done|]. apply Forall_cons in HF as [Hx HF]. unfold lrun. cbn. apply IH; [|done]. by apply oinv_step. Qed.
Theorem C35_one_off_at_most_once id h1 q a h2 :
  Forall (fun x => registers x <> Some a) (h1 ++ h2) ->
  occ a (concat (l_log (lrun (listener_new id) (h1 ++ AddOneOff q a :: h2)))) <= 1.
Proof.
  intros HF. apply Forall_app in HF as [HF1 HF2]. unfold lrun. rewrite fold_left_app. cbn [fold_left].
  set (k := complete_name id q).
  assert (forall l h, (forall j, occ a (default [] (l_acts l !! j)) = 0 /\ occ a (default [] (l_per l !! j)) = 0 /\ occ a (default [] (l_once l !! j)) = 0) /\ occ a (concat (l_log l)) = 0 ->
     Forall (fun x => registers x <> Some a) h ->
     (forall j, occ a (default [] (l_acts (lrun l h) !! j)) = 0 /\ occ a (default [] (l_per (lrun l h) !! j)) = 0 /\ occ a (default [] (l_once (lrun l h) !! j)) = 0) /\ occ a (concat (l_log (lrun l h))) = 0) as Hz.
  { intros l h. revert l. induction h as [|x h IH]; intros l Hl HF; [done|]. apply Forall_cons in HF as [Hx HF]. unfold lrun. cbn. apply IH; [|done]. clear IH.
    destruct Hl as [Hl Hlog]. assert (forall b, registers x = Some b -> b <> a) as Hb by (intros b E ->; done). split.
    - intros j. destruct (Hl j) as (Ha & Hp & Ho). destruct x as [p b|p b|p b|p| |p ch]; cbn [lstep l_acts l_once l_per].
      + rewrite occ_push, Ha, decide_False; [done|]. intros [_ E]. by apply (Hb b).
      + rewrite occ_push, Ho, decide_False; [done|]. intros [_ E]. by apply (Hb b).
      + rewrite occ_push, Hp, decide_False; [done|]. intros [_ E]. by apply (Hb b).
      + split; [done|split; [|done]]. destruct (decide (complete_name (l_id l) p = j)) as [->|E]; [by rewrite lookup_insert|by rewrite lookup_insert_ne].
      + split; [done|split; [|done]]. by rewrite lookup_empty.
      + split; [done|split; [done|]]. destruct ch; [|done]. destruct (decide (p = j)) as [->|E]; [by rewrite lookup_delete|by rewrite lookup_delete_ne].
    - rewrite lstep_log, concat_app, occ_app, Hlog. destruct x as [p b|p b|p b|p| |p ch]; try done. cbn [concat]. destruct (Hl p) as (Ha & Hp & Ho).
      rewrite app_nil_r, occ_app, Hp. destruct ch; [|done]. by rewrite occ_app, Ha, Ho. }
  specialize (Hz (listener_new id) h1). destruct Hz as [Hz Hlog]; [split; [intros j; cbn; by rewrite lookup_empty|done]|done|].
  fold (lrun (listener_new id) h1). set (l := lrun (listener_new id) h1) in *. fold (lrun (lstep l (AddOneOff q a)) h2).
  assert (oinv a (complete_name (l_id l) q) (lrun (lstep l (AddOneOff q a)) h2)) as [_ H]; [|lia].
  apply oinv_run; [|done]. split.
  - intros j. destruct (Hz j) as (Ha & Hp & Ho). cbn. split; [done|split; [done|]]. intros Hj. rewrite occ_push, Ho, decide_False; [done|]. intros [E _]. by apply Hj.
  - cbn [lstep l_log l_once]. rewrite Hlog, occ_push. destruct (Hz (complete_name (l_id l) q)) as (_ & _ & ->). destruct (decide _); lia.
Qed.

(** removeActions(state) and removeActions() leave the entry actions and the one-off actions in place. *)
Theorem C94_remove_actions_refuted q :
  let h := [AddAction q 1; AddOneOff q 2; AddPeriodic q 3; RemoveActions q; RemoveAll] in
  l_log (lrun (listener_new "") (h ++ [Notified q true])) = [[2; 1]].
Proof. cbn. unfold complete_name. rewrite decide_True by done. unfold push. rewrite !lookup_insert. cbn. rewrite !lookup_empty. cbn. done. Qed.
(** They remove the periodic ones: compared with the same history without removeActions(q), a later notification of q (no periodic action being registered
    for it meanwhile) runs the same actions except the periodic ones, which it does not run; a notification of another state runs the same. *)
Lemma lrun_app l a b : lrun l (a ++ b) = lrun (lrun l a) b.
Proof. unfold lrun. by rewrite fold_left_app. Qed.
Lemma per_irrelevant k : forall l l', l_id l = l_id l' -> l_acts l = l_acts l' -> l_once l = l_once l' ->
  l_id (lrun l k) = l_id (lrun l' k) /\ l_acts (lrun l k) = l_acts (lrun l' k) /\ l_once (lrun l k) = l_once (lrun l' k).
Proof.
  induction k as [|x k IH]; intros l l' H1 H2 H3; [done|]. cbn [lrun fold_left]. apply IH; destruct x as [q a|q a|q a|q| |q [|]]; cbn; congruence.
Qed.
Lemma per_others k : forall l l' K, l_id l = l_id l' -> (forall j, j <> K -> default [] (l_per l !! j) = default [] (l_per l' !! j)) ->
  forall j, j <> K -> default [] (l_per (lrun l k) !! j) = default [] (l_per (lrun l' k) !! j).
Proof.
  induction k as [|x k IH]; intros l l' K H1 H2 j Hj; [by apply H2|]. cbn [lrun fold_left]. apply (IH _ _ K); [destruct x; cbn; done| |done].
  intros j' Hj'. destruct x as [q a|q a|q a|q| |q ch]; cbn; try done; try by apply H2.
  - unfold push. rewrite H1. destruct (decide (complete_name (l_id l') q = j')) as [->|Hne].
    + rewrite !lookup_insert. cbn. by rewrite H2.
    + rewrite !lookup_insert_ne by done. by apply H2.
  - rewrite H1. destruct (decide (complete_name (l_id l') q = j')) as [->|Hne].
    + by rewrite !lookup_insert.
    + rewrite !lookup_insert_ne by done. by apply H2.
Qed.
Lemma per_gone k : forall l K, (forall q a, AddPeriodic q a ∈ k -> complete_name (l_id l) q <> K) -> default [] (l_per l !! K) = [] -> default [] (l_per (lrun l k) !! K) = [].
Proof.
  induction k as [|x k IH]; intros l K Hk H0; [done|]. cbn [lrun fold_left].
  assert (Hid : l_id (lstep l x) = l_id l) by (by destruct x).
  apply IH; [intros q a Hin; rewrite Hid; apply (Hk q a); by apply elem_of_list_further|].
  destruct x as [q a|q a|q a|q| |q ch]; cbn; try done.
  - unfold push. rewrite lookup_insert_ne; [done|]. eapply Hk, elem_of_list_here.
  - destruct (decide (complete_name (l_id l) q = K)) as [->|Hne]; [by rewrite lookup_insert|by rewrite lookup_insert_ne].
Qed.
Theorem C94_remove_actions id h q k st ch : (forall q' a, AddPeriodic q' a ∈ k -> complete_name id q' <> complete_name id q) ->
  exists entry periodic, (ch = false -> entry = []) /\
    last (l_log (lrun (listener_new id) (h ++ k ++ [Notified st ch]))) = Some (entry ++ periodic) /\
    last (l_log (lrun (listener_new id) (h ++ RemoveActions q :: k ++ [Notified st ch]))) = Some (if decide (st = complete_name id q) then entry else entry ++ periodic).
Proof.
  intros Hk. assert (Hid : forall x, l_id (lrun (listener_new id) x) = id).
  { intros x. induction x as [|y x IH] using rev_ind; [done|]. rewrite lrun_app. cbn [lrun fold_left]. rewrite <- IH at 2. by destruct y. }
  set (l := lrun (listener_new id) h). pose proof (Hid h) as Hidl. fold l in Hidl.
  assert (R1 : lrun (listener_new id) (h ++ k ++ [Notified st ch]) = lstep (lrun l k) (Notified st ch)) by (unfold l, lrun; by rewrite !fold_left_app).
  assert (R2 : lrun (listener_new id) (h ++ RemoveActions q :: k ++ [Notified st ch]) = lstep (lrun (lstep l (RemoveActions q)) k) (Notified st ch)).
  { unfold l, lrun. rewrite fold_left_app. cbn [fold_left]. by rewrite fold_left_app. }
  rewrite R1, R2. clear R1 R2.
  destruct (per_irrelevant k l (lstep l (RemoveActions q))) as (_ & Ea & Eo); [done..|].
  exists (if ch then default [] (l_once (lrun l k) !! st) ++ default [] (l_acts (lrun l k) !! st) else []), (default [] (l_per (lrun l k) !! st)).
  split; [by intros ->|]. set (l1 := lrun (lstep l (RemoveActions q)) k) in *. cbn [lstep l_log]. rewrite !last_snoc. split; [done|].
  rewrite <- Ea, <- Eo. unfold l1. f_equal. destruct (decide (st = complete_name id q)) as [->|Hne].
  - rewrite (per_gone k (lstep l (RemoveActions q)) (complete_name id q)), app_nil_r; [done| |].
    + intros q' a Hin. cbn [lstep l_id]. rewrite Hidl. by eapply Hk.
    + cbn [lstep l_per]. by rewrite Hidl, lookup_insert.
  - f_equal. symmetry. apply (per_others k l (lstep l (RemoveActions q)) (complete_name id q)); [done| |done].
    intros j Hj. cbn [lstep l_per]. rewrite Hidl. by rewrite lookup_insert_ne.
Qed.
Example C94_remove_case :
  l_log (lrun (listener_new "m") [AddAction "a" 1; AddPeriodic "a" 3; RemoveActions "a"; AddPeriodic "b" 4; Notified "m:a" true; Notified "m:b" true; Notified "m:b" false]) = [[1]; [4]; [4]].
Proof. by vm_compute. Qed.
(** With a machine: entry actions run at every start(), also when the state has not changed since they last ran. *)
Theorem C94_restart_reruns_entry_actions_refuted :
  let notes := s_notes (steps 30 two quiet (sm_new two [Register 0; Start; Stop; Start])) in
  l_log (lrun (listener_new "m") (AddAction "a" 7 :: (as_lcall <$> notes))) = [[7]; [7]].
Proof. vm_compute. done. Qed.
(** A concrete history for C35_listener and C35_one_off_at_most_once. *)
Example C35_example :
  l_log (lrun (listener_new "m") [AddOneOff "a" 1; AddAction "a" 2; AddPeriodic "a" 3; Notified "m:a" true; Notified "m:a" false; Notified "m:b" true; Notified "m:a" true])
  = [[1; 2; 3]; [3]; []; [2; 3]].
Proof. vm_compute. done. Qed.
(** ** C60: all observers see the same sequence of states. *)
Definition view (o : nat) (ns : list note) : list (string * bool) :=
  (fun n => (n_state n, n_changed n)) <$> filter (fun n => n_obs n = o) ns.
Definition no_reg (x : call) : Prop := match x with Register _ | Unregister => False | _ => True end.
Lemma view_snoc o ns n : view o (ns ++ [n]) = view o ns ++ (if decide (n_obs n = o) then [(n_state n, n_changed n)] else []).
Proof.
  unfold view. rewrite filter_app, fmap_app. f_equal. destruct (decide (n_obs n = o)) as [H|H].
  - by rewrite filter_cons_True.
  - by rewrite filter_cons_False.
Qed.
Definition agree (c : config) (obs : list nat) (s : sm) : Prop :=
  s_obs s = obs /\ exists V, match s_stack s with
  | [] => forall o, o ∈ obs -> view o (s_notes s) = V
  | [FCalls cs] => Forall no_reg cs /\ forall o, o ∈ obs -> view o (s_notes s) = V
  | [FNotify os ch; FCalls cs] | [FCalls []; FNotify os ch; FCalls cs] =>
      Forall no_reg cs /\ (exists dn, obs = dn ++ os) /\
      forall o, o ∈ obs -> view o (s_notes s) = V ++ (if decide (o ∈ os) then [] else [(shown c (s_cur s), ch)])
  | _ => False
  end.
Lemma agree_step c obs s : NoDup obs -> agree c obs s -> agree c obs (step c quiet s).
Proof.
  intros Hnd [Hobs [V H]]. unfold step. destruct (s_ub s) eqn:Eub; [split; [done|by exists V]|].
  destruct (s_stack s) as [|[[|x cs]|[|o os] ch] st] eqn:Est.
  - split; [done|]. exists V. by rewrite Est.
  - destruct st as [|[|os ch] [|[cs|] [|]]]; try done.
    + split; [done|]. exists V. cbn. apply H.
    + split; [done|]. exists V. cbn. apply H.
  - destruct st as [|[|os ch] [|[cs'|] [|]]]; try done. destruct H as [HF HV]. apply Forall_cons in HF as [Hx HF].
    assert (forall s0 : sm, s_obs s0 = obs -> s_notes s0 = s_notes s -> s_stack s0 = [FCalls cs] -> agree c obs s0) as Hc.
    { intros s0 Ho En Es. split; [done|]. exists V. rewrite Es, En. by destruct cs. }
    assert (forall (s0 : sm) ch, s_obs s0 = obs -> s_notes s0 = s_notes s -> s_stack s0 = [FNotify obs ch; FCalls cs] -> agree c obs s0) as Hnot.
    { intros s0 ch Ho En Es. split; [done|]. exists V. rewrite Es, En. split; [done|]. split; [by exists []|]. intros o Hin. rewrite decide_True by done. rewrite app_nil_r. by apply HV. }
    assert (forall s0 : sm, s_obs s0 = obs -> s_notes s0 = s_notes s -> agree c obs (update c s0 [FCalls cs])) as Hu.
    { intros s0 Ho En. unfold update. destruct (s_started s0); [|by apply Hc]. destruct (table c !! s_cur s0); [|by apply Hc].
      destruct (consume _ _ _) as [[[d r] k] ch]. apply (Hnot _ ch); cbn; [done|done|by rewrite Ho]. }
    destruct x; cbn [exec]; try done.
    + apply (Hnot _ true); cbn; [done|done|by rewrite Hobs].
    + by apply Hc.
    + by apply Hc.
    + by apply Hu.
    + apply Hc; cbn; unfold enqueue; by destruct (s_started s).
    + apply Hu; unfold enqueue; by destruct (s_started s).
  - destruct st as [|[cs|] [|]]; try done. destruct H as (HF & _ & HV). split; [done|]. cbn. exists (V ++ [(shown c (s_cur s), ch)]).
    assert (forall o, o ∈ obs -> view o (s_notes s) = V ++ [(shown c (s_cur s), ch)]); [|by destruct cs].
    intros o Hin. rewrite (HV o Hin). rewrite decide_False; [done|]. apply not_elem_of_nil.
  - destruct st as [|[cs|] [|]]; try done. destruct H as (HF & [dn Hdn] & HV). split; [done|]. cbn [s_stack s_notes s_cur quiet]. exists V. split; [done|]. split; [exists (dn ++ [o]); by rewrite <- app_assoc|].
    rewrite Hdn in Hnd. apply NoDup_app in Hnd as (_ & Hdis & Hos). apply NoDup_cons in Hos as [Ho _].
    intros o' Hin. rewrite view_snoc. cbn [n_obs n_state n_changed]. rewrite (HV o' Hin). destruct (decide (o = o')) as [<-|Hne].
    + rewrite decide_True by left. rewrite decide_False by done. rewrite app_nil_r. done.
    + rewrite app_nil_r. destruct (decide (o' ∈ o :: os)) as [He|He], (decide (o' ∈ os)) as [He'|He']; try done.
      * apply elem_of_cons in He as [->|He]; done.
      * exfalso. apply He. by right.
Qed.
Lemma steps_agree c obs n s : NoDup obs -> agree c obs s -> agree c obs (steps n c quiet s).
Proof. intros Hnd. revert s. induction n; intros s H; simpl; [done|]. apply IHn. by apply agree_step. Qed.
(** If no observer calls the machine, then whenever no notification is under way, any two of the observers registered at the beginning have been given the same sequence of states. *)
Theorem C60_observers_agree c obs cs n :
  NoDup obs -> Forall no_reg cs ->
  let s := steps n c quiet (fresh c obs cs) in
  notifying (s_stack s) = false -> forall o1 o2, o1 ∈ obs -> o2 ∈ obs -> view o1 (s_notes s) = view o2 (s_notes s).
Proof.
  intros Hnd HF s Hn o1 o2 H1 H2. assert (agree c obs s) as [_ [V H]].
  { apply steps_agree; [done|]. split; [done|]. exists []. cbn. by destruct cs. }
  destruct (s_stack s) as [|[[|x cs']|os ch] st]; cbn in Hn; [..|done].
  - by rewrite (H o1 H1), (H o2 H2).
  - destruct st as [|[|os ch] [|[cs'|] [|]]]; try done. destruct H as [_ H]. by rewrite (H o1 H1), (H o2 H2).
  - destruct st as [|[|os ch] [|[cs''|] [|]]]; try done. destruct H as [_ H]. by rewrite (H o1 H1), (H o2 H2).
Qed.
(** If the first observer reacts to a state by sending the next event, the second one never hears of that state, and hears of the next one twice. *)
Definition three := Config "m" [CState "a" [CTrans "b" "go"]; CState "b" [CTrans "c" "go"]; CState "c" []].
Definition eager : list note -> list call :=
  fun ns => match last ns with Some (Note 1 "m:b" true) => [EnqueueAndUpdate "go"] | _ => [] end.
Theorem C60_reentrant_refuted :
  let s := steps 40 three eager (sm_new three [Register 1; Register 2; Start; EnqueueAndUpdate "go"]) in
  s_stack s = [] /\ s_ub s = false
  /\ view 1 (s_notes s) = [("m:a", true); ("m:b", true); ("m:c", true)]
  /\ view 2 (s_notes s) = [("m:a", true); ("m:c", true); ("m:c", true)].
Proof. vm_compute. done. Qed.
(** Registering an observer from inside an observer is undefined behaviour (the vector is being iterated over). *)
Theorem C60_register_inside_refuted :
  s_ub (steps 40 two (fun ns => match last ns with Some (Note 1 _ true) => [Register 5] | _ => [] end) (sm_new two [Register 1; Start])) = true.
Proof. vm_compute. done. Qed.

(** Exactly: registering an observer or removing the observers is undefined behaviour when a notification is in progress, and no other call ever is. *)
Theorem C60_only_inside c re s x cs st : s_ub s = false -> s_stack s = FCalls (x :: cs) :: st ->
  (s_ub (step c re s) = true <-> notifying st = true /\ (x = Unregister \/ exists o, x = Register o)).
Proof.
  intros Hub Hst. unfold step. rewrite Hub, Hst. destruct x; cbn [exec s_ub]; rewrite ?Hub; cbn [orb].
  all: split; [intros E|intros [E [Hx|[o' Hx]]]; try done].
  all: try (split; [exact E|by eauto]).
  all: exfalso; revert E; unfold update, enqueue; repeat match goal with |- context[match ?y with _ => _ end] => destruct y end; cbn; rewrite ?Hub; try done.
Qed.
Example C60_unregister_inside_case : let re ns := match last ns with Some (Note 1 _ true) => [Unregister] | _ => [] end in
  s_ub (steps 40 two re (sm_new two [Register 1; Start])) = true /\ s_ub (steps 40 two quiet (sm_new two [Register 1; Start; Unregister])) = false.
Proof. vm_compute. done. Qed.
Print Assumptions C60_only_inside.
(** ** C61: a listener made for one machine reacts to that machine only. *)
Fixpoint no_colon (s : string) : Prop := match s with EmptyString => True | String a s' => a <> ":"%char /\ no_colon s' end.
Lemma colon_split s1 s2 r1 r2 : no_colon s1 -> no_colon s2 -> s1 +:+ ":" +:+ r1 = s2 +:+ ":" +:+ r2 -> s1 = s2 /\ r1 = r2.
Proof.
  revert s2. induction s1 as [|a s1 IH]; intros [|b s2] H1 H2 H; simpl in *.
  - injection H as ->. done.
  - injection H as H _. destruct H2 as [H2 _]. congruence.
  - injection H as H _. destruct H1 as [H1 _]. congruence.
  - injection H as -> H. destruct H1 as [_ H1], H2 as [_ H2]. destruct (IH s2 H1 H2 H) as [-> ->]. done.
Qed.
Theorem C61_listener_own_machine id q c q' :
  id <> "" -> no_colon id -> no_colon (cf_id c) -> complete_name id q = shown c q' -> id = cf_id c /\ q = q'.
Proof. intros Hne H1 H2. unfold complete_name, shown. rewrite decide_False by done. by apply colon_split. Qed.
(** Whatever the machine, the listener runs nothing registered for a state when notified of another name. *)
Theorem C61_other_names_run_nothing id h k ch :
  (forall x q a, x ∈ h -> sel_action x = Some (q, a) \/ sel_oneoff x = Some (q, a) \/ sel_periodic x = Some (q, a) -> complete_name id q <> k) ->
  must_run id h k ch = [].
Proof.
  intros H. assert (forall sel, (forall x q a, x ∈ h -> sel x = Some (q, a) -> complete_name id q <> k) -> forall h', (forall x, x ∈ h' -> x ∈ h) -> registered sel id k h' = []) as Hz.
  { intros sel Hs h'. induction h' as [|x h' IH] using rev_ind; intros Hsub; [done|]. rewrite registered_snoc, IH; [|intros y Hy; apply Hsub, elem_of_app; by left].
    destruct (sel x) as [[q a]|] eqn:E; [|done]. rewrite decide_False; [done|]. apply (Hs x q a); [|done]. apply Hsub, elem_of_app. right. left. }
  assert (forall p h' x, x ∈ after_last p h' -> x ∈ h') as Hsub.
  { intros p h'. induction h' as [|y h' IH]; intros x; cbn; [done|]. destruct (existsb p h'); [intros Hx; right; by apply IH|]. destruct (p y); [by right|done]. }
  unfold must_run. rewrite (Hz sel_periodic), (Hz sel_action), (Hz sel_oneoff); try by destruct ch.
  - intros x q a Hx E. apply (H x q a Hx). by right; left.
  - intros x. apply Hsub.
  - intros x q a Hx E. apply (H x q a Hx). by left.
  - intros x q a Hx E. apply (H x q a Hx). by right; right.
  - intros x. apply Hsub.
Qed.
(** With a colon in an identifier, two machines cannot be told apart. *)
Theorem C61_colon_refuted :
  shown (Config "a:b" []) "c" = complete_name "a" "b:c" /\
  l_log (lrun (listener_new "a") [AddAction "b:c" 9; as_lcall (Note 0 (shown (Config "a:b" []) "c") true)]) = [[9]].
Proof. vm_compute. done. Qed.
