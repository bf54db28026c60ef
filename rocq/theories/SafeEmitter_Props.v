(** * Properties of SafeEventEmitter: C06, C07, C08, C52.
    [run (em_new n) acts] is any execution with [n] threads: any calls, from
    idle threads or from inside callbacks, in any interleaving; [history] is what happened. *)
From stdpp Require Import prelude strings list_numbers.
From Verif Require Import Base SafeEmitter_Model SafeEmitter_Spec SafeEmitter_Proofs SafeEmitter_Once.
Local Open Scope Z_scope.
Local Open Scope string_scope.
Local Open Scope list_scope.

Definition history (n : nat) (acts : list act) : list logev := rev (e_log (run (em_new n) acts)).
Definition few_listeners (h : list logev) : Prop := Z.of_nat (length (created h)) < 2 ^ 32.

(** C06: an emit invokes, in registration order and once each, a prefix of the
    listeners registered for that event when it started; all of them if it returns
    normally; with the emitted event; and with the callback given at registration. *)
Theorem C06_emit_exact : forall n acts h1 k sub ev h2,
  few_listeners (history n acts) -> history n acts = h1 ++ LEmit k sub ev :: h2 ->
  invoked_by k h1 = [] /\
  (invoked_by k h2) `prefix_of` (registered_for sub h1) /\
  (LEnd k ∈ h2 -> invoked_by k h2 = registered_for sub h1) /\
  (forall id cb e, LInvoke k id cb e ∈ h2 -> e = ev).
Proof.
  intros n acts h1 k sub ev h2 Hf E. destruct (run_G _ acts (init_G n) Hf) as [I _]. by apply emit_lemma with (s := run (em_new n) acts).
Qed.
Print Assumptions C06_emit_exact.
Theorem C06_right_callback : forall n acts k id cb ev,
  few_listeners (history n acts) -> LInvoke k id cb ev ∈ history n acts ->
  exists sub once, LOn id sub once cb ∈ history n acts.
Proof.
  intros n acts k id cb ev Hf Hin. unfold history in *.
  rewrite elem_of_list_In, <- in_rev, <- elem_of_list_In in Hin.
  destruct (run_cb_ok _ acts (init_G n) Hf (fun k id cb ev H => match proj1 (elem_of_nil _) H with end) _ _ _ _ Hin) as (sub & o & H).
  exists sub, o. by rewrite elem_of_list_In, <- in_rev, <- elem_of_list_In.
Qed.
Print Assumptions C06_right_callback.
(** Two listeners for "a", one for "b"; a re-entrant emit inside the first callback. *)
Example C06_case : let h := history 2 [ACall 0 (COn "a" 7); ACall 0 (COn "b" 8); ACall 1 (COn "a" 9);
    ACall 0 (CEmit "a" 5); AStep 0; ACall 0 (CEmit "b" 6); AStep 0; AReturn 0; AStep 0; AReturn 0; AStep 0; AReturn 0; AStep 0] in
  few_listeners h /\ h = [LOn 1 "a" false 7; LOn 2 "b" false 8; LOn 3 "a" false 9; LEmit 0 "a" 5; LInvoke 0 1 7 5;
    LEmit 1 "b" 6; LInvoke 1 2 8 6; LEnd 1; LInvoke 0 3 9 5; LEnd 0].
Proof. vm_compute. auto. Qed.

(** C07: ids are never reused, and a removal succeeds exactly when the id is registered. *)
Theorem C07_ids_unique : forall n acts, few_listeners (history n acts) -> NoDup (created (history n acts)).
Proof.
  intros n acts Hf. unfold history. rewrite created_rev. apply G_created, run_G; [apply init_G|done].
Qed.
Print Assumptions C07_ids_unique.
Theorem C07_removal : forall n acts h1 id h2, few_listeners (history n acts) ->
  (history n acts = h1 ++ LRemoved id :: h2 -> id ∈ (fun x => x.1.1) <$> registered h1) /\
  (history n acts = h1 ++ LInvalid id :: h2 -> id ∉ (fun x => x.1.1) <$> registered h1).
Proof.
  intros n acts h1 id h2 Hf.
  assert (H : rem_ok (history n acts)).
  { apply run_rem_ok; [apply init_G|done|]. intros g1 e g2 E. by destruct g1. }
  split; intros E; by specialize (H _ _ _ E).
Qed.
Print Assumptions C07_removal.
(** Removing takes away that listener and nothing else: what is left in the
    emitter is what the log says is registered. *)
Theorem C07_state_is_log : forall n acts, few_listeners (history n acts) ->
  (fun l => (l_id l, l_sub l, l_once l)) <$> e_ls (run (em_new n) acts) = registered (history n acts).
Proof. intros n acts Hf. destruct (run_G _ acts (init_G n) Hf) as [I _]. symmetry. apply (i_reg _ I). Qed.
Print Assumptions C07_state_is_log.
Example C07_case : history 1 [ACall 0 (COn "a" 7); ACall 0 (COn "b" 8); ACall 0 (CRemove 1); ACall 0 (CRemove 1); ACall 0 (COn "a" 9)] =
  [LOn 1 "a" false 7; LOn 2 "b" false 8; LRemoved 1; LInvalid 1; LOn 3 "a" false 9].
Proof. reflexivity. Qed.
(** The bound is needed: the unsigned counter wraps. *)
Lemma wrap_run m : let s := run (em_new 1) (replicate m (ACall 0 (COn "a" 0))) in
  e_thr s = [[]] /\ e_last s = u32 (Z.of_nat m) /\ created (e_log s) = (fun i => u32 (Z.of_nat i)) <$> rev (seq 1 m).
Proof.
  induction m as [|m IH]; [done|]. rewrite replicate_S_end. unfold run in *. rewrite fold_left_app. cbv zeta in *.
  destruct IH as (H1 & H2 & H3).
  set (s := fold_left exec (replicate m (ACall 0 (COn "a" 0))) (em_new 1)) in *.
  cbn [fold_left exec]. rewrite H1. cbn [lookup list_lookup do_call add_listener log e_thr e_last e_log created].
  assert (E : u32 (e_last s + 1) = u32 (Z.of_nat (S m))).
  { rewrite H2. unfold u32. rewrite Zplus_mod_idemp_l. f_equal. lia. }
  rewrite E. split_and!; auto. rewrite H3, seq_S, rev_app_distr. done.
Qed.
Lemma wrap_dup m : Z.of_nat m = 4294967297 ->
  ~ NoDup (created (history 1 (replicate m (ACall 0 (COn "a" 0))))).
Proof.
  intros Hm H. unfold history in H. rewrite created_rev in H.
  destruct (wrap_run m) as (_ & _ & E). rewrite E in H. clear E.
  rewrite <- (Permutation_rev (seq 1 m)) in H.
  pose proof (NoDup_lookup _ 0 (m - 1) (u32 1) H) as Hi.
  assert (0%nat = (m - 1)%nat); [|lia]. apply Hi.
  - rewrite list_lookup_fmap, lookup_seq_lt by lia. done.
  - rewrite list_lookup_fmap, lookup_seq_lt by lia. cbn [fmap option_fmap option_map]. f_equal.
    replace (Z.of_nat (1 + (m - 1))) with 4294967297 by lia. done.
Qed.
Theorem C07_id_wrap_refuted : ~ (forall n acts, NoDup (created (history n acts))).
Proof.
  intros H. assert (Hm : exists m, Z.of_nat m = 4294967297).
  { exists (Z.to_nat 4294967297). apply Z2Nat.id. discriminate. }
  destruct Hm as [m Hm]. exact (wrap_dup m Hm (H _ _)).
Qed.
Print Assumptions C07_id_wrap_refuted.

(** C08: a once listener is invoked at most once. *)
Definition C08_statement : Prop := forall n acts id, few_listeners (history n acts) ->
  is_once id (history n acts) -> (invocations id (history n acts) <= 1)%nat.
(** False: its own callback emits the event again (same thread), before the removal. *)
Definition once_reentrant : list act :=
  [ACall 0 (COnce "a" 1); ACall 0 (CEmit "a" 5); AStep 0; ACall 0 (CEmit "a" 6); AStep 0].
Theorem C08_once_refuted : ~ C08_statement.
Proof.
  intros H. assert (Hb : (invocations 1 (history 1 once_reentrant) <= 1)%nat).
  { apply H; [done|]. exists "a", 1%nat. vm_compute. constructor. }
  vm_compute in Hb. lia.
Qed.
Print Assumptions C08_once_refuted.
(** Also false with two threads and no re-entrancy; and with a callback that throws. *)
Theorem C08_once_two_threads_refuted : invocations 1 (history 2 [ACall 0 (COnce "a" 1); ACall 0 (CEmit "a" 5);
    ACall 1 (CEmit "a" 6); AStep 0; AStep 1]) = 2%nat /\
  invocations 1 (history 1 [ACall 0 (COnce "a" 1); ACall 0 (CEmit "a" 5); AStep 0; AThrow 0; ACall 0 (CEmit "a" 6); AStep 0]) = 2%nat.
Proof. split; reflexivity. Qed.
(** It holds when emits of one event do not overlap and nothing throws. *)
Theorem C08_once : forall n acts id, few_listeners (history n acts) -> calm (em_new n) acts ->
  is_once id (history n acts) -> (invocations id (history n acts) <= 1)%nat.
Proof. intros n acts id. apply once_lemma. Qed.
Print Assumptions C08_once.
Definition calm_case : list act := [ACall 0 (COnce "a" 1); ACall 0 (COn "b" 2); ACall 0 (CEmit "a" 5); AStep 0;
    ACall 0 (CEmit "b" 6); AStep 0; AReturn 0; AStep 0; AReturn 0; AStep 0; ACall 1 (CEmit "a" 7); AStep 1].
Lemma not_active_spec sub s : (forall st, st ∈ e_thr s -> Forall (fun f => match f with FEmit _ s' _ _ => s' <> sub | _ => True end) st) ->
  ~ active sub s.
Proof.
  intros H (t & st & k & ev & hs & Ht & Hin). apply elem_of_list_lookup_2 in Ht. specialize (H st Ht).
  rewrite Forall_forall in H. by apply (H _ Hin).
Qed.
Example C08_case : calm (em_new 2) calm_case /\ is_once 1 (history 2 calm_case) /\ invocations 1 (history 2 calm_case) = 1%nat.
Proof.
  split; [|split; [exists "a", 1%nat; vm_compute; constructor|reflexivity]].
  unfold calm_case. repeat (split; [first [exact Logic.I|apply not_active_spec; intros st Hst;
     vm_compute in Hst; repeat (apply elem_of_cons in Hst as [->|Hst]; [repeat (constructor; try done)|]);
     by apply elem_of_nil in Hst]|split; [intros k Hk; vm_compute in Hk; repeat (apply elem_of_cons in Hk as [Hk|Hk]; [done|]); by apply elem_of_nil in Hk|]]).
  exact Logic.I.
Qed.

(** C52: after its removal a listener is not invoked any more. *)
Definition C52_statement : Prop := forall n acts h1 id h2, few_listeners (history n acts) ->
  history n acts = h1 ++ LRemoved id :: h2 -> invocations id h2 = 0%nat.
(** False: listener 1's callback removes listener 2, which is still invoked. *)
Theorem C52_removed_not_invoked_refuted : ~ C52_statement.
Proof.
  intros H. specialize (H 1%nat [ACall 0 (COn "a" 1); ACall 0 (COn "a" 2); ACall 0 (CEmit "a" 5); AStep 0; ACall 0 (CRemove 2); AReturn 0; AStep 0]
    [LOn 1 "a" false 1; LOn 2 "a" false 2; LEmit 0 "a" 5; LInvoke 0 1 1 5] 2 [LInvoke 0 2 2 5] eq_refl eq_refl).
  vm_compute in H. discriminate.
Qed.
Print Assumptions C52_removed_not_invoked_refuted.
(** It holds from any moment at which the listener is unregistered and no emit of its event is in progress. *)
Theorem C52_removed_not_invoked : forall n acts acts' id sub once cb,
  few_listeners (history n (acts ++ acts')) ->
  LOn id sub once cb ∈ history n acts -> id ∉ (fun x => x.1.1) <$> registered (history n acts) ->
  ~ active sub (run (em_new n) acts) ->
  exists h2, history n (acts ++ acts') = history n acts ++ h2 /\ invocations id h2 = 0%nat.
Proof.
  intros n acts acts' id sub once cb Hf Hin Hni Ha. unfold history, few_listeners in *.
  assert (Er : run (em_new n) (acts ++ acts') = run (run (em_new n) acts) acts') by apply fold_left_app.
  rewrite Er in *. set (s := run (em_new n) acts) in *.
  destruct (run_log s acts') as [l El]. 
  assert (Hfs : few s).
  { unfold few. rewrite El, rev_app_distr, created_app, app_length in Hf. lia. }
  pose proof (run_G _ acts (init_G n) Hfs) as HG. fold s in HG. pose proof HG as [I HK].
  rewrite elem_of_list_In, <- in_rev, <- elem_of_list_In in Hin.
  assert (HR : R id s).
  { constructor.
    - apply (known_created s (Listener sub id once cb 0)). exact Hin.
    - by rewrite registered_ls in Hni.
    - intros Hs. apply snaps_elem in Hs as (t & st & k & sub' & ev & hs & h & H1 & H2 & H3 & <-). apply Ha.
      pose proof (k_fr s HK _ _ _ H1 H2) as [Hfr _]. rewrite Forall_forall in Hfr. destruct (Hfr h H3) as [Hk Hs]. unfold known in Hk.
      destruct (created_unique _ _ _ _ _ _ _ _ (G_created _ HG) Hin Hk) as [E _].
      exists t, st, k, ev, hs. split; [done|]. rewrite E, Hs. done. }

  pose proof (run_R id s acts' HG HR Hf) as Hi. exists (rev l). rewrite El, rev_app_distr. split; [done|].
  rewrite El, invocations_app in Hi. rewrite invocations_rev. lia.
Qed.
Print Assumptions C52_removed_not_invoked.
Example C52_case : let acts := [ACall 0 (COn "a" 1); ACall 0 (COn "a" 2); ACall 0 (CRemove 1)] in
  LOn 1 "a" false 1 ∈ history 1 acts /\ (fun x => x.1.1) <$> registered (history 1 acts) = [2] /\
  e_thr (run (em_new 1) acts) = [[]] /\
  history 1 (acts ++ [ACall 0 (CEmit "a" 5); AStep 0; AReturn 0; AStep 0]) = history 1 acts ++ [LEmit 0 "a" 5; LInvoke 0 2 2 5; LEnd 0].
Proof. split_and!; try reflexivity. vm_compute. constructor. Qed.
