(** * C50: system events drive managed services. *)
From stdpp Require Import prelude.
From Coq Require Import Lia.
From Verif Require Import Base ManagedService_Model.

(** ** Specification. *)
(** Number of services created by acts; the calls a service receives; what the events ask for. *)
Definition created (acts : list mact) : nat := length (List.filter (fun a => match a with MNew _ => true | _ => false end) acts).
Definition svc_calls (i : nat) (h : list mcall) : list mcall := List.filter (fun c => match c with MStartup j | MShutdown j | MDeadCall j => bool_decide (j = i) end) h.
Definition asked (i : nat) (acts : list mact) : list mcall := omap (fun a => match a with MEvent 0 => Some (MStartup i) | MEvent 1 => Some (MShutdown i) | _ => None end) acts.

(** ** Proofs. *)
Lemma svc_calls_app i a b : svc_calls i (a ++ b) = svc_calls i a ++ svc_calls i b.
Proof. apply List.filter_app. Qed.
Lemma asked_snoc i acts a : asked i (acts ++ [a]) = asked i acts ++ asked i [a].
Proof. apply omap_app. Qed.
Lemma created_snoc acts a : created (acts ++ [a]) = created acts + match a with MNew _ => 1 | _ => 0 end.
Proof. unfold created. rewrite List.filter_app, app_length. by destruct a. Qed.
Lemma ms_count_spec acts : ms_count (ms_run acts) = created acts.
Proof.
  unfold ms_run. induction acts as [|a acts IH] using rev_ind; [done|]. rewrite fold_left_app, created_snoc. cbn [fold_left]. destruct a; cbn [ms_step]; [cbn; lia| |cbn; lia]. case_decide; cbn; lia.
Qed.
Lemma ms_listen_lt acts i : i ∈ ms_listeners (ms_run acts) -> i < created acts.
Proof.
  unfold ms_run. induction acts as [|a acts IH] using rev_ind; [intros H; by apply elem_of_nil in H|]. rewrite fold_left_app, created_snoc. cbn [fold_left]. destruct a as [b|j|e]; cbn [ms_step].
  - destruct b; cbn; [|intros H; specialize (IH H); lia]. intros [H|H%elem_of_list_singleton]%elem_of_app; [specialize (IH H); lia|]. subst. change (fold_left ms_step acts (Mst 0 [] [] [])) with (ms_run acts). rewrite ms_count_spec. lia.
  - case_decide; cbn; intros H'; specialize (IH H'); lia.
  - cbn. intros H; specialize (IH H); lia.
Qed.
Lemma ms_listen_nodup acts : NoDup (ms_listeners (ms_run acts)).
Proof.
  induction acts as [|a acts IH] using rev_ind; [constructor|]. pose proof (ms_listen_lt acts) as Hlt. pose proof (ms_count_spec acts) as Hc. unfold ms_run in *. rewrite fold_left_app. cbn [fold_left]. destruct a as [b|j|e]; cbn [ms_step].
  - destruct b; cbn; [|done]. apply NoDup_app. split; [done|]. split; [|apply NoDup_singleton]. intros x Hx%Hlt H%elem_of_list_singleton. subst. lia.
  - by case_decide.
  - done.
Qed.
Lemma deliver_calls i e dead L : NoDup L -> i ∉ dead -> svc_calls i (L ≫= ms_deliver dead e) = if decide (i ∈ L) then on_system_message i e else [].
Proof.
  intros Hnd Hd. induction L as [|x L IH]; [done|]. apply NoDup_cons in Hnd as [N1 N2]. cbn [mbind list_bind]. rewrite svc_calls_app.
  destruct (decide (x = i)) as [->|Hne].
  - rewrite (IH N2), decide_False, app_nil_r by done. rewrite decide_True by left. unfold ms_deliver, on_system_message. rewrite decide_False by done.
    repeat case_decide; unfold svc_calls; cbn [List.filter]; rewrite ?bool_decide_true by done; done.
  - assert (E : svc_calls i (ms_deliver dead e x) = []).
    { unfold ms_deliver, on_system_message. repeat case_decide; unfold svc_calls; cbn [List.filter]; rewrite ?bool_decide_false by done; done. }
    rewrite E, (IH N2). cbn [app]. destruct (decide (i ∈ L)) as [Hi|Hi]; [rewrite decide_True by (by right); done|]. rewrite decide_False; [done|]. intros [->|H]%elem_of_cons; done.
Qed.
Lemma on_message_asked i e : on_system_message i e = asked i [MEvent e].
Proof. destruct e as [|[|e]]; done. Qed.
Lemma dead_asked acts i : i ∈ ms_dead (ms_run acts) -> MDestroy i ∈ acts.
Proof.
  unfold ms_run. induction acts as [|a acts IH] using rev_ind; [intros H; by apply elem_of_nil in H|]. rewrite fold_left_app, elem_of_app. cbn [fold_left]. destruct a as [b|j|e]; cbn [ms_step]; [auto| |auto].
  case_decide; cbn; [|auto]. intros [->|H']%elem_of_cons; [right; left|auto].
Qed.
(** * C50 *)
(** A service with a subscriber, as long as it is not destroyed, is started for every Start and shut down for every Stop event after its construction, in order,
    and nothing else happens to it, whatever other services there are; a service without a subscriber is left alone. *)
Theorem C50_events_drive_the_service before b after : MDestroy (created before) ∉ after ->
  svc_calls (created before) (ms_log (ms_run (before ++ MNew b :: after))) = if b then asked (created before) after else [].
Proof.
  set (i := created before). intros Hd.
  assert (Hd0 : forall acts, i ∈ ms_dead (ms_run (before ++ MNew b :: acts)) -> MDestroy i ∈ acts).
  { induction acts as [|a acts IH] using rev_ind.
    - unfold ms_run. rewrite fold_left_app. cbn [fold_left ms_step ms_dead]. fold (ms_run before). intros H. exfalso.
      assert (Hlt : forall acts j, j ∈ ms_dead (ms_run acts) -> j < created acts).
      { clear. induction acts as [|a acts IH] using rev_ind; [intros j H; by apply elem_of_nil in H|]. intros j. pose proof (ms_count_spec acts) as Hc. unfold ms_run in *. rewrite fold_left_app, created_snoc. cbn [fold_left]. destruct a as [b|k|e]; cbn [ms_step].
        - cbn. intros H; apply IH in H; lia.
        - case_decide; cbn; [|intros H'; apply IH in H'; lia]. intros [->|H']%elem_of_cons; [lia|apply IH in H'; lia].
        - cbn. intros H; apply IH in H; lia. }
      apply Hlt in H. unfold i in H. lia.
    - replace (before ++ MNew b :: acts ++ [a]) with ((before ++ MNew b :: acts) ++ [a]) by (by rewrite <-app_assoc). unfold ms_run in *. rewrite fold_left_app. cbn [fold_left]. rewrite elem_of_app.
      destruct a as [b'|k|e]; cbn [ms_step]; [cbn; auto| |cbn; auto]. case_decide; cbn; [|auto]. intros [->|H']%elem_of_cons; [right; left|auto]. }
  assert (Hl : forall acts, i ∈ ms_listeners (ms_run (before ++ MNew b :: acts)) <-> b = true).
  { induction acts as [|a acts IH] using rev_ind.
    - pose proof (ms_listen_lt before i) as Hlt. unfold ms_run in *. rewrite fold_left_app. cbn [fold_left ms_step ms_listeners]. fold (ms_run before). rewrite ms_count_spec. fold i. destruct b.
      + split; [done|]. intros _. apply elem_of_app. right. left.
      + split; [|done]. intros H. specialize (Hlt H). unfold i in Hlt. lia.
    - assert (Hc : i < ms_count (ms_run (before ++ MNew b :: acts))).
      { rewrite ms_count_spec. unfold created. rewrite List.filter_app, app_length. cbn [List.filter length]. unfold i, created. lia. }
      replace (before ++ MNew b :: acts ++ [a]) with ((before ++ MNew b :: acts) ++ [a]) by (by rewrite <-app_assoc). unfold ms_run in *. rewrite fold_left_app. cbn [fold_left].
      destruct a as [b'|k|e]; cbn [ms_step]; [|by case_decide|done]. destruct b'; cbn; [|done]. rewrite elem_of_app, elem_of_list_singleton. rewrite IH. split; [|auto]. intros [H|H]; [done|]. lia. }
  induction after as [|a after IH] using rev_ind.
  - assert (H : svc_calls i (ms_log (ms_run before)) = []).
    { unfold i. clear. assert (Hx : forall acts j, created acts <= j -> svc_calls j (ms_log (ms_run acts)) = []); [|by apply Hx].
      induction acts as [|a acts IH] using rev_ind; [done|]. intros j. rewrite created_snoc. intros Hj. pose proof (ms_listen_lt acts) as Hlt. unfold ms_run in *. rewrite fold_left_app. cbn [fold_left]. destruct a as [b|k|e]; cbn [ms_step].
      - apply IH. lia.
      - case_decide; apply IH; lia.
      - cbn [ms_log]. rewrite svc_calls_app, IH by lia. cbn [app]. set (L := ms_listeners _) in *. assert (HL : j ∉ L) by (intros H%Hlt; lia). clear -HL. induction L as [|x L IH]; [done|]. cbn [mbind list_bind]. rewrite svc_calls_app.
        apply not_elem_of_cons in HL as [H1 H2]. rewrite IH by done. rewrite app_nil_r. unfold ms_deliver, on_system_message. repeat case_decide; unfold svc_calls; cbn [List.filter]; rewrite ?bool_decide_false by done; done. }
    unfold ms_run in *. rewrite fold_left_app. cbn [fold_left ms_step ms_log]. rewrite H. by destruct b.
  - assert (Hd' : MDestroy i ∉ after) by (intros H; apply Hd, elem_of_app; by left). specialize (IH Hd'). specialize (Hd0 after). specialize (Hl after).
    pose proof (ms_listen_nodup (before ++ MNew b :: after)) as Hnd.
    replace (before ++ MNew b :: after ++ [a]) with ((before ++ MNew b :: after) ++ [a]) by (by rewrite <-app_assoc). rewrite asked_snoc. unfold ms_run in *. rewrite fold_left_app. cbn [fold_left]. set (s := fold_left _ (before ++ _) _) in *.
    destruct a as [b'|k|e]; cbn [ms_step].
    + cbn. rewrite app_nil_r. done.
    + rewrite app_nil_r. case_decide; cbn; done.
    + cbn [ms_log]. rewrite svc_calls_app, IH, deliver_calls by (try done; intros H%Hd0; done). rewrite on_message_asked. destruct b.
      * rewrite decide_True by (by apply Hl). done.
      * rewrite decide_False by (intros H%Hl; done). done.
Qed.
(** After its destruction the service is still called: its listener stays registered. *)
Theorem C50_destroyed_service_called_refuted : exists acts i, MDestroy i ∈ acts /\ MDeadCall i ∈ ms_log (ms_run acts).
Proof. exists [MNew true; MDestroy 0; MEvent 0], 0. split; [right; left|left]. Qed.
Example C50_case : svc_calls 1 (ms_log (ms_run ([MNew true; MEvent 0] ++ MNew true :: [MEvent 0; MEvent 2; MDestroy 0; MEvent 1; MEvent 0]))) = [MStartup 1; MShutdown 1; MStartup 1].
Proof. reflexivity. Qed.
Print Assumptions C50_events_drive_the_service.
Print Assumptions C50_destroyed_service_called_refuted.
