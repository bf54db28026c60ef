(** * C41, C42: the container. *)
From stdpp Require Import prelude strings.
From Coq Require Import Lia.
From Verif Require Import Base Container_Model.

(** ** Specification. *)
(** What a history of attach and detach leaves attached, oldest first: detach(x) removes x itself. *)
Fixpoint remove_one (o : cobj) (l : list cobj) : list cobj := match l with [] => [] | x :: l => if decide (x = o) then l else x :: remove_one o l end.
Definition att_step (l : list cobj) (a : cact) : list cobj := match a with CAttach o => l ++ [o] | CDetach o => remove_one o l | _ => l end.
Definition attached (acts : list cact) : list cobj := fold_left att_step acts [].
Definition of_kinds (ks : list ckind) (l : list cobj) : list cobj := filter (fun o => o.1 ∈ ks) l.
(** Two objects whose names may be confused: they are kept in one place. *)
Definition same_place (k k' : ckind) : Prop := match k, k' with KService, KServiceStats | KServiceStats, KService => True | _, _ => k = k' end.
Definition distinct_names (name : cobj -> string) (acts : list cact) : Prop :=
  forall o o', CAttach o ∈ acts -> CDetach o' ∈ acts -> same_place o.1 o'.1 -> name o = name o' -> o = o'.
(** Whether the container is started. *)
Definition started (acts : list cact) : bool := fold_left (fun b a => match a with CStart => true | CStop => false | _ => b end) acts false.

(** ** Proofs. *)
Lemma filter_remove_one P `{forall x, Decision (P x)} o l : filter P (remove_one o l) = if decide (P o) then remove_one o (filter P l) else filter P l.
Proof.
  induction l as [|x l IH]; [by destruct (decide (P o))|]. cbn [remove_one]. destruct (decide (x = o)) as [->|Hne].
  - destruct (decide (P o)) as [HP|HP]; [rewrite filter_cons_True by done; cbn [remove_one]; by rewrite decide_True|by rewrite filter_cons_False].
  - destruct (decide (P x)) as [HP|HP]; [rewrite !filter_cons_True by done|rewrite !filter_cons_False by done; done].
    rewrite IH. destruct (decide (P o)); [cbn [remove_one]; by rewrite (decide_False (P := x = o))|done].
Qed.
Lemma erase_remove name o l : (forall x, x ∈ l -> name x = name o -> x = o) -> erase_first (same_name name o) l = remove_one o l.
Proof.
  induction l as [|x l IH]; intros H; [done|]. cbn [erase_first remove_one]. unfold same_name at 1. destruct (bool_decide_reflect (name x = name o)) as [E|E].
  - rewrite decide_True; [done|]. apply H; [left|done].
  - rewrite decide_False; [|by intros ->]. f_equal. apply IH. intros y Hy. apply H. by right.
Qed.
Lemma remove_one_in o l x : x ∈ remove_one o l -> x ∈ l.
Proof. induction l as [|y l IH]; [done|]. cbn. destruct (decide (y = o)); [intros; by right|]. intros [->|H]%elem_of_cons; [left|right; auto]. Qed.
Lemma attached_in acts o : o ∈ attached acts -> CAttach o ∈ acts.
Proof.
  unfold attached. induction acts as [|a acts IH] using rev_ind; [intros H; by apply elem_of_nil in H|]. rewrite fold_left_app, elem_of_app. cbn. destruct a as [| |o'|o']; cbn; auto.
  - intros [H|H%elem_of_list_singleton]%elem_of_app; [auto|right; subst; left].
  - intros H%remove_one_in. auto.
Qed.
Lemma of_kinds_app ks a b : of_kinds ks (a ++ b) = of_kinds ks a ++ of_kinds ks b.
Proof. apply filter_app. Qed.
Lemma of_kinds_one ks o : of_kinds ks [o] = if decide (o.1 ∈ ks) then [o] else [].
Proof. unfold of_kinds. rewrite filter_cons. by destruct (decide (o.1 ∈ ks)). Qed.

(** * C41 *)
(** If no two objects that are kept together have one name, and no publication statistics is detached, then after every history each vector holds exactly
    what was attached and not detached, in order. *)
Theorem C41_detach_exact name acts : distinct_names name acts -> (forall i, CDetach (KPublication, i) ∉ acts) -> (forall i, CDetach (KServiceStats, i) ∉ acts) ->
  let s := c_run name acts in let l := attached acts in
  c_services s = of_kinds [KService] l /\ c_svc_stats s = of_kinds [KService; KServiceStats] l /\ c_fun_stats s = of_kinds [KFunction] l /\
  c_pub_stats s = of_kinds [KPublication] l /\ c_sub_stats s = of_kinds [KSubscription] l.
Proof.
  unfold c_run. induction acts as [|a acts IH] using rev_ind; [done|]. intros Hd Hp Hs.
  assert (Hd' : distinct_names name acts) by (intros o o' H1 H2; apply Hd; rewrite elem_of_app; by left).
  specialize (IH Hd' ltac:(intros i H; apply (Hp i), elem_of_app; by left) ltac:(intros i H; apply (Hs i), elem_of_app; by left)).
  assert (Hat : attached (acts ++ [a]) = att_step (attached acts) a) by (unfold attached; by rewrite fold_left_app). cbn zeta in *.
  rewrite Hat, fold_left_app. cbn [fold_left]. set (s := fold_left _ acts c_new) in *. destruct IH as (I1 & I2 & I3 & I4 & I5).
  destruct a as [| |o|o]; cbn [c_step att_step c_services c_svc_stats c_fun_stats c_pub_stats c_sub_stats]; [done|done|..].
  - rewrite !of_kinds_app, !of_kinds_one. destruct o as [k i]; destruct k; cbn [fst c_services c_svc_stats c_fun_stats c_pub_stats c_sub_stats];
      rewrite I1, I2, I3, I4, I5; (split_and!; case_decide as Hx; rewrite ?app_nil_r; try done; exfalso; revert Hx; clear; set_solver).
  - assert (He : forall ks, o.1 ∈ ks -> (forall k, k ∈ ks -> same_place k o.1) -> erase_first (same_name name o) (of_kinds ks (attached acts)) = remove_one o (of_kinds ks (attached acts))).
    { intros ks Hk Hsame. apply erase_remove. intros x Hx E. unfold of_kinds in Hx. apply elem_of_list_filter in Hx as [H1 H2]. apply Hd; [apply elem_of_app; left; by apply attached_in|apply elem_of_app; right; left|by apply Hsame|done]. }
    assert (Hf : forall ks, of_kinds ks (remove_one o (attached acts)) = if decide (o.1 ∈ ks) then remove_one o (of_kinds ks (attached acts)) else of_kinds ks (attached acts)).
    { intros ks. exact (filter_remove_one (fun o : cobj => o.1 ∈ ks) o (attached acts)). }
    rewrite !Hf. destruct o as [k i]. assert (Hk : k <> KPublication /\ k <> KServiceStats).
    { split; intros ->; [apply (Hp i)|apply (Hs i)]; apply elem_of_app; right; left. }
    destruct k; try (by destruct Hk); cbn [fst c_services c_svc_stats c_fun_stats c_pub_stats c_sub_stats] in *; rewrite I1, I2, I3, I4, I5.
    all: split_and!; case_decide as Hx; try done; try (exfalso; revert Hx; clear; set_solver).
    all: apply He; [done|]; clear; intros k Hk; repeat (apply elem_of_cons in Hk as [->|Hk]; [done|]); by apply elem_of_nil in Hk.
Qed.
(** Every detach of a publication statistics object forgets all of them, whichever and however many they are: *)
Theorem C41_publication_detach_clears name acts i : c_pub_stats (c_run name (acts ++ [CDetach (KPublication, i)])) = [].
Proof. unfold c_run. by rewrite fold_left_app. Qed.
(** and with equal names the wrong object goes. *)
Definition demo_name (o : cobj) : string := match o with (KFunction, _) => "f" | (KSubscription, 0) => "s0" | (KSubscription, _) => "s1" | (KService, _) => "svc" | _ => "p" end.
Theorem C41_detach_refuted :
  (exists acts o x, x <> o /\ x ∈ attached acts /\ x ∈ c_all (c_run demo_name acts) /\ x ∉ c_all (c_run demo_name (acts ++ [CDetach o])) /\ o.1 = KFunction) /\
  (exists acts o x, x <> o /\ x ∈ c_all (c_run demo_name acts) /\ x ∉ c_all (c_run demo_name (acts ++ [CDetach o])) /\ o.1 = KPublication).
Proof.
  split.
  - exists [CAttach (KFunction, 0); CAttach (KFunction, 1)], (KFunction, 1), (KFunction, 0). split; [done|]. split; [left|]. split; [left|]. split; [|done].
    change (c_all _) with [(KFunction, 1)]. intros H%elem_of_list_singleton. discriminate.
  - exists [CAttach (KPublication, 0); CAttach (KPublication, 1)], (KPublication, 1), (KPublication, 0). split; [done|]. split; [left|]. split; [|done].
    change (c_all _) with (@nil cobj). apply not_elem_of_nil.
Qed.
(** A history that meets the hypotheses of C41_detach_exact. *)
Definition cont_demo : list cact := [CAttach (KSubscription, 0); CStart; CAttach (KSubscription, 1); CAttach (KService, 7); CDetach (KSubscription, 0); CAttach (KPublication, 3)].
Example cont_demo_ok : distinct_names demo_name cont_demo /\ (forall i, CDetach (KPublication, i) ∉ cont_demo) /\ (forall i, CDetach (KServiceStats, i) ∉ cont_demo) /\
  attached cont_demo = [(KSubscription, 1); (KService, 7); (KPublication, 3)] /\ c_all (c_run demo_name cont_demo) = [(KService, 7); (KPublication, 3); (KSubscription, 1)].
Proof.
  assert (Hn : forall o, CDetach o ∈ cont_demo -> o = (KSubscription, 0)).
  { intros o H. repeat (apply elem_of_cons in H as [H|H]; [try discriminate H; by injection H as ->|]). by apply elem_of_nil in H. }
  split; [|split; [intros i H%Hn; done|split; [intros i H%Hn; done|done]]].
  intros o o' H H'%Hn. subst o'. repeat (apply elem_of_cons in H as [H|H]; [try discriminate H; injection H as ->; cbn; try done|]). by apply elem_of_nil in H.
Qed.

(** * C42 *)
Lemma running_spec name acts : c_running (c_run name acts) = started acts.
Proof.
  unfold c_run, started. induction acts as [|a acts IH] using rev_ind; [done|]. rewrite !fold_left_app. cbn [fold_left]. destruct a as [| |o|o]; cbn [c_step]; [done|done|..].
  - destruct (o.1); cbn; done.
  - destruct (o.1); cbn; done.
Qed.
Lemma erase_in p l x : x ∈ erase_first p l -> x ∈ l.
Proof. induction l as [|y l IH]; [done|]. cbn. destruct (p y); [intros; by right|]. intros [->|H]%elem_of_cons; [left|right; auto]. Qed.
Ltac vecs := unfold c_all in *; cbn [c_running c_services c_svc_stats c_fun_stats c_pub_stats c_sub_stats c_on] in *.
Lemma all_attach name s o x : x ∈ c_all (c_step name s (CAttach o)) <-> x ∈ c_all s \/ x = o.
Proof. destruct o as [k i]; destruct k; cbn [c_step fst]; vecs; rewrite !elem_of_app, ?elem_of_list_singleton; tauto. Qed.
Lemma all_detach name s o x : x ∈ c_all (c_step name s (CDetach o)) -> x ∈ c_all s.
Proof.
  destruct o as [k i]; destruct k; cbn [c_step fst]; vecs; rewrite !elem_of_app; try tauto.
  - intros [H%erase_in|H]; tauto.
  - intros [H|[H%erase_in|H]]; tauto.
  - intros [H|[H|[H|H]]]; try tauto. by apply elem_of_nil in H.
  - intros [H|[H|[H|H%erase_in]]]; tauto.
Qed.
Lemma on_attach name s o : c_on (c_step name s (CAttach o)) = if c_running s then o :: c_on s else c_on s.
Proof. destruct o as [k i]; destruct k; cbn [c_step fst]; vecs; by destruct (c_running s). Qed.
Lemma on_detach name s o : c_on (c_step name s (CDetach o)) = c_on s.
Proof. destruct o as [k i]; by destruct k. Qed.
(** While the container is started everything attached to it is started, for every history and all names. *)
Theorem C42_started_while_running name acts o : started acts = true -> o ∈ c_all (c_run name acts) -> o ∈ c_on (c_run name acts).
Proof.
  rewrite <-(running_spec name). revert o. unfold c_run. induction acts as [|a acts IH] using rev_ind; [done|]. intros o. rewrite !fold_left_app. cbn [fold_left]. set (s := fold_left _ acts c_new) in *.
  destruct a as [| |o'|o'].
  - cbn [c_step]. vecs. intros _ H. unfold turn_on. apply elem_of_app. by left.
  - done.
  - rewrite on_attach, all_attach. replace (c_running (c_step name s (CAttach o'))) with (c_running s) by (destruct o' as [k i]; by destruct k). intros Hr. rewrite Hr. intros [H| ->]; [right; auto|left].
  - rewrite on_detach. replace (c_running (c_step name s (CDetach o'))) with (c_running s) by (destruct o' as [k i]; by destruct k). intros Hr H%all_detach. auto.
Qed.
(** A stop stops everything that is attached. *)
Theorem C42_stop_stops_all name acts o : o ∈ c_all (c_run name (acts ++ [CStop])) -> o ∉ c_on (c_run name (acts ++ [CStop])).
Proof. unfold c_run. rewrite fold_left_app. cbn [fold_left c_step]. vecs. unfold turn_off. intros H H2%elem_of_list_filter. by destruct H2. Qed.
(** While the container is not started, nothing attached to it is, if no object is attached twice ... *)
Definition attaches (acts : list cact) : list cobj := omap (fun a => match a with CAttach o => Some o | _ => None end) acts.
Theorem C97_stopped_while_not_running name acts o : NoDup (attaches acts) -> started acts = false -> o ∈ c_all (c_run name acts) -> o ∉ c_on (c_run name acts).
Proof.
  rewrite <-(running_spec name). intros Hnd.
  assert (Hinv : (forall x, x ∈ c_on (c_run name acts) -> x ∈ attaches acts) /\ (c_running (c_run name acts) = false -> forall x, x ∈ c_all (c_run name acts) -> x ∉ c_on (c_run name acts))).
  2:{ intros. by apply Hinv. }
  unfold c_run, attaches in *. induction acts as [|a acts IH] using rev_ind.
  - split; [intros x H; by apply elem_of_nil in H|]. intros _ x _. apply not_elem_of_nil.
  - rewrite omap_app in *. apply NoDup_app in Hnd as (N1 & N2 & N3). specialize (IH N1) as [I1 I2]. rewrite fold_left_app. cbn [fold_left]. set (s := fold_left _ acts c_new) in *.
    assert (Hall : forall x, x ∈ c_all s -> x ∈ omap (fun a => match a with CAttach o => Some o | _ => None end) acts).
    { unfold s. clear. induction acts as [|a acts IH] using rev_ind; [intros x H; by apply elem_of_nil in H|]. intros x. rewrite omap_app, fold_left_app, elem_of_app. cbn [fold_left]. destruct a as [| |o'|o'].
      - intros H. left. apply IH. exact H.
      - intros H. left. apply IH. exact H.
      - rewrite all_attach. intros [H| ->]; [left; auto|right; left].
      - intros H%all_detach. left. auto. }
    destruct a as [| |o'|o'].
    + split; [|done]. intros x. cbn [c_step]. vecs. unfold turn_on. rewrite !elem_of_app. intros [H|H]; [left; apply Hall; unfold c_all; rewrite !elem_of_app; tauto|left; auto].
    + split.
      * intros x. cbn [c_step]. vecs. unfold turn_off. intros H%elem_of_list_filter. apply elem_of_app. left. apply I1, H.
      * intros _ x. cbn [c_step]. vecs. unfold turn_off. intros H H2%elem_of_list_filter. by destruct H2.
    + rewrite on_attach. split.
      * intros x. rewrite elem_of_app. destruct (c_running s); [intros [->|H]%elem_of_cons; [right; left|left; auto]|left; auto].
      * replace (c_running (c_step name s (CAttach o'))) with (c_running s) by (destruct o' as [k i]; by destruct k). intros Hr x. rewrite all_attach, Hr. intros [H| ->]; [auto|].
        intros H. apply (N2 o'); [auto|left].
    + rewrite on_detach. split; [intros x H; apply elem_of_app; left; auto|].
      replace (c_running (c_step name s (CDetach o'))) with (c_running s) by (destruct o' as [k i]; by destruct k). intros Hr x H%all_detach. auto.
Qed.
(** ... but an object detached while the container ran keeps running, also when it is attached again to the stopped container. *)
Theorem C97_stopped_refuted : exists acts o, started acts = false /\ o ∈ c_all (c_run demo_name acts) /\ o ∈ c_on (c_run demo_name acts).
Proof. exists [CAttach (KFunction, 0); CStart; CDetach (KFunction, 0); CStop; CAttach (KFunction, 0)], (KFunction, 0). split; [done|]. split; left. Qed.
(** (so "attached at that moment" cannot be replaced by "ever attached", even if no object is attached twice) *)
Theorem C97_detached_keeps_running_refuted : exists acts o, NoDup (attaches acts) /\ started acts = false /\ o ∈ attaches acts /\ o ∈ c_on (c_run demo_name acts).
Proof.
  exists [CAttach (KFunction, 0); CStart; CDetach (KFunction, 0); CStop], (KFunction, 0). split; [apply (bool_decide_unpack _); by vm_compute|]. split; [done|]. split; left.
Qed.
(** Without any start(), nothing whatever runs. *)
Theorem C97_never_started name acts : CStart ∉ acts -> c_on (c_run name acts) = [].
Proof.
  intros H. assert (G : c_running (c_run name acts) = false /\ c_on (c_run name acts) = []); [|by destruct G].
  unfold c_run. induction acts as [|a acts IH] using rev_ind; [done|]. rewrite not_elem_of_app, not_elem_of_cons in H. destruct H as (H1 & H2 & _). destruct (IH H1) as [I1 I2].
  rewrite fold_left_app. cbn [fold_left]. set (s := fold_left _ acts c_new) in *. destruct a as [| |[k i]|[k i]]; [done|..].
  - cbn. rewrite I2. done.
  - destruct k; cbn; rewrite I1; done.
  - destruct k; cbn; done.
Qed.
Example C42_case : started cont_demo = true /\ (KService, 7) ∈ c_all (c_run demo_name cont_demo) /\ NoDup (attaches (cont_demo ++ [CStop])) /\ started (cont_demo ++ [CStop]) = false.
Proof. split; [done|]. split; [left|]. split; [|done]. apply (bool_decide_unpack _). vm_compute. done. Qed.

(** ** An attach in one thread beside starts and stops in another. *)
Global Instance apc_eq_dec : EqDecision apc.
Proof. solve_decision. Defined.
Record AInv (calls : list bool) (s : ast) : Prop := {
  ai_in : a_in s = bool_decide (a_pc s <> APush);
  ai_flag : forall b r, a_ctl s = (b, KLoop) :: r -> a_running s = b;
  ai_flagd : forall b r, a_ctl s = (b, KDone) :: r -> a_running s = b;
  ai_main : a_pc s = ADone -> a_running s = true -> a_on s = true \/ exists r, a_ctl s = (true, KLoop) :: r;
  ai_tail : forall x r, a_ctl s = x :: r -> Forall (fun y => y.2 = KFlag) r;
  ai_last : fold_left (fun _ x => x.1) (a_ctl s) (a_running s) = default false (last calls)
}.
Lemma ainv_run calls sched : AInv calls (a_run calls sched).
Proof.
  unfold a_run. induction sched as [|b sched IH] using rev_ind.
  - cbn [fold_left]. constructor; cbn; try done.
    + intros b r H. by destruct calls.
    + intros b r H. by destruct calls.
    + intros x r H. destruct calls as [|c calls]; [done|]. injection H as <- <-. apply Forall_fmap. apply Forall_true. done.
    + generalize false. induction calls as [|c calls IH] using rev_ind; [done|]. intros b. rewrite fmap_app, fold_left_app, last_snoc. done.
  - rewrite fold_left_app. cbn [fold_left]. set (s := fold_left a_step sched _) in *. destruct IH as [A1 A2 A3 A4 A5 A6]. unfold a_step. destruct b.
    + destruct (a_pc s) eqn:Ep; cbn.
      * constructor; cbn; try done.
      * destruct (a_running s) eqn:Er; constructor; cbn; rewrite ?Er; try done.
      * constructor; cbn; try done. by left.
      * constructor; rewrite ?Ep; done.
    + destruct (a_ctl s) as [|[b [| |]] r] eqn:Ec; cbn.
      * constructor; rewrite ?Ec; done.
      * constructor; cbn; try done.
        -- intros ? ? [= <- <-]. done.
        -- intros Hp ->. right. eauto.
        -- intros ? ? [= <- <-]. by eapply A5.
      * specialize (A2 _ _ eq_refl). constructor; cbn; try done.
        -- intros ? ? [= <- <-]. done.
        -- intros Hp Hr. left. rewrite A1, Hp. rewrite bool_decide_true by done. congruence.
        -- intros ? ? [= <- <-]. by eapply A5.
      * specialize (A3 _ _ eq_refl). specialize (A5 _ _ eq_refl). constructor; cbn; try done.
        -- intros b' r' E. rewrite E in A5. apply Forall_cons in A5 as [? _]. done.
        -- intros b' r' E. rewrite E in A5. apply Forall_cons in A5 as [? _]. done.
        -- intros Hp Hr. destruct (A4 Hp Hr) as [|[? ?]]; [by left|done].
        -- intros x r' E. rewrite E in A5. by apply Forall_cons in A5 as [_ ?].
        -- cbn in A6. by rewrite A3.
Qed.
(** Whatever the interleaving of one attach and any starts and stops: once all have returned and the last was a start, the object is started. *)
Theorem C42_concurrent_attach_and_start calls sched : a_pc (a_run calls sched) = ADone -> a_ctl (a_run calls sched) = [] -> last calls = Some true -> a_on (a_run calls sched) = true.
Proof.
  intros H1 H2 H3. destruct (ainv_run calls sched) as [A1 A2 A3 A4 A5 A6]. rewrite H2, H3 in A6. cbn in A6. destruct (A4 H1 A6) as [|[r Hr]]; [done|congruence].
Qed.
(** But beside a stop the object may be left started although the container is stopped. *)
Theorem C97_concurrent_attach_and_stop_refuted : exists calls sched, let s := a_run calls sched in a_pc s = ADone /\ a_ctl s = [] /\ last calls = Some false /\ a_on s = true.
Proof. exists [true; false], [false; false; false; true; true; false; false; false; true]. vm_compute. done. Qed.
(** A container nobody starts never switches the attached statistics on, however the attach and the stops interleave. *)
Theorem C42_concurrent_never_started calls sched : true ∉ calls -> a_on (a_run calls sched) = false.
Proof.
  intros Hc. unfold a_run.
  assert (G : forall s, a_running s = false -> a_on s = false -> a_pc s <> AStart -> Forall (fun x => x.1 = false) (a_ctl s) -> a_on (fold_left a_step sched s) = false).
  { induction sched as [|b sched IH]; intros s H1 H2 H3 H4; [done|]. cbn [fold_left]. destruct s as [r i o pc ctl]. cbn in *. subst. destruct b; unfold a_step; cbn.
    - destruct pc; try done; by apply IH.
    - destruct ctl as [|[b []] ctl]; [by apply IH|..]; pose proof (List.Forall_inv H4) as Hb; pose proof (List.Forall_inv_tail H4) as Ht; cbn in Hb; subst b.
      + apply IH; try done. by constructor.
      + apply IH; try done; [by destruct i|by constructor].
      + by apply IH. }
  apply G; try done. apply Forall_forall. intros x Hx. apply elem_of_list_fmap in Hx as (b & -> & Hb). cbn. by destruct b.
Qed.
Example C42_concurrent_case : let s := a_run [true; false; true] [false; true; false; false; true; false; true; false; false; false; false; false] in a_pc s = ADone /\ a_ctl s = [] /\ a_on s = true.
Proof. vm_compute. done. Qed.
Print Assumptions C41_detach_exact.
Print Assumptions C41_publication_detach_clears.
Print Assumptions C41_detach_refuted.
Print Assumptions C42_started_while_running.
Print Assumptions C42_stop_stops_all.
Print Assumptions C97_stopped_while_not_running.
Print Assumptions C97_stopped_refuted.
Print Assumptions C42_concurrent_attach_and_start.
Print Assumptions C42_concurrent_never_started.
Print Assumptions C97_concurrent_attach_and_stop_refuted.
Print Assumptions C97_detached_keeps_running_refuted.
Print Assumptions C97_never_started.
