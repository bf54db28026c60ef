(** * Properties of the subscriber: C12, C54. *)
From stdpp Require Import prelude strings gmap.
From Verif Require Import SafeEmitter_Model UnsafeEmitters_Model Subscriber_Model Subscriber_Spec Subscriber_Proofs.
Local Open Scope string_scope.
Local Open Scope list_scope.

(** C12: [owner] says under which name each callback is registered; after
    removeListener(name), no publication reaches a callback of that name until the name is registered again. *)
Definition owned (owner : nat -> string) (os : list sop) : Prop := forall n cb, SubReg n cb ∈ os -> owner cb = n.
Definition C12_statement (k : kind) : Prop := forall c ev owner os1 name os2 l cb,
  owned owner (os1 ++ os2) -> (forall cb, SubReg name cb ∉ os2) ->
  RCalled l ∈ (sub_run (sub_run (sub_new k c ev) (os1 ++ [SubRemove name])).1 os2).2 -> cb ∈ l -> owner cb <> name.

Theorem C12_removed_name_silent_multi_single : forall k, k <> KSafe -> C12_statement k.
Proof.
  intros k Hk c ev owner os1 name os2 l cb Hown Hno Hin Hcb.
  rewrite sub_run_app in Hin. cbn [fst] in Hin.
  assert (Ho1 : Forall (op_ok owner None) os1).
  { apply Forall_forall. intros [n b| | |] Ho; simpl; auto. split; [apply Hown; set_solver|done]. }
  destruct (aa_run owner None _ os1 (aa_new owner k c ev Hk) Ho1) as [H1 _].
  set (s1 := (sub_run (sub_new k c ev) os1).1) in *.
  destruct (aa_step owner None s1 (SubRemove name) H1 Logic.I) as (_ & _ & H2). specialize (H2 name eq_refl).
  cbn [sub_run] in Hin. destruct (sub_step s1 (SubRemove name)) as [s2 r]. cbn [fst] in *.
  assert (Ho2 : Forall (op_ok owner (Some name)) os2).
  { apply Forall_forall. intros [n b| | |] Ho; simpl; auto. split; [apply Hown; set_solver|]. intros [= ->]. by eapply Hno. }
  destruct (aa_run owner (Some name) s2 os2 H2 Ho2) as [_ Hout].
  rewrite Forall_forall in Hout. specialize (Hout _ Hin cb Hcb). congruence.
Qed.
Print Assumptions C12_removed_name_silent_multi_single.
Example C12_case : (sub_run (sub_new KMulti true "e") [SubReg "a" 1; SubReg "a" 2; SubReg "b" 3; SubPublish; SubRemove "a"; SubPublish]).2 =
  [RNone; RNone; RNone; RCalled [1; 3]; RNone; RCalled [3]].
Proof. reflexivity. Qed.
(** False with the safe emitter: the name is registered twice, one removal leaves the first callback. *)
Theorem C12_safe_refuted : ~ C12_statement KSafe.
Proof.
  intros H. apply (H true "e" (fun _ => "a") [SubReg "a" 1; SubReg "a" 2] "a" [SubPublish] [1] 1); try done.
  - intros n cb Hin. repeat (apply elem_of_cons in Hin as [Hin|Hin]; [congruence|]). by apply elem_of_nil in Hin.
  - set_solver.
  - vm_compute. constructor.
  - constructor.
Qed.
Print Assumptions C12_safe_refuted.

(** C54: a subscriber is a registry keyed by listener name: registering a registered
    name changes nothing, removing a name affects that name only, asking for statistics
    affects nothing, a publication reaches every registered listener in order. *)
Definition C54_statement (k : kind) : Prop := forall c ev os,
  (sub_run (sub_new k c ev) os).2 = (subspec_run [] os).2.
(** False: asking for the statistics of an unknown name makes a later removal
    of that name remove listener 0 (multi), or throw (safe). *)
Theorem C54_stats_query_refuted : ~ C54_statement KMulti /\ ~ C54_statement KSafe.
Proof.
  split; intros H; specialize (H true "e" [SubReg "a" 1; SubStats "x"; SubRemove "x"; SubPublish]); vm_compute in H; discriminate.
Qed.
Print Assumptions C54_stats_query_refuted.
(** False for the single-listener emitter even without statistics queries. *)
Theorem C54_single_refuted : ~ (forall c ev os, polite false [] os -> (sub_run (sub_new KSingle c ev) os).2 = (subspec_run [] os).2).
Proof.
  intros H. specialize (H true "e" [SubReg "a" 1; SubReg "b" 2; SubRemove "b"; SubPublish]).
  assert (Hp : polite false [] [SubReg "a" 1; SubReg "b" 2; SubRemove "b"; SubPublish]) by (simpl; split_and!; done).
  specialize (H Hp). vm_compute in H. discriminate.
Qed.
Print Assumptions C54_single_refuted.
(** True for the multi-listener emitter if statistics are asked only of registered names. *)
Theorem C54_multi : forall c ev os, polite false [] os ->
  (sub_run (sub_new KMulti c ev) os).2 = (subspec_run [] os).2.
Proof. intros c ev os Hp. by apply (mr_run _ _ _ (mr_new c ev) Hp). Qed.
Print Assumptions C54_multi.
(** True for the safe emitter if moreover no name is registered twice (and fewer than 2^32 - 1 registrations). *)
Theorem C54_safe : forall c ev os, polite true [] os ->
  (Z.of_nat (length (filter (fun o => match o with SubReg _ _ => true | _ => false end = true) os)) < 4294967295)%Z ->
  (sub_run (sub_new KSafe c ev) os).2 = (subspec_run [] os).2.
Proof.
  intros c ev os Hp Hs. apply (sr_run 0 _ _ _ (sr_new c ev)); [lia| |done]. unfold regs. 
  assert (E : filter (fun o => is_reg o = true) os = filter (fun o => match o with SubReg _ _ => true | _ => false end = true) os) by reflexivity.
  rewrite E. lia.
Qed.
Print Assumptions C54_safe.
Example C54_case : polite true [] [SubReg "a" 1; SubReg "b" 2; SubStats "a"; SubRemove "a"; SubPublish; SubReg "a" 3; SubPublish] /\
  (sub_run (sub_new KSafe true "e") [SubReg "a" 1; SubReg "b" 2; SubStats "a"; SubRemove "a"; SubPublish; SubReg "a" 3; SubPublish]).2 =
  [RNone; RNone; RNone; RNone; RCalled [2]; RNone; RCalled [2; 3]].
Proof.
  split; [|reflexivity]. simpl. split_and!; auto; unfold has; simpl; try (intros _; set_solver); set_solver.
Qed.

(** The registry never reaches a callback of a name that was removed and not registered again. *)
Lemma subspec_silent owner name os : forall g,
  owned owner os -> (forall cb, SubReg name cb ∉ os) ->
  (forall n cb, (n, cb) ∈ g -> owner cb = n /\ n <> name) ->
  forall l cb, RCalled l ∈ (subspec_run g os).2 -> cb ∈ l -> owner cb <> name.
Proof.
  induction os as [|o os IH]; intros g Ho Hn Hg l cb Hin Hcb; [by apply elem_of_nil in Hin|].
  cbn [subspec_run] in Hin.
  assert (Hg' : forall n cb, (n, cb) ∈ (subspec_step g o).1 -> owner cb = n /\ n <> name).
  { intros n b Hb. destruct o as [m b'|m| |m]; cbn [subspec_step fst] in Hb; eauto.
    - destruct (decide (has m g)); [eauto|]. apply elem_of_app in Hb as [Hb|Hb]; [eauto|].
      apply elem_of_list_singleton in Hb as [= -> ->]. split; [apply Ho; constructor|].
      intros ->. apply (Hn b'). constructor.
    - apply elem_of_list_filter in Hb as [_ Hb]. eauto. }
  assert (Hr : forall l0, RCalled l0 = (subspec_step g o).2 -> l0 = snd <$> g).
  { destruct o as [m b'|m| |m]; cbn [subspec_step snd]; intros l0 [=]; done. }
  destruct (subspec_step g o) as [g' r]; cbn [fst snd] in *.
  specialize (IH g'). destruct (subspec_run g' os) as [g'' out]; cbn [snd] in *.
  apply elem_of_cons in Hin as [Hin|Hin].
  - apply Hr in Hin as ->. apply elem_of_list_fmap in Hcb as ([n b] & -> & Hb). cbn [snd].
    destruct (Hg _ _ Hb) as [-> ?]. done.
  - eapply IH; eauto.
    + intros n b Hb. apply Ho. by constructor.
    + intros b Hb. apply (Hn b). by constructor.
Qed.
Lemma subspec_owned owner os : forall g, owned owner os -> (forall n cb, (n, cb) ∈ g -> owner cb = n) ->
  forall n cb, (n, cb) ∈ (subspec_run g os).1 -> owner cb = n.
Proof.
  induction os as [|o os IH]; intros g Ho Hg n cb Hin; [eauto|]. cbn [subspec_run] in Hin.
  assert (Hg' : forall n cb, (n, cb) ∈ (subspec_step g o).1 -> owner cb = n).
  { intros m b Hb. destruct o as [m' b'|m'| |m']; cbn [subspec_step fst] in Hb; eauto.
    - destruct (decide (has m' g)); [eauto|]. apply elem_of_app in Hb as [Hb|Hb]; [eauto|].
      apply elem_of_list_singleton in Hb as [= -> ->]. apply Ho; constructor.
    - apply elem_of_list_filter in Hb as [_ Hb]. eauto. }
  destruct (subspec_step g o) as [g' r]; cbn [fst] in *. specialize (IH g').
  destruct (subspec_run g' os) as [g'' out]; cbn [fst] in *. eapply IH; eauto.
  intros m b Hb. apply Ho. by constructor.
Qed.
Lemma subspec_run_app g a b : subspec_run g (a ++ b) =
  ((subspec_run (subspec_run g a).1 b).1, (subspec_run g a).2 ++ (subspec_run (subspec_run g a).1 b).2).
Proof.
  revert g; induction a as [|o a IH]; intros g; cbn [app subspec_run].
  - cbn [fst snd app]. by destruct (subspec_run g b).
  - destruct (subspec_step g o) as [g' r]. rewrite IH. destruct (subspec_run g' a); cbn [fst snd].
    by destruct (subspec_run _ b).
Qed.
Lemma subspec_run_length g os : length (subspec_run g os).2 = length os.
Proof.
  revert g; induction os as [|o os IH]; intros g; [done|]. cbn [subspec_run]. destruct (subspec_step g o) as [g' r].
  specialize (IH g'). destruct (subspec_run g' os); cbn [snd length] in *. lia.
Qed.
(** C12 with the safe emitter: no name is registered while it is registered, statistics are asked of
    registered names only, and there are fewer than 2^32 - 1 registrations. *)
Theorem C12_safe : forall c ev owner os1 name os2 l cb,
  owned owner (os1 ++ os2) -> (forall cb, SubReg name cb ∉ os2) ->
  polite true [] (os1 ++ SubRemove name :: os2) ->
  (Z.of_nat (length (filter (fun o => match o with SubReg _ _ => true | _ => false end = true) (os1 ++ SubRemove name :: os2))) < 4294967295)%Z ->
  RCalled l ∈ (sub_run (sub_run (sub_new KSafe c ev) (os1 ++ [SubRemove name])).1 os2).2 -> cb ∈ l -> owner cb <> name.
Proof.
  intros c ev owner os1 name os2 l cb Hown Hno Hp Hs Hin Hcb.
  pose proof (C54_safe c ev _ Hp Hs) as E.
  assert (Ea : os1 ++ SubRemove name :: os2 = (os1 ++ [SubRemove name]) ++ os2) by (by rewrite <- app_assoc).
  rewrite Ea in E. rewrite sub_run_app, subspec_run_app in E. cbn [fst snd] in E.
  assert (Hp1 : polite true [] (os1 ++ [SubRemove name])).
  { clear -Hp. revert Hp. generalize (@nil (string * nat)). induction os1 as [|o os1 IH]; intros g; cbn [app polite].
    - by intros _.
    - intros [H1 H2]. split; [done|]. by apply IH. }
  assert (Hs1 : (Z.of_nat (length (filter (fun o => match o with SubReg _ _ => true | _ => false end = true) (os1 ++ [SubRemove name]))) < 4294967295)%Z).
  { rewrite Ea, filter_app, app_length in Hs. lia. }
  pose proof (C54_safe c ev _ Hp1 Hs1) as E1.
  rewrite E1 in E. apply app_inv_head in E. rewrite E in Hin.
  eapply (subspec_silent owner name os2); [| |  |exact Hin|exact Hcb].
  - intros n b Hb. apply Hown. apply elem_of_app. by right.
  - done.
  - intros n b Hb. rewrite subspec_run_app in Hb. cbn [subspec_run subspec_step fst] in Hb.
    apply elem_of_list_filter in Hb as [Hne Hb]. split; [|done].
    eapply (subspec_owned owner os1 []); [| |exact Hb].
    + intros m b' Hb'. apply Hown. apply elem_of_app. by left.
    + intros m b' Hb'. by apply elem_of_nil in Hb'.
Qed.
Print Assumptions C12_safe.
Example C12_safe_case :
  let os1 := [SubReg "a" 1; SubReg "b" 2; SubPublish] in let os2 := [SubPublish; SubReg "c" 3; SubRemove "b"; SubPublish] in
  polite true [] (os1 ++ SubRemove "a" :: os2) /\
  (sub_run (sub_new KSafe true "e") (os1 ++ SubRemove "a" :: os2)).2 =
  [RNone; RNone; RCalled [1; 2]; RNone; RCalled [2]; RNone; RNone; RCalled [3]].
Proof. split; [|reflexivity]. simpl. split_and!; auto; unfold has; simpl; try (intros _; set_solver); set_solver. Qed.
