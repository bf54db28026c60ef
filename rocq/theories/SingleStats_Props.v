(** * C186: statistics of the single-listener emitter. *)
From stdpp Require Import prelude strings.
From Verif Require Import UnsafeEmitters_Model UnsafeEmitters_Spec UnsafeEmitters_Proofs.
Local Open Scope string_scope.
Local Open Scope list_scope.

(** ** Specification *)
(** The call takes the listener (id 0) away. *)
Definition removes (o : mop) : bool := match o with MRemove _ 0 | MRemoveAll _ => true | _ => false end.
(** discardEvent was called for event [e] so many times. *)
Definition discards_of (e : string) (os : list mop) : nat := length (List.filter (fun o => match o with MDiscard e' => String.eqb e' e | _ => false end) os).
(** No listener is registered after these calls. *)
Definition free (os : list mop) : Prop := (sspec_run None os).1 = None.

(** ** Proofs *)
Lemma run_app s os1 os2 : (single_run s (os1 ++ os2)).1 = (single_run (single_run s os1).1 os2).1.
Proof.
  revert s; induction os1 as [|o os1 IH]; intros s; [done|]. cbn [app single_run]. destruct (single_step s o) as [s' r] eqn:E. specialize (IH s').
  destruct (single_run s' (os1 ++ os2)) as [x y]. destruct (single_run s' os1) as [x' y']. cbn in *. done.
Qed.
Lemma run_one s o os : (single_run s (o :: os)).1 = (single_run (single_step s o).1 os).1.
Proof. cbn [single_run]. destruct (single_step s o) as [s' r]. cbn [fst]. destruct (single_run s' os). done. Qed.
Lemma srun_one g o os : (sspec_run g (o :: os)).1 = (sspec_run (sspec_step g o).1 os).1.
Proof. cbn [sspec_run]. destruct (sspec_step g o) as [s' r]. cbn [fst]. destruct (sspec_run s' os). done. Qed.
Lemma reg_same s g os : (s_reg s = true <-> is_Some g) -> (s_reg (single_run s os).1 = true <-> is_Some (sspec_run g os).1).
Proof.
  revert s g; induction os as [|o os IH]; intros s g H; [done|]. rewrite run_one, srun_one. apply IH. destruct o as [c n e cb|c id|c|e|e]; cbn.
  - unfold single_on. destruct (s_reg s) eqn:Er; cbn; rewrite ?Er.
    + destruct g; [done|]. destruct H as [H _]. by destruct (H eq_refl).
    + destruct g; [|split; eauto]. destruct H as [_ H]. specialize (H ltac:(eauto)). done.
  - unfold single_remove. destruct id; cbn; [split; [done|by intros [? ?]]|done].
  - split; [done|by intros [? ?]].
  - done.
  - unfold single_discard. destruct (bool_decide _); cbn; done.
Qed.
Lemma not_reg os : free os -> s_reg (single_run single_new os).1 = false.
Proof.
  intros H. destruct (s_reg _) eqn:E; [|done]. exfalso. apply (reg_same single_new None os) in E; [|split; [done|by intros [? ?]]]. rewrite H in E. by destruct E.
Qed.
Lemma keeps os l e d s : s_reg s = true -> s_sub s = e -> s_stats s = Some (Stat l e d) -> forallb (fun o => negb (removes o)) os = true ->
  s_stats (single_run s os).1 = Some (Stat l e (d + discards_of e os)).
Proof.
  revert s d; induction os as [|o os IH]; intros s d Hr Hs Hst Hn.
  { cbn. by rewrite Nat.add_0_r. }
  cbn [forallb] in Hn. apply andb_true_iff in Hn as [Hn1 Hn]. rewrite run_one.
  destruct o as [c n e' cb|c [|id]|c|e'|e']; try done; cbn [single_step].
  - unfold single_on. rewrite Hr. cbn. by apply IH.
  - cbn. by apply IH.
  - cbn. by apply IH.
  - cbn [fst]. unfold single_discard. rewrite Hs. unfold discards_of. cbn [List.filter]. destruct (String.eqb_spec e' e) as [->|Hne].
    + rewrite bool_decide_true by done. cbn [length]. rewrite Nat.add_succ_r, <-Nat.add_succ_l. apply IH; [done|done| |done]. cbn. by rewrite Hst.
    + rewrite bool_decide_false by done. by apply IH.
Qed.
(** C186: a listener registered with a container, and not removed since: getListenerStats(0) gives its names and the discards of its event since. *)
Theorem C186_stats os1 l e cb os2 : free os1 -> forallb (fun o => negb (removes o)) os2 = true ->
  single_stats 0 (single_run single_new (os1 ++ MOn true l e cb :: os2)).1 = Some (Stat l e (discards_of e os2)).
Proof.
  intros Hf Hn. rewrite run_app, run_one. cbn [single_step single_stats Nat.eqb]. unfold single_on. rewrite (not_reg os1 Hf). cbn [fst].
  rewrite (keeps os2 l e 0); done.
Qed.
Print Assumptions C186_stats.
(** No other identifier has statistics, whatever the history. *)
Theorem C186_other_ids id os : id <> 0 -> single_stats id (single_run single_new os).1 = None.
Proof. by destruct id. Qed.
Print Assumptions C186_other_ids.
(** After a removal with a container, or before any registration with one, there are none until the next registration with a container. *)
Theorem C186_none os1 o os2 id : removes o = true -> (exists k, o = MRemove true k) \/ o = MRemoveAll true -> (forall l e cb, MOn true l e cb ∉ os2) ->
  single_stats id (single_run single_new (os1 ++ o :: os2)).1 = None /\ single_stats id (single_run single_new os2).1 = None.
Proof.
  intros Hr Ho Hn. assert (H : forall s, s_stats s = None -> s_stats (single_run s os2).1 = None).
  { induction os2 as [|x os2 IH]; intros s Hs; [done|]. rewrite run_one. assert (Hn' : forall l e cb, MOn true l e cb ∉ os2) by (intros l e cb Hi; apply (Hn l e cb); by constructor).
    apply IH; [done|]. destruct x as [[] l e cb|c [|k]|c|e|e]; cbn; unfold single_on, single_discard.
    - exfalso. apply (Hn l e cb). constructor.
    - by destruct (s_reg s).
    - by destruct c.
    - done.
    - by destruct c.
    - done.
    - destruct (bool_decide _); cbn; [by rewrite Hs|done]. }
  unfold single_stats. destruct (id =? 0)%nat; [|done]. split; [|by apply H]. rewrite run_app, run_one. apply H.
  destruct Ho as [[k ->]| ->]; [|done]. destruct k; [done|]. done.
Qed.
Print Assumptions C186_none.
Example C186_case : let os1 := [MOn false "x" "a" 1; MDiscard "a"; MRemove true 0] in let os2 := [MDiscard "b"; MDiscard "a"; MOn true "z" "a" 3; MEmit "b"; MRemove true 4; MDiscard "b"] in
  free os1 /\ forallb (fun o => negb (removes o)) os2 = true /\ discards_of "b" os2 = 2 /\
  single_stats 0 (single_run single_new (os1 ++ MOn true "y" "b" 2 :: os2)).1 = Some (Stat "y" "b" 2) /\
  single_stats 0 (single_run single_new (os1 ++ MOn true "y" "b" 2 :: os2 ++ [MRemoveAll true; MDiscard "b"])).1 = None.
Proof. repeat split. Qed.
