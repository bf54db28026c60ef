(** * C83: the dispatch table of a ZeroMQ poller under concurrent registration. *)
From stdpp Require Import prelude gmap.
From Coq Require Import Lia.
From Verif Require Import Base ZmqDispatch_Model.
(** ** Specification on the log *)
(** The function registered for a topic after the changes in the log. *)
Definition registered (t : nat) (l : list zev) : option nat :=
  fold_left (fun r e => match e with ERegd t' f => if decide (t' = t) then Some f else r | EUnregd t' => if decide (t' = t) then None else r | _ => r end) l None.
(** The callbacks entered and not yet returned from. *)
Definition running (l : list zev) : list (nat * nat) :=
  fold_left (fun r e => match e with EStart t f => (t, f) :: r | EEnd _ _ => tail r | _ => r end) l [].
Section P.
Context (body : nat -> list zop) (progs : list (list zop)).
Lemma z_run_snoc acts a : z_run body progs (acts ++ [a]) = z_step body (z_run body progs acts) a.
Proof. unfold z_run. by rewrite fold_left_app. Qed.
Record ZI (s : zst) : Prop := {
  zi_map : forall t, z_map s !! t = registered t (z_log s);
  zi_own : match z_poll s with ZIdle | ZWant _ => z_owner s <> Some None | _ => z_owner s = Some None end;
  zi_run : running (z_log s) = match z_poll s with ZCall t f _ => [(t, f)] | _ => [] end;
  zi_start : forall l1 t f l2, z_log s = l1 ++ EStart t f :: l2 -> registered t l1 = Some f;
  zi_change : forall l1 e l2, z_log s = l1 ++ e :: l2 -> (match e with ERegd _ _ | EUnregd _ => True | _ => False end) -> running l1 = []
}.
Lemma reg_snoc t l e : registered t (l ++ [e]) = match e with ERegd t' f => if decide (t' = t) then Some f else registered t l | EUnregd t' => if decide (t' = t) then None else registered t l | _ => registered t l end.
Proof. unfold registered. rewrite fold_left_app. by destruct e. Qed.
Lemma running_snoc l e : running (l ++ [e]) = match e with EStart t f => (t, f) :: running l | EEnd _ _ => tail (running l) | _ => running l end.
Proof. unfold running. rewrite fold_left_app. by destruct e. Qed.
Lemma apply_reg m o l : (forall t, m !! t = registered t l) -> forall t, z_apply m o !! t = registered t (l ++ [z_ev o]).
Proof. intros H t. rewrite reg_snoc. destruct o as [t' f|t']; cbn; case_decide as E; subst; rewrite ?lookup_insert, ?lookup_delete, ?lookup_insert_ne, ?lookup_delete_ne by done; done. Qed.
Lemma snoc_split {A} (l l1 l2 : list A) x y : l ++ [x] = l1 ++ y :: l2 -> (l2 = [] /\ l = l1 /\ x = y) \/ exists l3, l2 = l3 ++ [x] /\ l = l1 ++ y :: l3.
Proof.
  destruct l2 as [|z l2 _] using rev_ind; intros H; [left; by apply app_inj_tail in H as [-> ->]|right]. exists l2. rewrite app_comm_cons, app_assoc in H. by apply app_inj_tail in H as [-> ->].
Qed.
Lemma zi_step s a : ZI s -> ZI (z_step body s a).
Proof.
  intros [M O R S C]. destruct a as [t| |i]; cbn [z_step].
  - destruct (z_poll s) eqn:E; [constructor; cbn; rewrite ?E in *; done|by constructor; rewrite ?E..].
  - destruct (z_poll s) as [|t|t|t f [|o r]|] eqn:E; [by constructor; rewrite ?E|..].
    + destruct (z_owner s) as [w|] eqn:Ew; [by constructor; rewrite ?E, ?Ew|]. by constructor.
    + destruct (z_map s !! t) as [f|] eqn:Em; [|by constructor]. constructor; cbn [z_map z_log z_owner z_poll z_todo].
      * intros u. rewrite reg_snoc. apply M.
      * done.
      * rewrite running_snoc. by rewrite R.
      * intros l1 u g l2 H. apply snoc_split in H as [(-> & <- & [= <- <-])|(l3 & -> & H)]; [by rewrite <-M|by eapply S].
      * intros l1 e l2 H He. apply snoc_split in H as [(-> & <- & <-)|(l3 & -> & H)]; [done|by eapply C].
    + constructor; cbn [z_map z_log z_owner z_poll z_todo].
      * intros u. rewrite reg_snoc. apply M.
      * done.
      * rewrite running_snoc. by rewrite R.
      * intros l1 u g l2 H. apply snoc_split in H as [(-> & <- & [=])|(l3 & -> & H)]. by eapply S.
      * intros l1 e l2 H He. apply snoc_split in H as [(-> & <- & <-)|(l3 & -> & H)]; [done|by eapply C].
    + rewrite O. by constructor; rewrite ?E.
    + by constructor.
  - destruct (z_todo s !! i) as [[|o r]|]; [by constructor| |by constructor]. destruct (z_owner s) as [[j|]|] eqn:Ew; [|by constructor; rewrite ?Ew|].
    + case_decide; [|by constructor; rewrite ?Ew]. assert (R' : running (z_log s) = []) by (rewrite R; by destruct (z_poll s)). constructor; cbn [z_map z_log z_owner z_poll z_todo].
      * by apply apply_reg.
      * by destruct (z_poll s).
      * rewrite running_snoc, R', <-R, R'. by destruct o.
      * intros l1 u g l2 H0. apply snoc_split in H0 as [(-> & <- & H0)|(l3 & -> & H0)]; [by destruct o|by eapply S].
      * intros l1 e l2 H0 He. apply snoc_split in H0 as [(-> & <- & <-)|(l3 & -> & H0)]; [done|by eapply C].
    + constructor; cbn; try done. by destruct (z_poll s).
Qed.
Lemma zi_reach acts : ZI (z_run body progs acts).
Proof.
  induction acts as [|a acts IH] using rev_ind; [|rewrite z_run_snoc; by apply zi_step].
  constructor; cbn; try done; intros [] **; done.
Qed.
End P.
(** ** C83 *)
(** A callback is entered only with the function registered for the topic at that moment. *)
Theorem C83_calls_registered : forall body progs acts l1 t f l2, z_log (z_run body progs acts) = l1 ++ EStart t f :: l2 -> registered t l1 = Some f.
Proof. intros body progs acts. apply (zi_start _ (zi_reach body progs acts)). Qed.
(** When a registration or unregistration takes effect no callback is being executed: after unregisterFromTopic has returned, the callback is neither running nor entered again before the next registration. *)
Theorem C83_unregister_waits : forall body progs acts l1 t l2, z_log (z_run body progs acts) = l1 ++ EUnregd t :: l2 -> running l1 = [].
Proof. intros body progs acts l1 t l2 H. by eapply (zi_change _ (zi_reach body progs acts)). Qed.
Lemma registered_none t l : registered t l = None \/ exists f, registered t l = Some f /\ ERegd t f ∈ l.
Proof.
  induction l as [|e l IH] using rev_ind; [by left|]. rewrite reg_snoc. destruct IH as [IH|(f & IH & Hin)].
  - destruct e; try case_decide; subst; try (by left). right. eexists. split; [done|]. apply elem_of_app. right. left.
  - destruct e; try case_decide; subst; try (by left); right; eexists; (split; [done|]); apply elem_of_app; try (by left). right. left.
Qed.
Lemma registered_app t l1 l2 : registered t (l1 ++ EUnregd t :: l2) = registered t l2.
Proof. induction l2 as [|e l2 IH] using rev_ind; [rewrite reg_snoc; by rewrite decide_True|]. rewrite app_comm_cons, app_assoc, !reg_snoc. by rewrite IH. Qed.
Theorem C83_unregister_final : forall body progs acts l1 t l2, z_log (z_run body progs acts) = l1 ++ EUnregd t :: l2 -> (forall f, ERegd t f ∉ l2) -> (forall f, EStart t f ∉ l2).
Proof.
  intros body progs acts l1 t l2 H Hn f Hin. apply elem_of_list_split in Hin as (m1 & m2 & ->). rewrite app_comm_cons, app_assoc in H. apply C83_calls_registered in H. rewrite registered_app in H.
  destruct (registered_none t m1) as [E|(g & _ & Hg)]; [congruence|]. apply (Hn g), elem_of_app. by left.
Qed.
(** At most one callback runs at a time. *)
Theorem C83_one_at_a_time : forall body progs acts, (length (running (z_log (z_run body progs acts))) <= 1)%nat.
Proof. intros body progs acts. rewrite (zi_run _ (zi_reach body progs acts)). destruct (z_poll _); cbn; lia. Qed.
(** A message's callback gets executed: with callbacks that do not touch the table, the polling thread is never stuck for ever; whoever holds the mutex can go on. *)
Theorem C83_no_deadlock : forall progs acts, let body := fun _ => [] in let s := z_run body progs acts in (z_poll s <> ZIdle \/ exists i o r, z_todo s !! i = Some (o :: r)) -> exists a, (a = ZPoll \/ exists i, a = ZThr i) /\ z_step body s a <> s.
Proof.
  intros progs acts body s H. pose proof (zi_reach body progs acts) as [_ O _ _ _].
  assert (Hb : match z_poll s with ZCall _ _ (_ :: _) => False | _ => True end).
  { unfold s. clear. induction acts as [|a acts IH] using rev_ind; [done|]. rewrite z_run_snoc. set (s := z_run body progs acts) in *. clearbody s. destruct a as [t| |i]; cbn [z_step].
    - destruct (z_poll s) eqn:E; cbn; rewrite ?E; done.
    - destruct (z_poll s) as [|t|t|t f [|o r]|] eqn:E; cbn; rewrite ?E; try done; [destruct (z_owner s); cbn; rewrite ?E; done|destruct (z_map s !! t); cbn; done].
    - destruct (z_todo s !! i) as [[|o r]|]; try done. destruct (z_owner s) as [[j|]|]; try done. by case_decide. }
  assert (Ho : forall j, z_owner s = Some (Some j) -> exists o r, z_todo s !! j = Some (o :: r)).
  { unfold s. clear. induction acts as [|a acts IH] using rev_ind; [done|]. intros j. rewrite z_run_snoc. set (s := z_run body progs acts) in *. clearbody s. destruct a as [t| |i]; cbn [z_step].
    - destruct (z_poll s); apply IH.
    - destruct (z_poll s) as [|t|t|t f [|o r]|]; cbn; try apply IH; try done.
      + destruct (z_owner s) eqn:E; [rewrite E; apply IH|done].
      + destruct (z_map s !! t); apply IH.
      + destruct (z_owner s) eqn:E; [rewrite E; apply IH|done].
    - destruct (z_todo s !! i) as [[|o r]|] eqn:Et; try apply IH. destruct (z_owner s) as [[k|]|] eqn:E.
      + case_decide; [done|]. rewrite E. apply IH.
      + by rewrite E.
      + cbn. intros [= <-]. eauto. }
  fold s in O. clearbody s.
  destruct (z_owner s) as [[j|]|] eqn:Ew.
  - destruct (Ho j eq_refl) as (o & r & Hj). exists (ZThr j). split; [right; eauto|]. cbn. rewrite Hj, Ew, decide_True by done. intros E. apply (f_equal z_owner) in E. cbn in E. congruence.
  - exists ZPoll. split; [by left|]. cbn. destruct (z_poll s) as [|t|t|t f [|o r]|] eqn:E; try done.
    + destruct (z_map s !! t); intros E'; apply (f_equal z_poll) in E'; cbn in E'; congruence.
    + intros E'. apply (f_equal z_poll) in E'. cbn in E'. congruence.
    + intros E'. apply (f_equal z_poll) in E'. cbn in E'. congruence.
  - destruct H as [H|(i & o & r & Hi)].
    + exists ZPoll. split; [by left|]. cbn. destruct (z_poll s) as [|t|t|t f [|o r]|] eqn:E; try done. rewrite Ew. intros E'. apply (f_equal z_poll) in E'. cbn in E'. congruence.
    + exists (ZThr i). split; [right; eauto|]. cbn. rewrite Hi, Ew. intros E'. apply (f_equal z_owner) in E'. cbn in E'. congruence.
Qed.
(** A message of a topic is given to the function registered for it when the polling thread looks it up, and to nobody if there is none. *)
Theorem C83_delivered : forall body progs acts t, let s := z_run body progs acts in z_poll s = ZFind t ->
  z_log (z_run body progs (acts ++ [ZPoll])) = z_log s ++ match registered t (z_log s) with Some f => [EStart t f] | None => [] end.
Proof.
  intros body progs acts t s H. unfold s in *. rewrite z_run_snoc. pose proof (zi_map _ (zi_reach body progs acts) t) as M. cbn [z_step]. rewrite H, <- M.
  destruct (z_map _ !! t); cbn; [done|by rewrite app_nil_r].
Qed.
(** ... and the lookup is reached: a message that finds the polling thread idle and the mutex free is looked up after one step. *)
Theorem C83_looked_up : forall body progs acts t, let s := z_run body progs acts in z_poll s = ZIdle -> z_owner s = None -> z_poll (z_run body progs (acts ++ [ZMsg t; ZPoll])) = ZFind t.
Proof. intros body progs acts t s H1 H2. unfold s, z_run in *. rewrite fold_left_app. cbn [fold_left z_step]. rewrite H1. cbn. by rewrite H2. Qed.
(** A callback that registers or unregisters a topic never returns, and from then on nobody's registration or unregistration does, in every schedule. *)
Theorem C103_callback_changes_table_refuted : forall body progs acts acts' t f o r, let s := z_run body progs acts in z_poll s = ZCall t f (o :: r) -> z_log (z_run body progs (acts ++ acts')) = z_log s.
Proof.
  intros body progs acts acts' t f o r s H. pose proof (zi_own _ (zi_reach body progs acts)) as O. fold s in O. rewrite H in O.
  unfold z_run. rewrite fold_left_app. change (fold_left (z_step body) acts (z_new progs)) with s. clearbody s.
  assert (G : fold_left (z_step body) acts' s = s); [|by rewrite G]. induction acts' as [|a acts' IH]; [done|]. cbn [fold_left].
  assert (E : z_step body s a = s). { destruct a as [u| |i]; cbn [z_step]; rewrite ?H, ?O; try done. by destruct (z_todo s !! i) as [[|]|]. }
  by rewrite E.
Qed.
(** Concrete cases. *)
Example C83_case : let s := z_run (fun _ => []) [[ZReg 1 7; ZUnreg 1]; [ZReg 2 8]] [ZThr 0; ZThr 1; ZThr 0; ZMsg 1; ZPoll; ZThr 0; ZPoll; ZPoll; ZThr 1; ZPoll; ZThr 0; ZThr 0; ZMsg 1; ZPoll; ZPoll; ZPoll; ZThr 1; ZThr 1] in
  z_log s = [ERegd 1 7; EStart 1 7; EEnd 1 7; EUnregd 1; ERegd 2 8].
Proof. by vm_compute. Qed.
Example C83_deadlock_case : let s := z_run (fun f => if decide (f = 7) then [ZUnreg 1] else []) [[ZReg 1 7]; [ZReg 2 8]] [ZThr 0; ZThr 0; ZMsg 1; ZPoll; ZPoll; ZPoll] in z_poll s = ZCall 1 7 [ZUnreg 1] /\ z_todo s = [[]; [ZReg 2 8]].
Proof. by vm_compute. Qed.
Print Assumptions C83_calls_registered.
Print Assumptions C83_unregister_waits.
Print Assumptions C83_unregister_final.
Print Assumptions C83_one_at_a_time.
Print Assumptions C83_no_deadlock.
Print Assumptions C83_delivered.
Print Assumptions C83_looked_up.
Print Assumptions C103_callback_changes_table_refuted.
