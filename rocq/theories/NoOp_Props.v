(** * C80: the no-op processor. *)
From stdpp Require Import prelude.
From Coq Require Import ZArith Lia ZifyBool.
From Verif Require Import Base NoOp_Model.
Local Open Scope Z_scope.
Lemma n_run_snoc acts a : n_run (acts ++ [a]) = n_step (n_run acts) a.
Proof. unfold n_run. by rewrite fold_left_app. Qed.
Lemma n_run_app a b : n_run (a ++ b) = fold_left n_step b (n_run a).
Proof. unfold n_run. by rewrite fold_left_app. Qed.
Definition n_in_loop (pc : npc) : bool := match pc with NCheck | NRead | NSet _ | NAlerted => true | _ => false end.
Record NI (s : nst) : Prop := {
  ni_le : n_seq s <= n_cursor s; ni_ge : -1 <= n_seq s;
  ni_next : match n_pc s with NCas | NClear | NThrew => n_next s = 0 /\ n_seq s = -1 | _ => n_next s = n_seq s + 1 end;
  ni_set : match n_pc s with NSet avail => n_next s <= avail <= n_cursor s | _ => True end
}.
Lemma ni_step s a : NI s -> NI (n_step s a).
Proof.
  intros [A B C D]. destruct a; cbn [n_step].
  - destruct (n_pc s) eqn:E; try (by constructor; rewrite ?E).
    + destruct (n_running s); constructor; cbn; done.
    + constructor; cbn; destruct (n_alerted s); done.
    + constructor; cbn; try done; destruct (Z.ltb_spec (n_cursor s) (n_next s)); try done; lia.
    + constructor; cbn; try done; lia.
    + constructor; cbn; destruct (n_running s); done.
  - constructor; cbn; [lia|done| |]; destruct (n_pc s); try done; lia.
  - by constructor.
  - by constructor.
Qed.
Lemma ni_run acts : NI (n_run acts).
Proof. induction acts as [|a acts IH] using rev_ind; [constructor; cbn; try done; lia|]. rewrite n_run_snoc. by apply ni_step. Qed.
(** ** C80 *)
(** The publisher's cursor counts the publications, whatever the processor does. *)
Definition publications (acts : list nact) : Z := Z.of_nat (length (List.filter (fun a => match a with NPublish => true | _ => false end) acts)).
Theorem C80_cursor acts : n_cursor (n_run acts) = publications acts - 1.
Proof.
  induction acts as [|a acts IH] using rev_ind; [done|]. rewrite n_run_snoc. unfold publications in *. rewrite List.filter_app, app_length. destruct a; cbn [n_step]; cbn; try lia.
  destruct (n_pc (n_run acts)); try destruct (n_running _); cbn; lia.
Qed.
(** What holds: its sequence never passes the publisher and never goes back, ... *)
Theorem C80_sequence acts : -1 <= n_seq (n_run acts) <= publications acts - 1.
Proof. rewrite <- C80_cursor. destruct (ni_run acts). lia. Qed.
Theorem C80_sequence_mono acts acts' : n_seq (n_run acts) <= n_seq (n_run (acts ++ acts')).
Proof.
  induction acts' as [|a acts' IH] using rev_ind; [by rewrite app_nil_r|]. rewrite app_assoc, n_run_snoc. etrans; [exact IH|]. destruct (ni_run (acts ++ acts')) as [A B C D].
  destruct a; cbn [n_step]; cbn; try done. destruct (n_pc (n_run (acts ++ acts'))); try destruct (n_running _); cbn; try done; lia.
Qed.
(** ... and it follows the publisher: three uninterrupted steps after a test of the alert, its sequence is the publisher's. *)
Theorem C80_follows acts : n_pc (n_run acts) = NCheck -> n_alerted (n_run acts) = false -> n_seq (n_run (acts ++ [NRun; NRun; NRun])) = publications acts - 1.
Proof.
  rewrite <- C80_cursor. intros E A. pose proof (ni_run acts) as [H1 H2 H3 H4]. rewrite n_run_app. set (s := n_run acts) in *. rewrite E in H3. destruct s as [r al c q nx pc]. cbn in *. subst. cbn.
  destruct (Z.ltb_spec c (q + 1)); cbn; lia.
Qed.
(** ... whatever alerts there were before run(): it clears them. *)
Theorem C80_run_forgets_alerts acts : n_pc (n_run acts) = NClear -> n_seq (n_run (acts ++ [NRun; NRun; NRun; NRun])) = publications acts - 1.
Proof.
  rewrite <- C80_cursor. intros E. pose proof (ni_run acts) as [H1 H2 H3 H4]. rewrite n_run_app. set (s := n_run acts) in *. rewrite E in H3. destruct s as [r al c q nx pc]. cbn in *. subst. cbn.
  destruct (Z.ltb_spec c (q + 1)); cbn; lia.
Qed.
(** What a user relies on: after halt(), run() returns. It is false for every schedule: as long as nobody else alerts the barrier, once run() is in its loop no halt() ever ends it ... *)
Theorem C101_halt_refuted acts acts' : NAlert ∉ acts ++ acts' -> n_in_loop (n_pc (n_run acts)) = true -> n_in_loop (n_pc (n_run (acts ++ acts'))) = true.
Proof.
  intros Hn Hl.
  assert (G : forall acts, NAlert ∉ acts -> n_alerted (n_run acts) = false /\ n_pc (n_run acts) <> NAlerted).
  { clear. intros acts. induction acts as [|a acts IH] using rev_ind; intros H; [done|]. destruct IH as [I1 I2]; [intros Hx; apply H, elem_of_app; by left|]. rewrite n_run_snoc. set (s := n_run acts) in *.
    destruct a; cbn [n_step]; try done.
    - destruct (n_pc s) eqn:E; repeat match goal with |- context [if ?b then _ else _] => destruct b eqn:? end; cbn; rewrite ?I1, ?E; try done; congruence.
    - exfalso. apply H, elem_of_app. right. left. }
  revert Hn. induction acts' as [|a acts' IH] using rev_ind; intros Hn; [by rewrite app_nil_r|]. rewrite app_assoc in *. specialize (IH ltac:(intros Hx; apply Hn, elem_of_app; by left)).
  destruct (G (acts ++ acts')) as [G1 G2]; [intros Hx; apply Hn, elem_of_app; by left|]. rewrite n_run_snoc. set (s := n_run (acts ++ acts')) in *.
  destruct a; cbn [n_step]; try done. destruct (n_pc s) eqn:E; try done; cbn; rewrite ?G1; try done. by destruct (_ <? _).
Qed.
(** ... and if halt() comes first, run() is not prevented from starting. *)
Theorem C101_halt_before_refuted n : n_in_loop (n_pc (n_run (repeat NHalt n ++ [NRun; NRun]))) = true.
Proof. rewrite n_run_app. assert (E : n_run (repeat NHalt n) = n_new) by (unfold n_run; induction n as [|n IH]; [done|]; cbn [repeat fold_left]; exact IH). by rewrite E. Qed.
(** A halt() followed by an alert of the barrier does end it: five more steps of its thread, whatever the others do meanwhile (nobody starts it again, that is, running_ stays false). *)
Definition is_run (a : nact) : bool := match a with NRun => true | _ => false end.
Definition n_rank (pc : npc) : nat := match pc with NSet _ => 4 | NRead => 5 | NCheck => 3 | NAlerted => 2 | NStop => 1 | _ => 0 end.
Theorem C80_alerted_stops acts acts' : n_in_loop (n_pc (n_run acts)) = true -> n_running (n_run acts) = false -> n_alerted (n_run acts) = true -> (5 <= length (List.filter is_run acts'))%nat ->
  n_pc (n_run (acts ++ acts')) = NDone.
Proof.
  intros Hl Hr Ha Hlen. rewrite n_run_app. set (s := n_run acts) in *. clearbody s.
  assert (G : forall s, n_running s = false -> n_alerted s = true -> (n_in_loop (n_pc s) = true \/ n_pc s = NStop \/ n_pc s = NDone) -> (n_rank (n_pc s) <= length (List.filter is_run acts'))%nat -> n_pc (fold_left n_step acts' s) = NDone).
  { clear. induction acts' as [|a acts' IH]; intros s Hr Ha Hp Hk; [cbn in *; destruct Hp as [Hp|[Hp|Hp]]; [|rewrite Hp in Hk; cbn in Hk; lia|done]; destruct (n_pc s); cbn in *; try done; lia|].
    cbn [fold_left]. destruct a; cbn [n_step List.filter is_run length] in *; try (apply IH; cbn; done).
    destruct (n_pc s) eqn:E; cbn in Hk; rewrite ?Ha, ?Hr; try (by destruct Hp as [Hp|[Hp|Hp]]); apply IH; cbn; rewrite ?E; auto; try lia; try (destruct (_ <? _); cbn; auto; lia). cbn. lia. }
  apply G; auto. destruct (n_pc s); cbn in *; lia.
Qed.
(** Concrete cases. *)
Example C80_case : let acts := [NRun; NRun; NPublish; NPublish; NRun; NRun; NRun] in n_seq (n_run acts) = 1 /\ n_in_loop (n_pc (n_run acts)) = true /\ n_pc (n_run (acts ++ [NHalt; NAlert; NRun; NRun; NPublish; NRun; NRun; NRun])) = NDone.
Proof. by vm_compute. Qed.
Print Assumptions C80_sequence.
Print Assumptions C80_sequence_mono.
Print Assumptions C80_follows.
Print Assumptions C80_run_forgets_alerts.
Print Assumptions C101_halt_refuted.
Print Assumptions C101_halt_before_refuted.
Print Assumptions C80_alerted_stops.
Print Assumptions C80_cursor.
(** is_running() is true from the start of run() on, as long as nobody halts the processor. *)
Theorem C80_running acts : NHalt ∉ acts -> n_in_loop (n_pc (n_run acts)) = true -> n_running (n_run acts) = true.
Proof.
  intros Hn. assert (G : match n_pc (n_run acts) with NCas => True | NThrew | NDone => True | _ => n_running (n_run acts) = true end).
  { induction acts as [|a acts IH] using rev_ind; [done|]. apply not_elem_of_app in Hn as [Hn Ha]. specialize (IH Hn). rewrite n_run_snoc. destruct (n_run acts) as [r al c q nx pc]. cbn in IH.
    destruct a; cbn [n_step n_pc n_running n_alerted n_cursor n_seq n_next]; try (by destruct pc); [|exfalso; apply Ha; left].
    destruct pc; cbn in *; subst; try done; try destruct r; try destruct al; try done; destruct (_ <? _); done. }
  destruct (n_pc (n_run acts)); cbn; done.
Qed.
Example C80_running_case : NHalt ∉ [NRun; NRun; NPublish; NRun] /\ n_in_loop (n_pc (n_run [NRun; NRun; NPublish; NRun])) = true.
Proof. split; [|done]. intros H. repeat (apply elem_of_cons in H as [H|H]; [done|]). by apply elem_of_nil in H. Qed.
Print Assumptions C80_running.
