(** * C78: consumers that end. *)
From stdpp Require Import prelude.
From Coq Require Import ZArith Lia ZifyBool.
From Verif Require Import Base Gating_Model.
Local Open Scope Z_scope.

Record GI (s : gst) : Prop := {
  gi_in : forall i, i ∈ g_gating s -> is_Some (g_cons s !! i) /\ g_cached s <= seq_of s i;
  gi_le : g_cached s <= g_next s;
  gi_seq : forall i q st, g_cons s !! i = Some (q, st) -> q <= g_next s;
  gi_acc : forall q, GAccepted q ∈ g_log s -> q <= g_next s
}.
Lemma g_min_le s i : i ∈ g_gating s -> g_min s <= seq_of s i.
Proof. unfold g_min. intros H. induction H as [l|x y l H IH]; cbn; lia. Qed.
Lemma g_min_next s : g_min s <= g_next s.
Proof. unfold g_min. induction (g_gating s); cbn; lia. Qed.
Lemma g_min_ge s m : m <= g_next s -> (forall i, i ∈ g_gating s -> m <= seq_of s i) -> m <= g_min s.
Proof. unfold g_min. intros Hn H. induction (g_gating s) as [|x l IH]; cbn; [done|]. assert (m <= seq_of s x) by (apply H; left). assert (m <= foldr (fun i m => Z.min (seq_of s i) m) (g_next s) l) by (apply IH; intros i Hi; apply H; by right). lia. Qed.
Lemma seq_upd l i q st j : is_Some (l !! i) -> match (<[i := (q, st)]> l : list (Z * cstat)) !! j with Some (x, _) => x | None => 0 end = if decide (j = i) then q else match l !! j with Some (x, _) => x | None => 0 end.
Proof. intros H. case_decide as E; [subst j; rewrite list_lookup_insert by (by apply lookup_lt_is_Some); done|by rewrite list_lookup_insert_ne]. Qed.
Lemma gi_step size s a : GI s -> GI (g_step size s a).
Proof.
  intros I. pose proof I as [I1 I2 I3 I4].
  assert (Hupd : forall i q q0 st st0, g_cons s !! i = Some (q0, st0) -> q0 <= q <= g_next s -> GI (Gst (g_next s) (g_cached s) (g_gating s) (<[i := (q, st)]> (g_cons s)) (g_touched s) (g_log s))).
  { intros i q q0 st st0 Hi Hq. constructor; cbn; try done.
    - intros j Hj. destruct (I1 j Hj) as [A B]. split; [apply lookup_lt_is_Some; rewrite insert_length; by apply lookup_lt_is_Some|]. unfold seq_of in *. cbn. rewrite seq_upd by (by rewrite Hi). case_decide as E; [|done]. subst j. rewrite Hi in B. lia.
    - intros j q1 st1 H. destruct (decide (j = i)) as [->|Hne]; [rewrite list_lookup_insert in H by (by eapply lookup_lt_Some); injection H as <- _; lia|]. rewrite list_lookup_insert_ne in H by done. by eapply I3. }
  destruct a as [|i q|i|i|i|]; cbn [g_step].
  - constructor; cbn; try done.
    + intros i [Hi|Hi]%elem_of_app.
      * destruct (I1 i Hi) as [[x A] B]. unfold seq_of in *. cbn. rewrite lookup_app_l by (by eapply lookup_lt_Some). eauto.
      * apply elem_of_list_singleton in Hi as ->. unfold seq_of. cbn. rewrite list_lookup_middle by done. split; [done|]. done.
    + intros i q st H. apply lookup_app_Some in H as [H|[_ H]]; [by eapply I3|]. apply list_lookup_singleton_Some in H as [_ [= <- <-]]. lia.
  - destruct (g_cons s !! i) as [[q0 []]|] eqn:E; try done. case_decide as Hq; [|done]. eapply Hupd; [done|lia].
  - destruct (g_cons s !! i) as [[q0 []]|] eqn:E; try done. eapply Hupd; [done|]. split; [lia|]. by eapply I3.
  - destruct (g_cons s !! i) as [[q0 []]|] eqn:E; try done. eapply Hupd; [done|]. split; [lia|]. by eapply I3.
  - constructor; cbn; try done. intros j Hj. apply elem_of_list_In, List.filter_In in Hj as [Hj _]. apply I1. by apply elem_of_list_In.
  - cbn zeta. set (wrap := g_next s + 1 - size). set (scan := (g_cached s <? wrap) || (g_next s <? g_cached s)). set (cached := if scan then g_min s else g_cached s).
    assert (C1 : cached <= g_next s) by (unfold cached; destruct scan; [apply g_min_next|done]).
    assert (C2 : forall i, i ∈ g_gating s -> cached <= seq_of s i) by (intros i Hi; unfold cached; destruct scan; [by apply g_min_le|by apply I1]).
    destruct (scan && (cached <? wrap)); constructor; cbn; try done.
    + intros i Hi. split; [by apply I1|]. by apply C2.
    + intros q [H|H]%elem_of_app; [by apply I4|]. apply elem_of_list_singleton in H. done.
    + intros i Hi. split; [by apply I1|]. by apply C2.
    + lia.
    + intros i q st H. specialize (I3 i q st H). lia.
    + intros q [H|H]%elem_of_app; [specialize (I4 q H); lia|]. apply elem_of_list_singleton in H as [= ->]. lia.
Qed.
Lemma gi_run size acts : GI (g_run size acts).
Proof. unfold g_run. assert (H : GI g_new) by (constructor; cbn; try done; intros; by apply elem_of_nil in H || done). revert H. generalize g_new. induction acts as [|a acts IH]; intros s H; [done|]. apply IH. by apply gi_step. Qed.

(** ** C78 *)
(** What a user relies on: a consumer that has ended, or is gone, does not hold up the others. It is false, for every ring size and every history: once a registered consumer i has ended
    having consumed up to q, no publication beyond q + size is ever accepted again (as long as nobody removes its sequence, which no code here does) ... *)
Theorem C78_ended_consumer_starves_all size acts acts' i q st : 0 < size ->
  g_cons (g_run size acts) !! i = Some (q, st) -> st <> CLive -> i ∈ g_gating (g_run size acts) -> GRemove i ∉ acts' -> (forall x, GAccepted x ∈ g_log (g_run size acts) -> x <= q + size) ->
  forall x, GAccepted x ∈ g_log (g_run size (acts ++ acts')) -> x <= q + size.
Proof.
  intros Hs Hi Hst Hg Hr H0. unfold g_run in *. rewrite fold_left_app. pose proof (gi_run size acts) as I. unfold g_run in I. set (s := fold_left (g_step size) acts g_new) in *. clearbody s. revert s st I Hi Hst Hg H0.
  induction acts' as [|a acts' IH]; intros s st I Hi Hst Hg H0; [done|]. cbn [fold_left].
  assert (Hr' : GRemove i ∉ acts') by (intros H; apply Hr; by right).
  assert (exists st', g_cons (g_step size s a) !! i = Some (q, st') /\ st' <> CLive) as (st' & G1 & G2).
  { destruct a as [|j q'|j|j|j|]; cbn [g_step]; cbn [g_cons].
    - exists st. split; [|done]. rewrite lookup_app_l; [done|]. by eapply lookup_lt_Some.
    - destruct (g_cons s !! j) as [[q0 []]|] eqn:E; try by eauto. case_decide; [|by eauto]. cbn. destruct (decide (j = i)) as [->|Hne]; [rewrite Hi in E; injection E as <- ->; done|]. rewrite list_lookup_insert_ne by done. eauto.
    - destruct (g_cons s !! j) as [[q0 []]|] eqn:E; try by eauto. cbn. destruct (decide (j = i)) as [->|Hne]; [rewrite Hi in E; injection E as <- ->; done|]. rewrite list_lookup_insert_ne by done. eauto.
    - destruct (g_cons s !! j) as [[q0 []]|] eqn:E; try by eauto. cbn. destruct (decide (j = i)) as [->|Hne]; [rewrite Hi in E; injection E as <- ->; rewrite list_lookup_insert by (by eapply lookup_lt_Some); by exists CFreed|]. rewrite list_lookup_insert_ne by done. eauto.
    - eauto.
    - cbn zeta. destruct (_ && _); cbn; eauto. }
  assert (G3 : i ∈ g_gating (g_step size s a)).
  { destruct a as [|j q'|j|j|j|]; cbn [g_step]; cbn [g_gating]; try done.
    - apply elem_of_app. by left.
    - destruct (g_cons s !! j) as [[q0 []]|]; try done. by case_decide.
    - by destruct (g_cons s !! j) as [[q0 []]|].
    - by destruct (g_cons s !! j) as [[q0 []]|].
    - apply elem_of_list_In, List.filter_In. split; [by apply elem_of_list_In|]. assert (j <> i) by (intros ->; apply Hr; left). apply negb_true_iff, Nat.eqb_neq. congruence.
    - cbn zeta. by destruct (_ && _). }
  eapply (IH Hr' (g_step size s a) st'); [by apply gi_step|done|done|done|].
  destruct a as [|j q'|j|j|j|]; cbn [g_step]; cbn [g_log]; try done.
  + destruct (g_cons s !! j) as [[q0 []]|]; try done. by case_decide.
  + by destruct (g_cons s !! j) as [[q0 []]|].
  + by destruct (g_cons s !! j) as [[q0 []]|].
  + cbn zeta. pose proof (g_min_le s i Hg) as Hm. destruct (gi_in _ I i Hg) as [_ Hc]. unfold seq_of in Hm, Hc. rewrite Hi in Hm, Hc.
    destruct ((g_cached s <? g_next s + 1 - size) || (g_next s <? g_cached s)) eqn:E1; cbn [andb].
    * destruct (g_min s <? g_next s + 1 - size) eqn:E2; cbn [g_log]; intros x [H|H]%elem_of_app; [by apply H0|by apply elem_of_list_singleton in H|by apply H0|]. apply elem_of_list_singleton in H as [= ->]. lia.
    * cbn [g_log]. intros x [H|H]%elem_of_app; [by apply H0|]. apply elem_of_list_singleton in H as [= ->]. lia.
Qed.
(** ... so that all later publications are refused ... *)
Theorem C78_then_all_refused size acts acts' i q st : 0 < size ->
  g_cons (g_run size acts) !! i = Some (q, st) -> st <> CLive -> i ∈ g_gating (g_run size acts) -> GRemove i ∉ acts' -> g_next (g_run size acts) = q + size ->
  exists l, g_log (g_run size (acts ++ acts')) = g_log (g_run size acts) ++ l /\ Forall (fun e => e = GRefused) l.
Proof.
  intros Hs Hi Hst Hg Hr Hn. induction acts' as [|a acts' IH] using rev_ind; [exists []; by rewrite !app_nil_r|].
  destruct IH as (l & E & Hl); [intros H; apply Hr; apply elem_of_app; by left|].
  pose proof (C78_ended_consumer_starves_all size acts (acts' ++ [a]) i q st Hs Hi Hst Hg Hr) as Hx.
  specialize (Hx ltac:(intros y Hy; pose proof (gi_acc _ (gi_run size acts) y Hy); lia)).
  assert (Hmono : g_next (g_run size acts) <= g_next (g_run size (acts ++ acts'))).
  { unfold g_run. rewrite fold_left_app. generalize (fold_left (g_step size) acts g_new). clear. induction acts' as [|b acts' IH]; intros s; [done|]. cbn [fold_left]. etrans; [|apply IH].
    destruct b as [|j q'|j|j|j|]; cbn [g_step]; cbn [g_next]; try lia; try (destruct (g_cons s !! j) as [[q0 []]|]; cbn [g_next]; try lia; try case_decide; cbn [g_next]; lia). cbn zeta. destruct (_ && _); cbn [g_next]; lia. }
  rewrite (app_assoc acts acts' [a]) in *. unfold g_run in *. rewrite (fold_left_app _ (acts ++ acts') [a]) in *. set (s := fold_left (g_step size) (acts ++ acts') g_new) in *. cbn [fold_left] in *.
  assert (D : g_log (g_step size s a) = g_log s \/ g_log (g_step size s a) = g_log s ++ [GRefused] \/ g_log (g_step size s a) = g_log s ++ [GAccepted (g_next s + 1)]).
  { destruct a as [|j q'|j|j|j|]; cbn [g_step]; cbn [g_log]; try (by left); try (destruct (g_cons s !! j) as [[q0 []]|]; try (by left); try case_decide; by left). cbn zeta. destruct (_ && _); cbn [g_log]; auto. }
  destruct D as [D|[D|D]]; rewrite D in *.
  - by exists l.
  - exists (l ++ [GRefused]). rewrite E, app_assoc. split; [done|]. apply Forall_app. split; [done|]. by apply Forall_singleton.
  - exfalso. assert (g_next s + 1 <= q + size); [|lia]. apply Hx, elem_of_app. right. by apply elem_of_list_singleton.
Qed.
(** ... and if the consumer has been destroyed, each of them reads its freed memory. *)
Theorem C78_freed_memory_read size acts i q : 0 < size -> g_cons (g_run size acts) !! i = Some (q, CFreed) -> i ∈ g_gating (g_run size acts) -> q + size <= g_next (g_run size acts) ->
  i ∈ g_touched (g_run size (acts ++ [GPublish])).
Proof.
  intros Hs Hi Hg Hn. unfold g_run in *. rewrite fold_left_app. pose proof (gi_run size acts) as I. unfold g_run in I. set (s := fold_left (g_step size) acts g_new) in *. cbn [fold_left g_step]. cbn zeta.
  destruct (gi_in _ I i Hg) as [_ Hc]. unfold seq_of in Hc. rewrite Hi in Hc. replace ((g_cached s <? g_next s + 1 - size) || (g_next s <? g_cached s)) with true by lia.
  assert (i ∈ g_touched s ++ List.filter (is_freed s) (g_gating s)). { apply elem_of_app. right. apply elem_of_list_In, List.filter_In. split; [by apply elem_of_list_In|]. unfold is_freed, stat_of. rewrite Hi. by apply bool_decide_eq_true. }
  by destruct (true && _).
Qed.
Theorem C78_refuted : exists acts i q, g_cons (g_run 4 acts) !! i = Some (q, CFreed) /\ i ∈ g_gating (g_run 4 acts) /\ i ∈ g_touched (g_run 4 acts) /\ GRefused ∈ g_log (g_run 4 acts) /\ stat_of (g_run 4 acts) 1 = Some CLive /\ seq_of (g_run 4 acts) 1 = g_next (g_run 4 acts).
Proof.
  exists [GAdd; GAdd; GPublish; GConsume 0 0; GEnd 0; GFree 0; GPublish; GPublish; GPublish; GConsume 1 3; GPublish; GConsume 1 4; GPublish], 0%nat, 0.
  split; [by vm_compute|]. split; [apply (bool_decide_unpack _); by vm_compute|]. split; [apply (bool_decide_unpack _); by vm_compute|]. split; [apply (bool_decide_unpack _); by vm_compute|]. split; by vm_compute.
Qed.
(** What holds. Nothing freed is read if each consumer is out of the ring's list when it is destroyed: *)
Theorem C78_removed_first size acts : (forall acts1 acts2 i, acts = acts1 ++ GFree i :: acts2 -> i ∉ g_gating (g_run size acts1)) -> g_touched (g_run size acts) = [].
Proof.
  intros Hd. assert (G : g_touched (g_run size acts) = [] /\ forall i, i ∈ g_gating (g_run size acts) -> stat_of (g_run size acts) i <> Some CFreed); [|apply G].
  induction acts as [|a acts IH] using rev_ind; [split; [done|intros i Hi; by apply elem_of_nil in Hi]|].
  destruct IH as [T F]. { intros acts1 acts2 i E. eapply (Hd acts1 (acts2 ++ [a])). rewrite E, <-app_assoc. done. }
  assert (Hf : forall i, a = GFree i -> i ∉ g_gating (g_run size acts)) by (intros i ->; by apply (Hd acts [])).
  clear Hd. pose proof (gi_run size acts) as I. unfold g_run in *. rewrite fold_left_app. set (s := fold_left (g_step size) acts g_new) in *. clearbody s. cbn [fold_left].
  assert (Hupd : forall j x, (j ∈ g_gating s -> snd x <> CFreed) -> is_Some (g_cons s !! j) -> g_touched s = [] /\ forall i, i ∈ g_gating s -> snd <$> (<[j := x]> (g_cons s) : list (Z * cstat)) !! i <> Some CFreed).
  { intros j x Hx Hj. split; [done|]. intros i Hi. destruct (decide (j = i)) as [->|Hne]; [rewrite list_lookup_insert by (by apply lookup_lt_is_Some); cbn; intros [= E]; by apply Hx|]. rewrite list_lookup_insert_ne by done. by apply F. }
  destruct a as [|j q'|j|j|j|]; cbn [g_step].
  - cbn [g_touched g_gating]. split; [done|]. intros i [Hi|Hi]%elem_of_app.
    + unfold stat_of. cbn [g_cons]. rewrite lookup_app_l; [by apply F|]. destruct (gi_in _ I i Hi) as [[x Hx] _]. by eapply lookup_lt_Some.
    + apply elem_of_list_singleton in Hi as ->. unfold stat_of. cbn [g_cons]. by rewrite list_lookup_middle.
  - destruct (g_cons s !! j) as [[q0 []]|] eqn:Ej; try done. case_decide; [|done]. apply (Hupd j); [done|by rewrite Ej].
  - destruct (g_cons s !! j) as [[q0 []]|] eqn:Ej; try done. apply (Hupd j); [done|by rewrite Ej].
  - destruct (g_cons s !! j) as [[q0 []]|] eqn:Ej; try done. apply (Hupd j); [|by rewrite Ej]. intros H. by destruct (Hf j eq_refl).
  - split; [done|]. intros i Hi. apply elem_of_list_In, List.filter_In in Hi as [Hi _]. apply F. by apply elem_of_list_In.
  - cbn zeta.
    assert (Hn : List.filter (is_freed s) (g_gating s) = []).
    { clear -F. induction (g_gating s) as [|x l IH]; [done|]. cbn. unfold is_freed at 1. rewrite bool_decide_eq_false_2 by (apply F; left). apply IH. intros i Hi. apply F. by right. }
    rewrite Hn, app_nil_r. destruct (_ && _); cbn [g_touched g_gating]; split; try done; by destruct (_ || _).
Qed.
(** And if all the consumers in the list have caught up with the publisher, so many publications are accepted in a row as the ring has slots. *)
Fixpoint accepted_from (q : Z) (n : nat) : list gev := match n with O => [] | S n => GAccepted (q + 1) :: accepted_from (q + 1) n end.
Theorem C78_room size acts n : 0 < size -> (forall i, i ∈ g_gating (g_run size acts) -> seq_of (g_run size acts) i = g_next (g_run size acts)) -> Z.of_nat n <= size ->
  g_log (g_run size (acts ++ repeat GPublish n)) = g_log (g_run size acts) ++ accepted_from (g_next (g_run size acts)) n.
Proof.
  intros Hs Hc Hn. unfold g_run in *. rewrite fold_left_app. pose proof (gi_run size acts) as I. unfold g_run in I. set (s := fold_left (g_step size) acts g_new) in *. clearbody s.
  set (q := g_next s) in *. assert (Hb : q <= g_next s) by lia. assert (Hb2 : g_next s + Z.of_nat n <= q + size) by lia. assert (Hc' : forall i, i ∈ g_gating s -> q <= seq_of s i) by (intros i Hi; rewrite (Hc i Hi); lia).
  change (accepted_from q n) with (accepted_from (g_next s) n). clear Hc Hn. clearbody q. revert s I Hb Hb2 Hc'. induction n as [|n IH]; intros s I Hb Hb2 Hc'; cbn [repeat fold_left accepted_from]; [by rewrite app_nil_r|].
  pose proof (gi_step size s GPublish I) as I'. assert (Hm : q <= g_min s) by (by apply g_min_ge).
  assert (E : g_step size s GPublish = Gst (g_next s + 1) (g_cached (g_step size s GPublish)) (g_gating s) (g_cons s) (g_touched (g_step size s GPublish)) (g_log s ++ [GAccepted (g_next s + 1)])).
  { cbn [g_step]. cbn zeta. destruct ((g_cached s <? g_next s + 1 - size) || (g_next s <? g_cached s)) eqn:E1; cbn [andb]; [|done]. replace (g_min s <? g_next s + 1 - size) with false by lia. done. }
  rewrite IH; [|done|..].
  - rewrite E. cbn [g_log g_next]. by rewrite <-app_assoc.
  - rewrite E. cbn [g_next]. lia.
  - rewrite E. cbn [g_next]. lia.
  - rewrite E. cbn [g_gating]. intros i Hi. unfold seq_of. cbn [g_cons]. by apply Hc'.
Qed.
(** A concrete case: a consumer that ends, is removed and destroyed leaves the ring to the other. *)
Definition g_good : list gact := [GAdd; GAdd; GPublish; GConsume 0 0; GEnd 0; GRemove 0; GFree 0; GPublish; GPublish; GPublish; GPublish; GPublish; GConsume 1 3].
Example C78_case : g_log (g_run 4 g_good) = [GAccepted 0; GAccepted 1; GAccepted 2; GAccepted 3; GRefused; GRefused] /\ g_touched (g_run 4 g_good) = [] /\ stat_of (g_run 4 g_good) 0 = Some CFreed /\ seq_of (g_run 4 g_good) 1 = g_next (g_run 4 g_good).
Proof. split_and!; vm_compute; reflexivity. Qed.
Print Assumptions C78_ended_consumer_starves_all.
Print Assumptions C78_then_all_refused.
Print Assumptions C78_freed_memory_read.
Print Assumptions C78_refuted.
Print Assumptions C78_removed_first.
Print Assumptions C78_room.
