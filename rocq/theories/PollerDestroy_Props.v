(** * C185: the destructor of a poller terminates. *)
From stdpp Require Import prelude.
From Verif Require Import Base Poller_Model Poller_Proofs Poller_Props.

(** ** Specification *)
(** The destructor of the poller is the next thing the only calling thread does, or is in progress. *)
Definition destroying (s : pst) : Prop := exists pc, p_callers s = [Caller pc [Destroy]].
(** It has returned. *)
Definition destroyed (s : pst) : Prop := (0, Destroy, Returned) ∈ p_log s.

(** ** Proofs *)
(** The state without the pending destruction. *)
Definition cut (s : pst) : pst :=
  Pst (p_started s) (p_running s) (p_thread s) (p_alive s) ((fun c => Caller (pc_pc c) (removelast (pc_ops c))) <$> p_callers s) (p_term s) (p_ub s) (p_log s).
Definition BInv (s : pst) : Prop := exists pc ops, p_callers s = [Caller pc (ops ++ [Destroy])] /\ (ops = [] -> pc = CIdle) /\ OneInv (cut s).
Definition DInv (s : pst) : Prop :=
  p_term s = false /\ p_alive s = false /\ exists pc, p_callers s = [Caller pc [Destroy]] /\ p_thread s <> TBegin /\
  match pc with CDestroyClear => True | CDestroyJoin => p_running s = false | _ => False end.
Definition EInv (s : pst) : Prop := destroyed s.

Lemma cut_callers s pc ops : p_callers s = [Caller pc (ops ++ [Destroy])] -> p_callers (cut s) = [Caller pc ops].
Proof. intros E. unfold cut. cbn. rewrite E. cbn. by rewrite removelast_last. Qed.
Lemma cut_eq s pc ops : p_callers s = [Caller pc (ops ++ [Destroy])] ->
  cut s = Pst (p_started s) (p_running s) (p_thread s) (p_alive s) [Caller pc ops] (p_term s) (p_ub s) (p_log s).
Proof. intros E. unfold cut. rewrite E. cbn. by rewrite removelast_last. Qed.
(** As long as another operation comes first, the pending destruction changes nothing. *)
Lemma cut_step s a pc ops : p_callers s = [Caller pc (ops ++ [Destroy])] -> ops <> [] \/ (forall c t, a <> PCall c t) \/ (exists c t, a = PCall (S c) t) ->
  cut (pstep s a) = pstep (cut s) a /\ exists pc' ops', p_callers (pstep s a) = [Caller pc' (ops' ++ [Destroy])].
Proof.
  intros Hc Ho. rewrite (cut_eq s pc ops Hc). unfold pstep. cbn [p_term p_ub p_callers p_started p_running p_thread p_alive p_log].
  destruct (p_term s || p_ub s) eqn:Etu; [split; [by apply cut_eq|eauto]|]. apply orb_false_iff in Etu as [Et Eu].
  destruct a as [[|c] t|throws].
  - destruct ops as [|o ops]; [destruct Ho as [Ho|[Ho|(c & t' & Ho)]]; [done|by destruct (Ho 0 t)|done]|]. rewrite Hc. cbn [lookup list_lookup app insert list_insert]. cbv zeta.
    destruct pc, o; try destruct (p_started s) eqn:E1; try destruct (p_thread s) eqn:E2; try destruct (p_running s) eqn:E3; try destruct t;
      (split; [try (erewrite cut_eq by (first [exact Hc|cbn [p_callers]; rewrite ?app_comm_cons; reflexivity]); cbn; rewrite ?Et, ?Eu, ?E1, ?E2, ?E3; try done)|cbn [p_callers]; rewrite ?Hc; first [eexists _, ops; reflexivity|eexists _, (_ :: ops); reflexivity]]).
  - rewrite Hc. change ([Caller pc (ops ++ [Destroy])] !! S c) with ((@nil pcaller) !! c). change ([Caller pc ops] !! S c) with ((@nil pcaller) !! c). rewrite !lookup_nil. split; [by apply cut_eq|eauto].
  - destruct (p_thread s) eqn:Eth; (split; [try (erewrite cut_eq by (cbn; exact Hc); cbn; rewrite ?Et, ?Eu, ?Eth; done)|cbn; eauto]).
Qed.

Lemma log_keeps s a x : x ∈ p_log s -> x ∈ p_log (pstep s a).
Proof. destruct (log_grows s a) as [k ->]. intros H. apply elem_of_app. by left. Qed.
Lemma d_step s a : DInv s -> p_ub s = false -> DInv (pstep s a) \/ destroyed (pstep s a).
Proof.
  intros (Ht & Hal & pc & Hc & Hth & Hpc) Hub. unfold pstep. rewrite Ht, Hub. cbn [orb]. destruct a as [[|c] t|throws].
  - rewrite Hc. cbn [lookup list_lookup insert list_insert]. cbv zeta. destruct pc; try done.
    + left. split_and!; try done. exists CDestroyJoin. done.
    + destruct (p_thread s) eqn:Eth; try (left; split_and!; try done; exists CDestroyJoin; split_and!; try done; by rewrite Eth).
      all: right; unfold destroyed; cbn [p_log]; apply elem_of_app; right; constructor.
  - rewrite Hc. change ([Caller pc [Destroy]] !! S c) with ((@nil pcaller) !! c). rewrite lookup_nil. left. split_and!; try done. exists pc. done.
  - left. destruct (p_thread s) eqn:Eth; (split_and!; [done|done|]); exists pc; cbn; (split_and!; [done| |done]); try done; try (by rewrite Eth); try (by destruct (p_running s)); by destruct throws.
Qed.
Lemma b_step s a : BInv s -> (timed_out (pstep s a)) \/ BInv (pstep s a) \/ DInv (pstep s a).
Proof.
  intros (pc & ops & Hc & Hpc & I).
  assert (Hd : (ops <> [] \/ (forall c t, a <> PCall c t) \/ (exists c t, a = PCall (S c) t)) \/ (ops = [] /\ exists t, a = PCall 0 t)).
  { destruct ops; [|left; by left]. destruct a as [[|c] t|t]; [right; eauto|left; right; right; eauto|left; right; left; done]. }
  destruct Hd as [Hd|[-> [t ->]]].
  - destruct (cut_step s a pc ops Hc Hd) as [E (pc' & ops' & Hc')]. destruct (one_step (cut s) a I) as [[H _]|H]; rewrite <-E in H.
    + left. exact H.
    + right. left. exists pc', ops'. split_and!; [done| |done]. intros ->.
      destruct H as (_ & _ & _ & pc2 & ops2 & Hc2 & _ & H2). rewrite (cut_callers _ pc' [] Hc') in Hc2. injection Hc2 as <- <-. destruct pc'; try done; by destruct H2.
  - rewrite (Hpc eq_refl) in Hc. right. right. destruct I as (Hub & Htm & Hal & pc2 & ops2 & Hc2 & _ & H2). rewrite (cut_callers _ CIdle [] Hc) in Hc2. injection Hc2 as <- <-.
    cbn in Hub, Htm, Hal, H2. unfold pstep. rewrite Hub, Htm, Hc. cbn. split_and!; try done. exists CDestroyClear. split_and!; try done. cbn.
    destruct (p_started s); [|by destruct H2 as [-> _]]. destruct H2 as [->|[->| ->]]; done.
Qed.
Lemma dead_step s a : p_ub s = true -> pstep s a = s.
Proof. intros E. unfold pstep. by rewrite E, orb_true_r. Qed.
Lemma destroy_run prog acts : Destroy ∉ prog -> let s := prun (pst_new [prog ++ [Destroy]]) acts in ~ timed_out s -> BInv s \/ DInv s \/ destroyed s \/ p_ub s = true.
Proof.
  intros Hd. induction acts as [|a acts IH] using rev_ind; cbv zeta in *.
  - intros _. left. exists CIdle, prog. split_and!; [done|done|]. erewrite cut_eq by reflexivity. apply (one_run prog [] Hd). intros (c & o & H). by apply elem_of_nil in H.
  - rewrite prun_app. intros Ht. cbn [prun fold_left] in *. fold (prun (pst_new [prog ++ [Destroy]]) acts) in *. set (s := prun (pst_new [prog ++ [Destroy]]) acts) in *.
    destruct IH as [H|[H|[H|H]]].
    + intros (c & o & Hin). apply Ht. exists c, o. by apply log_keeps.
    + destruct (b_step s a H) as [?|[?|?]]; [done|by left|by right; left].
    + destruct (p_ub s) eqn:Eu; [rewrite dead_step by done; auto|]. destruct (d_step s a H Eu); auto.
    + right. right. left. by apply log_keeps.
    + rewrite dead_step by done. auto.
Qed.
(** Progress. *)
Definition over (s : pst) : Prop := p_ub s = true \/ destroyed s.
Local Instance pop_dec : EqDecision pop.
Proof. solve_decision. Defined.
Local Instance pout_dec : EqDecision pout.
Proof. solve_decision. Defined.
Global Instance over_dec s : Decision (over s).
Proof. unfold over, destroyed. apply _. Defined.
Definition d_rank (s : pst) : nat :=
  if decide (over s) then 0 else
  match p_callers s with
  | [Caller CIdle _] => 5
  | [Caller CDestroyClear _] => 4
  | _ => match p_thread s with TBody => 3 | TCheck => 2 | _ => 1 end
  end.
Definition d_helpful (s : pst) (a : pact) : bool :=
  match p_callers s with
  | [Caller CDestroyJoin _] => match p_thread s, a with TBody, PThread _ | TCheck, PThread _ | TNone, PCall 0 _ | TEnded, PCall 0 _ => true | _, _ => false end
  | _ => match a with PCall 0 _ => true | _ => false end
  end.
Definition PInv (s : pst) : Prop := over s \/ (BInv s /\ p_callers s = [Caller CIdle [Destroy]]) \/ DInv s.
Lemma over_rank s : over s <-> d_rank s = 0.
Proof. unfold d_rank. destruct (decide (over s)); [done|]. split; [done|]. destruct (p_callers s) as [|[[] ?] [|]]; try done; destruct (p_thread s); done. Qed.
Lemma idle_step s a : BInv s -> p_callers s = [Caller CIdle [Destroy]] -> (BInv (pstep s a) /\ p_callers (pstep s a) = [Caller CIdle [Destroy]]) /\ (forall t, a <> PCall 0 t) \/
  (exists t, a = PCall 0 t) /\ DInv (pstep s a) /\ p_callers (pstep s a) = [Caller CDestroyClear [Destroy]].
Proof.
  intros B Hc. destruct B as (pc & ops & Hc' & Hpc & I). rewrite Hc in Hc'. destruct ops as [|o [|? ?]]; [|done|done]. injection Hc' as <-.
  pose proof I as (Hub & Htm & Hal & pc2 & ops2 & Hc2 & _ & H2). rewrite (cut_callers _ CIdle [] Hc) in Hc2. injection Hc2 as <- <-. cbn in Hub, Htm, Hal, H2.
  destruct a as [[|c] t|throws].
  - right. split; [eauto|]. unfold pstep. rewrite Hub, Htm, Hc. cbn. split; [|done]. split_and!; try done. exists CDestroyClear. split_and!; try done. cbn.
    destruct (p_started s); [|by destruct H2 as [-> _]]. destruct H2 as [->|[->| ->]]; done.
  - left. assert (E : pstep s (PCall (S c) t) = s). { unfold pstep. rewrite Hub, Htm, Hc. cbn. done. } rewrite E. split; [|done]. split; [|done]. exists CIdle, []. done.
  - left. split; [|done]. destruct (cut_step s (PThread throws) CIdle [] Hc) as [E _]; [right; left; done|]. pose proof (one_thread _ throws I) as I'. rewrite <-E in I'.
    assert (Hc3 : p_callers (pstep s (PThread throws)) = [Caller CIdle [Destroy]]). { unfold pstep. rewrite Hub, Htm. cbn. by destruct (p_thread s). }
    split; [|done]. exists CIdle, []. done.
Qed.
Lemma d_cases s a : PInv s -> d_rank s <> 0 ->
  PInv (pstep s a) /\ d_rank (pstep s a) <= d_rank s /\ (d_helpful s a = true -> d_rank (pstep s a) < d_rank s) /\
  (d_rank (pstep s a) = d_rank s -> d_helpful (pstep s a) = d_helpful s).
Proof.
  intros P Hr. assert (Hno : ~ over s) by (by rewrite over_rank). destruct P as [P|[[B Hc]|D]]; [done| |].
  - assert (Er : d_rank s = 5). { unfold d_rank. rewrite decide_False by done. by rewrite Hc. }
    destruct (idle_step s a B Hc) as [[[B' Hc'] Ha]|[[t ->] [D' Hc']]].
    + split; [right; left; done|]. assert (d_rank (pstep s a) <= 5) by (unfold d_rank; rewrite Hc'; destruct (decide _); lia). split; [lia|]. unfold d_helpful. rewrite Hc, Hc'.
      split; [|done]. destruct a as [[|c] t|]; [by destruct (Ha t)|done..].
    + split; [right; right; done|]. assert (d_rank (pstep s (PCall 0 t)) <= 4) by (unfold d_rank; rewrite Hc'; destruct (decide _); lia). split_and!; [lia|lia|intros ?; exfalso; lia].
  - assert (Hub : p_ub s = false). { destruct (p_ub s) eqn:E; [|done]. destruct Hno. by left. }
    assert (P' : PInv (pstep s a)). { destruct (d_step s a D Hub); [right; right; done|left; right; done]. } split; [exact P'|].
    destruct D as (Ht & Hal & pc & Hc & Hth & Hpc). assert (Hng : forall s', over s' -> d_rank s' = 0) by (intros; by apply over_rank).
    destruct a as [[|c] t|throws].
    + destruct pc; try done.
      * assert (Er : d_rank s = 4) by (unfold d_rank; rewrite decide_False by done; by rewrite Hc).
        assert (E : p_callers (pstep s (PCall 0 t)) = [Caller CDestroyJoin [Destroy]]) by (unfold pstep; rewrite Ht, Hub, Hc; done).
        assert (d_rank (pstep s (PCall 0 t)) <= 3). { unfold d_rank. rewrite E. destruct (decide _); [lia|]. destruct (p_thread (pstep s (PCall 0 t))); lia. } split_and!; [lia|lia|intros ?; exfalso; lia].
      * assert (Hx : pstep s (PCall 0 t) = s \/ over (pstep s (PCall 0 t))).
        { unfold pstep. rewrite Ht, Hub, Hc. cbn [lookup list_lookup insert list_insert]. cbv zeta. destruct (p_thread s); [|by left|by left|by left|]; right; right; unfold destroyed; cbn [p_log]; apply elem_of_app; right; constructor. }
        destruct Hx as [E|E]; [rewrite E|rewrite (Hng _ E); split_and!; [lia|lia|intros ?; exfalso; lia]].
        split; [lia|]. split; [|done]. intros Hh. exfalso. unfold d_helpful in Hh. rewrite Hc in Hh. revert E. unfold pstep. rewrite Ht, Hub, Hc. cbn [lookup list_lookup insert list_insert]. cbv zeta.
        destruct (p_thread s); try done; intros E; apply (f_equal p_callers) in E; cbn in E; rewrite Hc in E; done.
    + assert (E : pstep s (PCall (S c) t) = s). { unfold pstep. rewrite Ht, Hub, Hc. cbn. done. } rewrite E. split; [lia|]. split; [|done]. unfold d_helpful. rewrite Hc. destruct pc; try done; destruct (p_thread s); done.
    + assert (Ec : p_callers (pstep s (PThread throws)) = p_callers s). { unfold pstep. rewrite Ht, Hub. cbn. by destruct (p_thread s). }
      destruct (decide (over (pstep s (PThread throws)))) as [Ho|Ho].
      { rewrite (Hng _ Ho). split_and!; [lia|lia|intros ?; exfalso; lia]. }
      assert (Hl : d_rank (pstep s (PThread throws)) = match pc with CDestroyClear => 4 | _ => match p_thread (pstep s (PThread throws)) with TBody => 3 | TCheck => 2 | _ => 1 end end).
      { unfold d_rank. rewrite decide_False by done. rewrite Ec, Hc. by destruct pc. }
      assert (Hl0 : d_rank s = match pc with CDestroyClear => 4 | _ => match p_thread s with TBody => 3 | TCheck => 2 | _ => 1 end end).
      { unfold d_rank. rewrite decide_False by done. rewrite Hc. by destruct pc. }
      rewrite Hl, Hl0. unfold d_helpful. rewrite Ec, Hc. destruct pc; try done.
      assert (Hth' : p_thread (pstep s (PThread throws)) = match p_thread s with TCheck => TEnded | TBody => if throws then TEnded else TCheck | x => x end).
      { unfold pstep. rewrite Ht, Hub. cbn. destruct (p_thread s) eqn:E; cbn; rewrite ?Hpc; done. }
      rewrite Hth'. destruct (p_thread s); try done; try destruct throws; split_and!; try lia; try done.
Qed.
(** C185: one thread calls start and stop in any order, no start has timed out, and last it destroys the poller, whether it has been stopped or not. Whenever the
    two threads have both been scheduled five times, the destructor has returned - or, if the poller was not stopped, the polling thread has used the destroyed object (C148). *)
Theorem C185_destructor_returns prog acts rounds : Destroy ∉ prog -> let s := prun (pst_new [prog ++ [Destroy]]) acts in
  ~ timed_out s -> destroying s -> Forall has_step rounds -> 5 <= length rounds ->
  exists pre suf, concat rounds = pre ++ suf /\ (p_ub (prun s pre) = true \/ destroyed (prun s pre)).
Proof.
  intros Hd s Ht [pc Hc] Hf Hlen.
  assert (P : PInv s).
  { destruct (destroy_run prog acts Hd Ht) as [H|[H|[H|H]]]; fold s in H; [|by right; right|left; by right|left; by left].
    right. left. destruct H as (pc' & ops & Hc' & Hpc & I). pose proof Hc' as E. rewrite Hc in E. destruct ops as [|o [|? ?]]; [|done|done]. rewrite (Hpc eq_refl) in Hc'. split; [|done]. exists CIdle, []. done. }
  destruct (fair_progress pstep PInv d_rank d_helpful) with (rounds := rounds) (s := s) as (pre & suf & E & H0).
  - intros s' a H1 H2. destruct (d_cases s' a H1 H2) as (? & ? & _). auto.
  - intros s' a H1 H2. destruct (d_cases s' a H1 H2) as (? & ? & ? & _). auto.
  - intros s' a H1 H2. destruct (d_cases s' a H1 H2) as (? & ? & ? & HS). intros E b Hb. by rewrite (HS E).
  - done.
  - eapply Forall_impl; [exact Hf|]. intros l [[t Hp] [th Hth]] s' H1 H2. apply Exists_exists.
    assert (Hno : ~ over s') by (by rewrite over_rank). destruct H1 as [H1|[[_ H1]|H1]]; [done| |].
    + exists (PCall 0 t). unfold d_helpful. by rewrite H1.
    + destruct H1 as (_ & _ & pc' & Hc' & Htb & Hpc'). unfold d_helpful. rewrite Hc'. destruct pc'; try done; [by exists (PCall 0 t)|]. destruct (p_thread s'); try done; eauto.
  - transitivity 5; [|done]. unfold d_rank. destruct (decide _); [lia|]. destruct (p_callers s) as [|[[] ?] [|]]; try lia; destruct (p_thread s); lia.
  - exists pre, suf. split; [done|]. by apply over_rank.
Qed.
Print Assumptions C185_destructor_returns.
(** Stopped first: it has returned. *)
Theorem C185_stopped_first pre0 acts rounds : Destroy ∉ pre0 -> let s := prun (pst_new [pre0 ++ [Stop; Destroy]]) acts in
  ~ timed_out s -> destroying s -> Forall has_step rounds -> 5 <= length rounds ->
  exists pre suf, concat rounds = pre ++ suf /\ destroyed (prun s pre) /\ p_ub (prun s pre) = false /\ p_term (prun s pre) = false.
Proof.
  intros Hd s Ht Hds Hf Hlen. destruct (C185_destructor_returns (pre0 ++ [Stop]) acts rounds) as (pre & suf & E & H); try done.
  - intros H. apply elem_of_app in H as [H|H]; [done|]. apply elem_of_list_singleton in H. done.
  - by rewrite <-app_assoc.
  - by rewrite <-app_assoc.
  - rewrite <-app_assoc in H. cbn [app] in H. fold s in H. exists pre, suf. destruct (C57_stopped_first pre0 (acts ++ pre) Hd) as [Hu Htm]. rewrite prun_app in Hu, Htm. fold s in Hu, Htm.
    split_and!; try done. destruct H as [H|H]; [congruence|done].
Qed.
Print Assumptions C185_stopped_first.
(** A poller destroyed while its thread is at the loop test; five rounds end the destructor without touching what is gone. *)
Example C185_case : let acts := [PCall 0 false; PCall 0 false; PCall 0 false; PThread false; PCall 0 false; PThread false; PThread false] in
  let s := prun (pst_new [[Start] ++ [Destroy]]) acts in let round := [PCall 0 false; PCall 0 false; PThread false] in
  Destroy ∉ [Start] /\ ~ timed_out s /\ destroying s /\ Forall has_step [round; round; round; round; round] /\ p_thread s = TCheck /\
  destroyed (prun s (round ++ round)) /\ p_ub (prun s (round ++ round)) = false.
Proof.
  split_and!.
  - intros H. apply elem_of_list_singleton in H. done.
  - vm_compute. intros (c & o & H). apply elem_of_list_In in H. cbn in H. intuition congruence.
  - by exists CIdle.
  - repeat constructor; [exists false; constructor|exists false; repeat constructor|exists false; constructor|exists false; repeat constructor|exists false; constructor|exists false; repeat constructor|exists false; constructor|exists false; repeat constructor|exists false; constructor|exists false; repeat constructor].
  - done.
  - unfold destroyed. vm_compute. repeat constructor.
  - done.
Qed.
