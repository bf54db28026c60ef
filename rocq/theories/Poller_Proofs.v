From stdpp Require Import prelude.
From Verif Require Import Base Poller_Model.

Lemma prun_ind (P : pst -> Prop) s acts : P s -> (forall s a, P s -> P (pstep s a)) -> P (prun s acts).
Proof. intros H0 Hs. revert s H0; induction acts as [|a acts IH]; intros s H0; [done|]. cbn [prun fold_left]. apply IH. by apply Hs. Qed.
Lemma prun_app s l1 l2 : prun s (l1 ++ l2) = prun (prun s l1) l2.
Proof. apply fold_left_app. Qed.

Definition timed_out (s : pst) : Prop := exists c o, (c, o, Threw) ∈ p_log s.
Definition past_begin (t : tpc) : Prop := t = TCheck \/ t = TBody \/ t = TEnded.

(** One caller. *)
Definition OneInv (s : pst) : Prop :=
  p_ub s = false /\ p_term s = false /\ p_alive s = true /\
  exists pc ops, p_callers s = [Caller pc ops] /\ Destroy ∉ ops /\
  match pc with
  | CIdle => if p_started s then past_begin (p_thread s) else p_thread s = TNone /\ p_running s = false
  | CStartSet => ops <> [] /\ p_started s = false /\ p_thread s = TNone /\ p_running s = false
  | CStartSpawn => ops <> [] /\ p_started s = true /\ p_thread s = TNone /\ p_running s = false
  | CStartWait => ops <> [] /\ p_started s = true /\ ((p_thread s = TBegin /\ p_running s = false) \/ (past_begin (p_thread s) /\ p_running s = true))
  | CStopClear => ops <> [] /\ p_started s = true /\ past_begin (p_thread s)
  | CStopJoin => ops <> [] /\ p_started s = true /\ past_begin (p_thread s) /\ p_running s = false
  | CStopReset => ops <> [] /\ p_started s = true /\ p_thread s = TNone /\ p_running s = false
  | CDestroyClear | CDestroyJoin => False
  end.
Lemma one_step s a : OneInv s -> (timed_out (pstep s a) /\ exists ops, p_callers s = [Caller CStartWait ops]) \/ OneInv (pstep s a).
Proof.
  intros I. pose proof I as (Hub & Htm & Hal & pc & ops & Hc & Hd & H). unfold pstep. rewrite Hub, Htm. cbn [orb].
  destruct a as [c timedout|throws].
  - rewrite Hc. destruct c as [|c]; [|right; cbn; exact I]. cbn [lookup list_lookup].
    destruct ops as [|o ops]; [right; exact I|]. apply not_elem_of_cons in Hd as [Hd0 Hd].
    assert (Hd' : Destroy ∉ o :: ops) by (by apply not_elem_of_cons).
    cbn [insert list_insert].
    destruct pc.
    + destruct o; [| |done].
      * destruct (p_started s) eqn:Es; right; (split; [done|]); (split; [done|]); (split; [done|]); eexists _, _; cbn; (split; [done|]); (split; [done|]); try done; naive_solver.
      * destruct (p_started s) eqn:Es; right; (split; [done|]); (split; [done|]); (split; [done|]); eexists _, _; cbn; (split; [done|]); (split; [done|]); rewrite ?Es; try done; naive_solver.
    + right. destruct H as (H1 & H2 & H3 & H4). repeat split; try done; eexists _, _; cbn; done.
    + right. destruct H as (H1 & H2 & H3 & H4). rewrite H3. repeat split; try done; eexists _, _; cbn. split; [done|]. split; [done|]. split; [done|]. split; [done|]. by left.
    + destruct H as (H1 & H2 & H3). destruct (p_running s) eqn:Er.
      * right. repeat split; try done; eexists _, _; cbn. split; [done|]. split; [done|]. rewrite H2. destruct H3 as [[_ ?]|[? _]]; done.
      * destruct timedout; [|right; exact I]. left. split; [|eauto]. exists 0, o. cbn. set_solver.
    + right. destruct H as (H1 & H2 & H3). repeat split; try done; eexists _, _; cbn; done.
    + right. destruct H as (H1 & H2 & H3 & H4). destruct H3 as [E|[E|E]]; rewrite E; [exact I..|].
      repeat split; try done; eexists _, _; cbn; done.
    + right. destruct H as (H1 & H2 & H3 & H4). repeat split; try done; eexists _, _; cbn; done.
    + done.
    + done.
  - right. unfold past_begin in *. destruct (p_thread s) eqn:Et; [exact I| | | |exact I].
    all: rewrite ?Hal; (split; [done|]); (split; [done|]); (split; [done|]); exists pc, ops; cbn; (split; [done|]); (split; [done|]).
    all: destruct pc; try (destruct (p_started s)); try (destruct (p_running s)); try (destruct throws); try done; unfold past_begin; intuition (try congruence).
Qed.

(** Steps are recorded for good. *)
Lemma log_grows s a : p_log s `prefix_of` p_log (pstep s a).
Proof.
  unfold pstep. destruct (p_term s || p_ub s); [done|]. destruct a as [c t|throws].
  - destruct (p_callers s !! c) as [[pc [|o ops]]|]; try done.
    destruct pc, o; cbn; try (by eexists); destruct (p_started s); try destruct (p_running s); try destruct (p_thread s); try destruct t; cbn; try done; by eexists.
  - destruct (p_thread s); done.
Qed.
Lemma log_grows_run s acts : p_log s `prefix_of` p_log (prun s acts).
Proof. revert s; induction acts as [|a acts IH]; intros s; [done|]. etrans; [apply log_grows|]. apply IH. Qed.
Lemma one_run progs acts : Destroy ∉ progs -> let s := prun (pst_new [progs]) acts in ~ timed_out s -> OneInv s.
Proof.
  intros Hd. induction acts as [|a acts IH] using rev_ind; cbv zeta in *.
  - intros _. unfold prun; cbn. do 3 (split; [done|]). exists CIdle, progs. cbn. done.
  - rewrite prun_app. intros Ht. cbn [prun fold_left] in *. fold (prun (pst_new [progs]) acts) in *. set (s := prun (pst_new [progs]) acts) in *.
    destruct (one_step s a) as [[H _]|H]; [|done|done]. apply IH. intros (c & o & Hin). apply Ht. exists c, o.
    destruct (log_grows s a) as [k ->]. set_solver.
Qed.

(** Progress of stop. *)
Definition stop_rank (n0 : nat) (s : pst) : nat :=
  if decide (n0 < length (p_log s)) then 0 else
  match p_callers s with
  | [Caller CIdle _] => 6
  | [Caller CStopClear _] => 5
  | [Caller CStopJoin _] => match p_thread s with TBody => 4 | TCheck => 3 | _ => 2 end
  | [Caller CStopReset _] => 1
  | _ => 7
  end.
Definition stop_helpful (s : pst) (a : pact) : bool :=
  match p_callers s with
  | [Caller CStopJoin _] =>
      match p_thread s, a with TBody, PThread _ | TCheck, PThread _ | TEnded, PCall 0 _ => true | _, _ => false end
  | _ => match a with PCall 0 _ => true | _ => false end
  end.
Definition StopInv (n0 : nat) (s : pst) : Prop :=
  OneInv s /\ (n0 < length (p_log s) \/ (n0 = length (p_log s) /\ p_started s = true /\ exists pc ops, p_callers s = [Caller pc (Stop :: ops)] /\
     match pc with CIdle | CStopClear | CStopJoin | CStopReset => True | _ => False end)).
Lemma stop_cases n0 s a : StopInv n0 s -> stop_rank n0 s <> 0 ->
  StopInv n0 (pstep s a) /\ stop_rank n0 (pstep s a) <= stop_rank n0 s /\
  (stop_helpful s a = true -> stop_rank n0 (pstep s a) < stop_rank n0 s) /\
  (stop_rank n0 (pstep s a) = stop_rank n0 s -> stop_helpful (pstep s a) = stop_helpful s).
Proof.
  intros [I H] Hr. destruct H as [H|(Hn & Hst & pc & ops & Hc & Hpc)]; [unfold stop_rank in Hr; by rewrite decide_True in Hr by done|].
  pose proof I as (Hub & Htm & Hal & pc' & ops' & Hc' & Hd & HI). rewrite Hc in Hc'. injection Hc' as <- <-.
  assert (Ho : OneInv (pstep s a)).
  { destruct (one_step s a I) as [[_ [ops' E]]|]; [|done]. rewrite Hc in E. by injection E as -> _. }
  unfold StopInv. unfold stop_rank in *. rewrite decide_False in Hr by lia. rewrite (decide_False (P := n0 < length (p_log s))) by lia.
  unfold stop_helpful at 1 3. rewrite Hc. rewrite Hc in Hr. revert Ho. unfold pstep. rewrite Hub, Htm, Hc. cbn [orb].
  assert (Hno : n0 < length (p_log s) <-> False) by lia.
  assert (Hyes : forall x, n0 < length (p_log s ++ [x])) by (intros; rewrite app_length; cbn; lia).
  assert (Hstay : forall s', p_log s' = p_log s -> p_callers s' = p_callers s -> p_started s' = true -> OneInv s' ->
     OneInv s' /\ (n0 < length (p_log s') \/ (n0 = length (p_log s') /\ p_started s' = true /\ exists pc ops, p_callers s' = [Caller pc (Stop :: ops)] /\
       match pc with CIdle | CStopClear | CStopJoin | CStopReset => True | _ => False end))).
  { intros s' E1 E2 E3 HO. split; [done|]. right. rewrite E1, E2, Hc. eauto 10. }
  destruct a as [c t|throws].
  - destruct c as [|c].
    + cbn [lookup list_lookup insert list_insert]. destruct pc; try done; rewrite ?Hst; cbn [p_log p_callers p_thread p_started].
      * intros Ho. rewrite decide_False by lia. split; [split; [done|]; right; eauto 10|]. split; [lia|]. split; [lia|]. lia.
      * intros Ho. rewrite decide_False by lia. split; [split; [done|]; right; eauto 10|]. destruct HI as (_ & _ & HI).
        destruct HI as [->|[->| ->]]; (split; [lia|]; split; [lia|]; lia).
      * destruct HI as (_ & _ & [E|[E|E]] & _); rewrite E; cbn [p_log p_callers p_thread p_started]; intros Ho.
        -- rewrite decide_False by lia. split; [by apply Hstay|]. rewrite Hc, E. unfold stop_helpful. rewrite Hc, E. done.
        -- rewrite decide_False by lia. split; [by apply Hstay|]. rewrite Hc, E. unfold stop_helpful. rewrite Hc, E. done.
        -- rewrite decide_False by lia. split; [split; [done|]; right; eauto 10|]. split; [lia|]. split; [lia|]. lia.
      * intros Ho. rewrite decide_True by apply Hyes. split; [split; [done|]; left; apply Hyes|]. split; [lia|]. split; [lia|]. lia.
    + change ([Caller pc (Stop :: ops)] !! S c) with ((@nil pcaller) !! c). rewrite lookup_nil. intros Ho. rewrite decide_False by lia. split; [by apply Hstay|]. rewrite Hc. split; [done|].
      unfold stop_helpful. rewrite Hc. split; [|done]. destruct pc; try done; by destruct (p_thread s).
  - destruct (p_thread s) eqn:Et; cbn [p_log p_callers p_thread p_started]; intros Ho.
    all: rewrite decide_False by lia.
    all: (split; [by apply Hstay|]). all: rewrite ?Hc, ?Et.
    all: unfold stop_helpful; cbn [p_callers p_thread]; rewrite ?Hc, ?Et.
    all: destruct pc; try done; try (split; [lia|]; split; [try done; try lia|try done; try lia]).
    all: try (destruct HI as (_ & _ & HI1 & HI2); rewrite ?HI2; unfold past_begin in HI1; try (destruct HI1 as [HI1|[HI1|HI1]]; done)).
    all: try destruct throws; (split; [lia|]; split; intros; [lia|first [done|lia]]).
Qed.
Definition has_step (l : list pact) : Prop := (exists t, PCall 0 t ∈ l) /\ (exists th, PThread th ∈ l).
Lemma stop_progress prog acts rounds : Destroy ∉ prog -> let s := prun (pst_new [prog]) acts in
  ~ timed_out s -> p_started s = true ->
  (exists pc ops, p_callers s = [Caller pc (Stop :: ops)] /\ match pc with CIdle | CStopClear | CStopJoin | CStopReset => True | _ => False end) ->
  Forall has_step rounds -> 6 <= length rounds ->
  exists pre suf, concat rounds = pre ++ suf /\ length (p_log s) < length (p_log (prun s pre)).
Proof.
  intros Hd s Ht Hst Hc Hf Hlen. set (n0 := length (p_log s)).
  assert (StopInv n0 s) as HI. { split; [by apply one_run|]. right. eauto. }
  destruct (fair_progress pstep (StopInv n0) (stop_rank n0) stop_helpful) with (rounds := rounds) (s := s) as (pre & suf & E & H0).
  - intros s' a H1 H2. destruct (stop_cases n0 s' a H1 H2) as (? & ? & _). auto.
  - intros s' a H1 H2. destruct (stop_cases n0 s' a H1 H2) as (? & ? & ? & _). auto.
  - intros s' a H1 H2. destruct (stop_cases n0 s' a H1 H2) as (? & ? & ? & ?). intros E b Hb. match goal with H : _ -> stop_helpful _ = _ |- _ => by rewrite (H E) end.
  - done.
  - eapply Forall_impl; [exact Hf|]. intros l [[t Hp] [th Hth]] s' H1 H2. apply Exists_exists.
    destruct H1 as [HO [H1|(Hn & Hst' & pc & ops & Hcc & Hpc)]]; [unfold stop_rank in H2; by rewrite decide_True in H2 by done|].
    unfold stop_helpful. rewrite Hcc. destruct pc; try done; eauto.
    destruct HO as (_ & _ & _ & pc' & ops' & Hc' & _ & HH). rewrite Hcc in Hc'. injection Hc' as <- <-. destruct HH as (_ & _ & [->|[->| ->]] & _); eauto.
  - transitivity 6; [|done]. destruct Hc as (pc & ops & Hcc & Hpc). unfold stop_rank. rewrite decide_False by lia. rewrite Hcc.
    destruct pc; try done; try lia. destruct (p_thread s); lia.
  - exists pre, suf. split; [done|]. unfold stop_rank in H0. destruct (decide (n0 < length (p_log (fold_left pstep pre s)))) as [H|H]; [done|].
    exfalso. clear -H0. destruct (p_callers _) as [|[pc ops] [|? ?]]; [done| |destruct pc; done]. destruct pc; try done. destruct (p_thread _); done.
Qed.

(** Progress of start. *)
Definition start_rank (n0 : nat) (s : pst) : nat :=
  if decide (n0 < length (p_log s)) then 0 else
  match p_callers s with
  | [Caller CIdle _] => 5
  | [Caller CStartSet _] => 4
  | [Caller CStartSpawn _] => 3
  | [Caller CStartWait _] => match p_thread s with TBegin => 2 | _ => 1 end
  | _ => 7
  end.
Definition start_helpful (s : pst) (a : pact) : bool :=
  match p_callers s with
  | [Caller CStartWait _] => match p_thread s, a with TBegin, PThread _ => true | TBegin, _ => false | _, PCall 0 _ => true | _, _ => false end
  | _ => match a with PCall 0 _ => true | _ => false end
  end.
Definition StartInv (n0 : nat) (s : pst) : Prop :=
  n0 < length (p_log s) \/ (OneInv s /\ n0 = length (p_log s) /\ exists pc ops, p_callers s = [Caller pc (Start :: ops)] /\
     match pc with CIdle | CStartSet | CStartSpawn | CStartWait => True | _ => False end).
Lemma one_thread s b : OneInv s -> OneInv (pstep s (PThread b)).
Proof.
  intros I. pose proof I as (Hub & Htm & Hal & pc & ops & Hc & Hd & H). unfold pstep. rewrite Hub, Htm. cbn [orb].
  unfold past_begin in *. destruct (p_thread s) eqn:Et; [exact I| | | |exact I].
  all: rewrite ?Hal; (split; [done|]); (split; [done|]); (split; [done|]); exists pc, ops; cbn; (split; [done|]); (split; [done|]).
  all: destruct pc; try (destruct (p_started s)); try (destruct (p_running s)); try (destruct b); try done; unfold past_begin; intuition (try congruence).
Qed.
Lemma thread_frame s b : p_term s = false -> p_ub s = false -> p_log (pstep s (PThread b)) = p_log s /\ p_callers (pstep s (PThread b)) = p_callers s /\
  (p_thread s = TBegin -> p_thread (pstep s (PThread b)) = TCheck) /\ (p_thread s <> TBegin -> p_thread (pstep s (PThread b)) <> TBegin).
Proof. intros H1 H2. unfold pstep. rewrite H1, H2. cbn [orb]. destruct (p_thread s) eqn:Et; cbn; (split; [done|]); (split; [done|]); (split; [intros E; try discriminate E; reflexivity|intros Hx; try (destruct (p_running s)); try (destruct b); congruence]). Qed.
Lemma start_cases n0 s a : StartInv n0 s -> start_rank n0 s <> 0 ->
  StartInv n0 (pstep s a) /\ start_rank n0 (pstep s a) <= start_rank n0 s /\
  (start_helpful s a = true -> start_rank n0 (pstep s a) < start_rank n0 s) /\
  (start_rank n0 (pstep s a) = start_rank n0 s -> forall b, start_helpful s b = true -> start_helpful (pstep s a) b = true).
Proof.
  intros H Hr. destruct H as [H|(I & Hn & pc & ops & Hc & Hpc)]; [unfold start_rank in Hr; by rewrite decide_True in Hr by done|].
  pose proof I as (Hub & Htm & Hal & pc' & ops' & Hc' & Hd & HI). rewrite Hc in Hc'. injection Hc' as <- <-.
  unfold StartInv. unfold start_rank in *. rewrite decide_False in Hr by lia. rewrite (decide_False (P := n0 < length (p_log s))) by lia.
  unfold start_helpful at 1 2. rewrite Hc. rewrite Hc in Hr.
  destruct a as [c t|throws].
  - pose proof (one_step s (PCall c t) I) as Hone. revert Hone. unfold pstep. rewrite Hub, Htm, Hc. cbn [orb].
    assert (Hyes : forall x, n0 < length (p_log s ++ [x])) by (intros; rewrite app_length; cbn; lia).
    destruct c as [|c].
    + cbn [lookup list_lookup insert list_insert]. destruct pc; try done.
      * destruct (p_started s) eqn:Es; cbn [p_log p_callers p_thread p_started]; intros [[_ [? Hone]]|Hone]; try done.
        -- rewrite decide_True by apply Hyes. split; [left; apply Hyes|]. split; [lia|]. split; [lia|]. lia.
        -- rewrite decide_False by lia. split; [right; split; [done|]; split; [done|]; eexists _, _; done|]. split; [lia|]. split; lia.
      * cbn [p_log p_callers p_thread p_started]; intros [[_ [? Hone]]|Hone]; try done.
        rewrite decide_False by lia. split; [right; split; [done|]; split; [done|]; eexists _, _; done|]. split; [lia|]. split; lia.
      * destruct HI as (_ & _ & E & _). rewrite E. cbn [p_log p_callers p_thread p_started]; intros [[_ [? Hone]]|Hone]; try done.
        rewrite decide_False by lia. split; [right; split; [done|]; split; [done|]; eexists _, _; done|]. split; [lia|]. split; lia.
      * destruct HI as (_ & Hst & [[Et Er]|[Et Er]]); rewrite Er; [destruct t|]; cbn [p_log p_callers p_thread p_started]; intros Hone.
        -- rewrite decide_True by apply Hyes. split; [left; apply Hyes|]. rewrite Et. split; [lia|]. split; [lia|]. lia.
        -- rewrite decide_False by lia. rewrite Hc, Et. split; [right; split; [exact I|]; split; [done|]; eexists _, _; done|].
           split; [lia|]. split; [done|]. intros _ b. unfold start_helpful. by rewrite Hc, Et.
        -- rewrite decide_True by apply Hyes. split; [left; apply Hyes|]. destruct (p_thread s); (split; [lia|]; split; [lia|lia]).
    + change ([Caller pc (Start :: ops)] !! S c) with ((@nil pcaller) !! c). rewrite lookup_nil. intros _. rewrite decide_False by lia. rewrite Hc.
      split; [right; split; [exact I|]; split; [done|]; eexists _, _; done|]. split; [done|]. split; [destruct pc; try done; by destruct (p_thread s)|].
      intros _ b. unfold start_helpful. by rewrite Hc.
  - pose proof (one_thread s throws I) as Hone. destruct (thread_frame s throws Htm Hub) as (El & Ec & Hb1 & Hb2).
    unfold start_helpful. rewrite El, Ec, Hc. rewrite decide_False by lia.
    split; [right; split; [exact Hone|]; split; [done|]; eexists _, _; done|].
    destruct pc; try done; try (split; [lia|]; split; [done|done]).
    assert (p_thread s = TBegin \/ p_thread s <> TBegin) as [Et|Et] by (destruct (p_thread s); auto).
    + rewrite (Hb1 Et), Et. split; [lia|]. split; lia.
    + specialize (Hb2 Et). destruct (p_thread s); try done; destruct (p_thread (pstep s (PThread throws))); try done; (split; [lia|]; split; [done|done]).
Qed.
Lemma start_progress prog acts rounds : Destroy ∉ prog -> let s := prun (pst_new [prog]) acts in
  ~ timed_out s ->
  (exists pc ops, p_callers s = [Caller pc (Start :: ops)] /\ match pc with CIdle | CStartSet | CStartSpawn | CStartWait => True | _ => False end) ->
  Forall has_step rounds -> 5 <= length rounds ->
  exists pre suf, concat rounds = pre ++ suf /\ length (p_log s) < length (p_log (prun s pre)).
Proof.
  intros Hd s Ht Hc Hf Hlen. set (n0 := length (p_log s)).
  assert (StartInv n0 s) as HI. { right. split; [by apply one_run|]. eauto. }
  destruct (fair_progress pstep (StartInv n0) (start_rank n0) start_helpful) with (rounds := rounds) (s := s) as (pre & suf & E & H0).
  - intros s' a H1 H2. destruct (start_cases n0 s' a H1 H2) as (? & ? & _). auto.
  - intros s' a H1 H2. destruct (start_cases n0 s' a H1 H2) as (? & ? & ? & _). auto.
  - intros s' a H1 H2. destruct (start_cases n0 s' a H1 H2) as (? & ? & ? & ?). auto.
  - done.
  - eapply Forall_impl; [exact Hf|]. intros l [[t Hp] [th Hth]] s' H1 H2. apply Exists_exists.
    destruct H1 as [H1|(HO & Hn & pc & ops & Hcc & Hpc)]; [unfold start_rank in H2; by rewrite decide_True in H2 by done|].
    unfold start_helpful. rewrite Hcc. destruct pc; try done; eauto. destruct (p_thread s'); eauto.
  - transitivity 5; [|done]. destruct Hc as (pc & ops & Hcc & Hpc). unfold start_rank. rewrite decide_False by lia. rewrite Hcc.
    destruct pc; try done; try lia. destruct (p_thread s); lia.
  - exists pre, suf. split; [done|]. unfold start_rank in H0. destruct (decide (n0 < length (p_log (fold_left pstep pre s)))) as [H|H]; [done|].
    exfalso. clear -H0. destruct (p_callers _) as [|[pc ops] [|? ?]]; [done| |destruct pc; done]. destruct pc; try done. destruct (p_thread _); done.
Qed.
