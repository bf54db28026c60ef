(** * Properties of the pollers' start/stop protocol: C22, C56, C57. *)
From stdpp Require Import prelude.
From Verif Require Import Base Poller_Model Poller_Proofs.

(** The only calling thread is about to call stop() on a started poller, or is inside that call. *)
Definition stopping (s : pst) : Prop := p_started s = true /\
  exists pc ops, p_callers s = [Caller pc (Stop :: ops)] /\ match pc with CIdle | CStopClear | CStopJoin | CStopReset => True | _ => False end.
(** C22: there is a number of rounds (each containing a step of the caller and one of the polling thread) after which the
    call has returned, in every schedule. *)
Definition C22_statement : Prop := exists N, forall prog acts rounds, Destroy ∉ prog -> let s := prun (pst_new [prog]) acts in
  stopping s -> Forall has_step rounds -> N <= length rounds ->
  exists pre suf, concat rounds = pre ++ suf /\ length (p_log s) < length (p_log (prun s pre)).
(** True, with six rounds, if no start() so far has thrown. Whatever listeners do, including throwing. *)
Theorem C22_stops : forall prog acts rounds, Destroy ∉ prog -> let s := prun (pst_new [prog]) acts in
  ~ timed_out s -> stopping s -> Forall has_step rounds -> 6 <= length rounds ->
  exists pre suf, concat rounds = pre ++ suf /\ length (p_log s) < length (p_log (prun s pre)).
Proof. intros prog acts rounds Hd s Ht [H1 H2] Hf Hl. by eapply stop_progress. Qed.
Print Assumptions C22_stops.
Definition C22_witness : list pact := [PCall 0 false; PCall 0 false; PCall 0 false; PThread false; PCall 0 false; PThread false].
Example C22_case : let s := prun (pst_new [[Start; Stop; Start]]) C22_witness in
  stopping s /\ ~ timed_out s /\ p_thread s = TBody /\
  p_log (prun s [PCall 0 false; PThread false; PCall 0 false; PThread true; PThread true; PCall 0 true; PCall 0 true]) = [(0, Start, Returned); (0, Stop, Returned)].
Proof.
  cbv zeta. split; [|split; [|split]]; [|intros (c & o & H); vm_compute in H; set_solver|done|done].
  split; [done|]. eexists _, _. split; [reflexivity|done].
Qed.

(** start() is not left waiting: once the polling thread runs, it returns, within five rounds, or it gives up by its timeout. *)
Definition starting (s : pst) : Prop :=
  exists pc ops, p_callers s = [Caller pc (Start :: ops)] /\ match pc with CIdle | CStartSet | CStartSpawn | CStartWait => True | _ => False end.
Theorem C22_starts : forall prog acts rounds, Destroy ∉ prog -> let s := prun (pst_new [prog]) acts in
  ~ timed_out s -> starting s -> Forall has_step rounds -> 5 <= length rounds ->
  exists pre suf, concat rounds = pre ++ suf /\ length (p_log s) < length (p_log (prun s pre)).
Proof. intros prog acts rounds Hd s Ht H1 Hf Hl. by eapply start_progress. Qed.
Print Assumptions C22_starts.
(** After stop() has returned there is no polling thread any more and the poller can be started again. *)
Theorem C22_stopped : forall prog acts, Destroy ∉ prog -> let s := prun (pst_new [prog]) acts in ~ timed_out s ->
  p_term s = false /\ p_ub s = false /\
  (forall ops, p_callers s = [Caller CIdle ops] -> p_started s = false -> p_thread s = TNone /\ p_running s = false) /\
  (forall ops, p_callers s = [Caller CIdle ops] -> p_started s = true -> p_thread s <> TNone /\ p_thread s <> TBegin).
Proof.
  intros prog acts Hd s Ht. pose proof (one_run prog acts Hd Ht) as (H1 & H2 & H3 & pc & ops & Hc & _ & H). fold s in H1, H2, H3, Hc, H.
  split; [done|]. split; [done|]. split.
  - intros ops' E Es. rewrite Hc in E. injection E as -> ->. by rewrite Es in H.
  - intros ops' E Es. rewrite Hc in E. injection E as -> ->. rewrite Es in H. unfold past_begin in H. intuition congruence.
Qed.
Print Assumptions C22_stopped.

(** False in general: start() gives up waiting while the thread has not yet executed its first instruction; stop() then clears
    the flag; the thread sets it again and loops for ever, and stop() waits for it for ever. *)
Definition C22_bad : list pact :=
  [PCall 0 false; PCall 0 false; PCall 0 false; PCall 0 true; PCall 0 false; PCall 0 false; PThread false].
Definition Stuck (s : pst) : Prop := p_term s = false /\ p_ub s = false /\ p_alive s = true /\ p_running s = true /\
  (p_thread s = TCheck \/ p_thread s = TBody) /\ (exists ops, p_callers s = [Caller CStopJoin ops]) /\ length (p_log s) = 1.
Lemma stuck_step s a : a <> PThread true -> Stuck s -> Stuck (pstep s a).
Proof.
  intros Ha I. pose proof I as (H1 & H2 & H3 & H4 & H5 & (ops & H6) & H7). unfold pstep. rewrite H1, H2. cbn [orb].
  destruct a as [c t|[]]; [| done|].
  - rewrite H6. destruct c as [|c]; [|exact I]. cbn [lookup list_lookup]. destruct ops as [|o ops]; [exact I|].
    destruct H5 as [->| ->]; exact I.
  - destruct H5 as [->| ->]; rewrite ?H4; unfold Stuck; cbn; rewrite ?H3; eauto 12.
Qed.
Theorem C22_forever : let s := prun (pst_new [[Start; Stop]]) C22_bad in stopping s /\
  forall acts, PThread true ∉ acts -> length (p_log (prun s acts)) = length (p_log s) /\ p_thread (prun s acts) <> TEnded.
Proof.
  cbv zeta. set (s := prun (pst_new _) C22_bad). split.
  { split; [done|]. eexists _, _. split; [reflexivity|done]. }
  intros acts Hn. assert (Stuck (prun s acts)) as HS.
  { assert (Stuck s) as H by (unfold Stuck; cbn; eauto 12). clearbody s. revert s H. induction acts as [|a acts IH]; intros s H; [done|].
    apply not_elem_of_cons in Hn as [Ha Hn]. cbn [prun fold_left]. apply IH; [done|]. apply stuck_step; [congruence|done]. }
  destruct HS as (_ & _ & _ & _ & H5 & _ & H7). rewrite H7. split; [done|]. destruct H5 as [->| ->]; done.
Qed.
Print Assumptions C22_forever.
Theorem C22_refuted : ~ C22_statement.
Proof.
  intros [N H]. destruct C22_forever as [Hs Hf]. 
  destruct (H [Start; Stop] C22_bad (repeat [PCall 0 false; PThread false] N) ltac:(set_solver)) as (pre & suf & E & Hlt); [exact Hs| | |].
  - apply Forall_forall. intros l Hl. apply elem_of_list_In, repeat_spec in Hl as ->. split; eexists; [left|right; left].
  - by rewrite repeat_length.
  - destruct (Hf pre) as [Heq _]; [|rewrite Heq in Hlt; lia].
    assert (forall n, PThread true ∉ concat (repeat [PCall 0 false; PThread false] n)) as Hno.
    { induction n as [|n IH]; cbn; [by apply not_elem_of_nil|]. rewrite !elem_of_cons. intros [|[|]]; done. }
    intros Hin. apply (Hno N). rewrite E. set_solver.
Qed.
Print Assumptions C22_refuted.

(** C56. Calls of start() and stop() from several threads never end the program. *)
Definition C56_statement : Prop := forall progs acts, Forall (fun prog => Destroy ∉ prog) progs -> p_term (prun (pst_new progs) acts) = false.
Theorem C56_no_termination : forall prog acts, Destroy ∉ prog -> let s := prun (pst_new [prog]) acts in ~ timed_out s -> p_term s = false.
Proof. intros prog acts Hd s Ht. by destruct (C22_stopped prog acts Hd Ht). Qed.
Print Assumptions C56_no_termination.
(** False: two threads both find the poller not started; the second assigns a new thread over a running one. *)
Theorem C56_refuted : ~ C56_statement.
Proof.
  intros H. specialize (H [[Start]; [Start]] [PCall 0 false; PCall 1 false; PCall 0 false; PCall 0 false; PCall 1 false; PCall 1 false]).
  cbn in H. specialize (H ltac:(repeat constructor; set_solver)). done.
Qed.
Print Assumptions C56_refuted.

(** C57. Destroying a poller, or the provider that owns it and its queue, is safe. *)
Definition C57_statement : Prop := forall prog acts, p_ub (prun (pst_new [prog ++ [Destroy]]) acts) = false.
(** Only after stop(): the destructor of the derived class destroys the queue and the emitter before the base class destructor
    stops the thread. *)
Theorem C57_refuted : ~ C57_statement.
Proof.
  intros H. specialize (H [Start] [PCall 0 false; PCall 0 false; PCall 0 false; PThread false; PCall 0 false; PThread false; PCall 0 false; PThread false]).
  done.
Qed.
Print Assumptions C57_refuted.
(** It is safe after stop(), whatever was called before (a start() that timed out included) and whatever the schedule;
    nor is the program terminated. *)
Definition ready (s : pst) : Prop := exists pc ops, p_callers s = [Caller pc ops] /\
  ((exists pre o rest, Destroy ∉ pre /\ pre ++ [Stop; Destroy] = o :: rest /\ ops = o :: rest /\ p_alive s = true /\
    match pc, o with
    | CIdle, _ | CStartWait, Start | CStopClear, Stop | CStopJoin, Stop => p_thread s <> TNone -> p_started s = true
    | CStartSet, Start | CStopReset, Stop => p_thread s = TNone
    | CStartSpawn, Start => p_thread s = TNone /\ p_started s = true
    | _, _ => False
    end) \/
   (p_thread s = TNone /\ (ops = [] \/ ops = [Destroy] /\ match pc with CIdle | CDestroyClear | CDestroyJoin => True | _ => False end))).
Lemma ready_rest pre o rest : Destroy ∉ pre -> pre ++ [Stop; Destroy] = o :: rest ->
  (o = Stop /\ rest = [Destroy]) \/ (o <> Destroy /\ exists pre' o' rest', Destroy ∉ pre' /\ rest = pre' ++ [Stop; Destroy] /\ rest = o' :: rest').
Proof.
  intros Hd E. destruct pre as [|x pre]; injection E as <- <-; [by left|]. right.
  split; [intros ->; apply Hd; constructor|].
  assert (Destroy ∉ pre) by (intros H; apply Hd; by constructor).
  destruct pre as [|y pre]; [exists [], Stop, [Destroy]; by split_and!|]. exists (y :: pre), y, (pre ++ [Stop; Destroy]). by split_and!.
Qed.
Lemma ready_step s a : p_ub s = false -> p_term s = false -> ready s ->
  let s' := pstep s a in p_ub s' = false /\ p_term s' = false /\ ready s'.
Proof.
  intros Hu Hm H. assert (Hr := H). destruct H as (pc & ops & Hc & H). cbv zeta. unfold pstep. rewrite Hu, Hm. cbn [orb].
  destruct a as [c t|th].
  - rewrite Hc. destruct c as [|c]; [|cbn; done]. cbn [lookup list_lookup].
    destruct H as [(pre & o & rest & Hd & E & -> & Hal & Hp)|[Ht Hops]].
    + assert (Hrest := ready_rest pre o rest Hd E).
      assert (Hback : forall th st run (lg : list (nat * pop * pout)), (o = Stop -> th = TNone) -> (th <> TNone -> st = true) ->
        ready (Pst st run th (p_alive s) [Caller CIdle rest] false false lg)).
      { intros th st run lg Hth Hst. exists CIdle, rest. split; [done|]. destruct Hrest as [[-> ->]|(Hn & pre' & o' & rest' & Hd' & E1 & E2)].
        - right. cbn. split; [by apply Hth|]. right. done.
        - left. exists pre', o', rest'. cbn. rewrite E1 in E2. rewrite E1, E2. split_and!; try done. }
      assert (Hgo : forall pc' st run th (lg : list (nat * pop * pout)),
        match pc', o with
        | CIdle, _ | CStartWait, Start | CStopClear, Stop | CStopJoin, Stop => th <> TNone -> st = true
        | CStartSet, Start | CStopReset, Stop => th = TNone
        | CStartSpawn, Start => th = TNone /\ st = true
        | _, _ => False
        end -> ready (Pst st run th (p_alive s) [Caller pc' (o :: rest)] false false lg)).
      { intros pc' st run th lg Hx. exists pc', (o :: rest). split; [done|]. left. exists pre, o, rest. cbn. split_and!; done. }
      assert (Ho : o <> Destroy) by (destruct Hrest as [[-> _]|[Hn _]]; done).
      destruct pc, o; try done; cbn [list_insert insert];
        repeat case_match; subst; try done; try (by destruct Hp; congruence); try (by split_and!); cbn [p_ub p_term]; (split; [done|]); (split; [done|]);
        first [by apply Hback; intuition congruence | by apply Hgo; intuition congruence | apply Hgo; destruct (p_thread s); try done; by specialize (Hp ltac:(done)) | apply Hback; destruct (p_thread s); try done; by specialize (Hp ltac:(done)) ].
    + destruct Hops as [->|[-> Hpc]]; [done|].
      destruct pc; try done; cbn [list_insert insert]; rewrite ?Ht; cbn [p_ub p_term]; (split; [done|]); (split; [done|]).
      * exists CDestroyClear, [Destroy]. split; [done|]. right. cbn. split; [done|]. by right.
      * exists CDestroyJoin, [Destroy]. split; [done|]. right. cbn. split; [done|]. by right.
      * exists CIdle, []. split; [done|]. right. cbn. split; [done|]. by left.
  - assert (Hkeep : forall th' run, p_thread s <> TNone -> th' <> TNone ->
      ready (Pst (p_started s) run th' (p_alive s) (p_callers s) false false (p_log s))).
    { intros th' run Hn Hn'. destruct H as [(pre & o & rest & Hd & E & -> & Hal & Hp)|[Ht _]]; [|done].
      exists pc, (o :: rest). split; [done|]. left. exists pre, o, rest. cbn. split_and!; try done.
      destruct pc, o; try done; try (intros _; by apply Hp); exfalso; apply Hn; first [done | by destruct Hp]. }
    assert (Hal : p_thread s <> TNone -> p_alive s = true).
    { intros Hn. destruct H as [(pre & o & rest & Hd & E & -> & Hal & Hp)|[Ht _]]; done. }
    destruct (p_thread s) eqn:Et; try done; cbn [p_ub p_term].
    + split; [done|]. split; [done|]. by apply Hkeep.
    + split; [done|]. split; [done|]. apply Hkeep; [done|]. by destruct (p_running s).
    + specialize (Hal ltac:(done)). rewrite Hal in Hkeep |- *. split; [done|]. split; [done|]. apply Hkeep; [done|]. by destruct th.
Qed.
Theorem C57_stopped_first : forall pre acts, Destroy ∉ pre ->
  let s := prun (pst_new [pre ++ [Stop; Destroy]]) acts in p_ub s = false /\ p_term s = false.
Proof.
  intros pre acts Hd s.
  assert (H : p_ub s = false /\ p_term s = false /\ ready s); [|by destruct H as (? & ? & _)].
  unfold s. apply (prun_ind (fun s => p_ub s = false /\ p_term s = false /\ ready s)).
  - cbn. split; [done|]. split; [done|]. exists CIdle, (pre ++ [Stop; Destroy]). split; [done|]. left.
    destruct (pre ++ [Stop; Destroy]) as [|o rest] eqn:E; [by destruct pre|]. exists pre, o, rest. by split_and!.
  - intros s' a (H1 & H2 & H3). by apply ready_step.
Qed.
Print Assumptions C57_stopped_first.
(** As long as nobody destroys the poller its thread uses no destroyed object, however many threads start and stop it, and even if the program is terminated (C56). *)
Theorem C57_not_destroyed : forall progs acts, Forall (fun prog => Destroy ∉ prog) progs -> p_ub (prun (pst_new progs) acts) = false.
Proof.
  intros progs acts Hd.
  assert (H : p_ub (prun (pst_new progs) acts) = false /\ p_alive (prun (pst_new progs) acts) = true /\ Forall (fun c => Destroy ∉ pc_ops c) (p_callers (prun (pst_new progs) acts))); [|apply H].
  unfold prun. assert (H0 : p_ub (pst_new progs) = false /\ p_alive (pst_new progs) = true /\ Forall (fun c => Destroy ∉ pc_ops c) (p_callers (pst_new progs))).
  { split; [done|]. split; [done|]. cbn [pst_new p_callers]. apply Forall_fmap. exact Hd. }
  revert H0. generalize (pst_new progs). clear Hd. induction acts as [|a acts IH]; intros s H; [exact H|]. cbn [fold_left]. apply IH. destruct H as (Hu & Ha & Hc). unfold pstep. rewrite Hu.
  destruct (p_term s); cbn [orb]; [done|]. destruct a as [c t|t].
  - destruct (p_callers s !! c) as [[pc [|o ops]]|] eqn:E; try done.
    assert (Ho : Destroy ∉ o :: ops) by exact (Forall_lookup_1 _ _ _ _ Hc E). assert (o <> Destroy /\ Destroy ∉ ops) as [Ho1 Ho2] by (split; [intros ->; apply Ho; left|intros H; apply Ho; by right]).
    assert (F1 : forall pc', Forall (fun c => Destroy ∉ pc_ops c) (<[c := Caller pc' (o :: ops)]> (p_callers s))) by (intros; by apply Forall_insert).
    assert (F2 : Forall (fun c => Destroy ∉ pc_ops c) (<[c := Caller CIdle ops]> (p_callers s))) by (by apply Forall_insert).
    destruct pc, o; try done; repeat case_match; split_and!; cbn [p_ub p_alive p_callers]; auto.
  - destruct (p_thread s); cbn [p_ub p_alive p_callers]; auto. by rewrite Ha.
Qed.
Print Assumptions C57_not_destroyed.
Example C57_case : let s := prun (pst_new [[Start; Stop; Destroy]]) ([PCall 0 false; PCall 0 false; PCall 0 false; PThread false; PCall 0 false; PCall 0 false; PCall 0 false; PThread false; PCall 0 false; PCall 0 false]) in
  p_thread s = TNone /\ p_callers s = [Caller CIdle [Destroy]] /\ p_log (prun s (repeat (PCall 0 false) 3)) = [(0, Start, Returned); (0, Stop, Returned); (0, Destroy, Returned)].
Proof. done. Qed.
(** A start() that times out, then stop() and the destructor. *)
Example C57_timed_out_case : let s := prun (pst_new [[Start; Stop; Destroy]]) ([PCall 0 false; PCall 0 false; PCall 0 false; PCall 0 true; PThread false; PCall 0 false; PCall 0 false; PThread false; PCall 0 false; PCall 0 false] ++ repeat (PCall 0 false) 3) in
  p_log s = [(0, Start, Threw); (0, Stop, Returned); (0, Destroy, Returned)].
Proof. done. Qed.
