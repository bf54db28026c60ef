(** * C183, C184: what isRunning() of a poller says. *)
From stdpp Require Import prelude.
From Verif Require Import Poller_Model Poller_Proofs.

(** ** Specification *)
(** The polling thread is in its loop. *)
Definition polling (s : pst) : Prop := p_thread s = TCheck \/ p_thread s = TBody.
(** The only thread that calls start and stop is between two calls. *)
Definition between_calls (s : pst) : Prop := exists ops, p_callers s = [Caller CIdle ops].

(** ** Proofs *)
Definition RInv (s : pst) : Prop := forall pc ops, p_callers s = [Caller pc ops] -> match pc with CIdle => p_running s = p_started s | CStopClear => p_running s = true | _ => True end.
Definition TInv (s : pst) : Prop := p_thread s = TEnded -> p_running s = false.
Lemma r_step s a : OneInv s -> ~ timed_out (pstep s a) -> RInv s -> RInv (pstep s a).
Proof.
  intros I Hto R. pose proof I as (Hub & Htm & Hal & pc & ops & Hc & Hd & H). specialize (R pc ops Hc) as R0. revert Hto. unfold pstep. rewrite Hub, Htm. cbn [orb].
  destruct a as [c timedout|throws].
  - rewrite Hc. destruct c as [|c]; [|cbn; done]. cbn [lookup list_lookup]. destruct ops as [|o ops]; [done|]. apply not_elem_of_cons in Hd as [Hd0 Hd].
    destruct pc; cbn [insert list_insert]; cbv zeta; try done.
    + destruct o; [| |done]; destruct (p_started s) eqn:Es; intros _ pc' ops' E; cbn in E |- *; injection E as <- <-; done.
    + intros _ pc' ops' E; cbn in E |- *; injection E as <- <-; done.
    + destruct H as (_ & _ & -> & _). intros _ pc' ops' E; cbn in E |- *; injection E as <- <-; done.
    + destruct H as (_ & Hst & H). destruct (p_running s) eqn:Er.
      * intros _ pc' ops' E; cbn in E |- *; injection E as <- <-; done.
      * destruct timedout; [|done]. intros Hto. exfalso. apply Hto. exists 0, o. cbn. apply elem_of_app. right. constructor.
    + intros _ pc' ops' E; cbn in E |- *; injection E as <- <-; done.
    + destruct H as (_ & _ & H & _). destruct H as [->|[->| ->]]; [done|done|]. intros _ pc' ops' E; cbn in E |- *; injection E as <- <-; done.
    + destruct H as (_ & _ & _ & ->). intros _ pc' ops' E; cbn in E |- *; injection E as <- <-; done.
  - intros _. destruct (p_thread s) eqn:Et; [exact R| | | |exact R].
    all: intros pc' ops' E; cbn [p_callers p_running p_started] in *; rewrite Hc in E; injection E as <- <-; unfold past_begin in H; destruct pc; try done; destruct (p_started s); intuition congruence.
Qed.
Lemma t_step s a : OneInv s -> a <> PThread true -> TInv s -> TInv (pstep s a).
Proof.
  intros I Ha T. pose proof I as (Hub & Htm & Hal & pc & ops & Hc & Hd & H). unfold pstep. rewrite Hub, Htm. cbn [orb].
  destruct a as [c timedout|throws].
  - rewrite Hc. destruct c as [|c]; [|exact T]. cbn [lookup list_lookup]. destruct ops as [|o ops]; [exact T|]. apply not_elem_of_cons in Hd as [Hd0 Hd].
    destruct pc; cbn [insert list_insert]; cbv zeta; try done.
    + destruct o; [| |done]; destruct (p_started s); exact T.
    + destruct H as (_ & _ & -> & _). intros ?. done.
    + destruct (p_running s) eqn:Er; [intros E; cbn in E; specialize (T E); congruence|]. destruct timedout; [intros _; done|exact T].
    + destruct H as (_ & _ & H & _). destruct H as [E|[E|E]]; rewrite E; [exact T|exact T|intros ?; done].
  - destruct throws; [done|]. destruct (p_thread s) eqn:Et; [exact T| | | |exact T].
    + intros E. done.
    + intros E. cbn in *. by destruct (p_running s).
    + intros E. done.
Qed.
Lemma rt_run prog acts : Destroy ∉ prog -> let s := prun (pst_new [prog]) acts in ~ timed_out s -> RInv s /\ (PThread true ∉ acts -> TInv s).
Proof.
  intros Hd. induction acts as [|a acts IH] using rev_ind; cbv zeta in *.
  - intros _. split; [|intros _ E; done]. intros pc ops E. cbn in E. injection E as <- <-. done.
  - rewrite prun_app. intros Ht. cbn [prun fold_left] in *. fold (prun (pst_new [prog]) acts) in *. set (s := prun (pst_new [prog]) acts) in *.
    assert (Ht0 : ~ timed_out s). { intros (c & o & Hin). apply Ht. exists c, o. destruct (log_grows s a) as [k ->]. apply elem_of_app. by left. }
    pose proof (one_run prog acts Hd Ht0) as I. fold s in I. destruct (IH Ht0) as [R T]. split; [by apply r_step|]. intros Hn. apply not_elem_of_app in Hn as [Hn1 Hn2].
    apply t_step; [done|intros ->; apply Hn2; constructor|by apply T].
Qed.
(** C183: one thread calls start and stop, in any order; no start timed out; no listener throws. Between its calls isRunning() says whether the polling thread is polling. *)
Theorem C183_is_running prog acts : Destroy ∉ prog -> let s := prun (pst_new [prog]) acts in
  ~ timed_out s -> PThread true ∉ acts -> between_calls s -> (p_running s = true <-> polling s).
Proof.
  intros Hd s Ht Hn [ops Hc]. destruct (rt_run prog acts Hd Ht) as [R T]. fold s in R, T. specialize (R CIdle ops Hc). specialize (T Hn).
  destruct (one_run prog acts Hd Ht) as (_ & _ & _ & pc & ops' & Hc' & _ & H). fold s in Hc', H. rewrite Hc in Hc'. injection Hc' as <- <-. unfold polling. split.
  - intros Hr. rewrite Hr in R. rewrite <-R in H. destruct H as [H|[H|H]]; [by left|by right|]. by rewrite (T H) in Hr.
  - intros Hp. rewrite R. destruct (p_started s); [done|]. destruct H as [H _]. destruct Hp; congruence.
Qed.
Print Assumptions C183_is_running.
(** start, a poll, stop, start again: polling, not polling, polling. *)
Example C183_case : let acts := [PCall 0 false; PCall 0 false; PCall 0 false; PThread false; PCall 0 false; PThread false; PThread false] in
  let more := [PCall 0 false; PCall 0 false; PThread false; PCall 0 false; PCall 0 false] in
  let s1 := prun (pst_new [[Start; Stop; Start]]) acts in let s2 := prun s1 more in
  ~ timed_out s2 /\ between_calls s1 /\ p_running s1 = true /\ polling s1 /\ between_calls s2 /\ p_running s2 = false /\ p_thread s2 = TNone.
Proof. vm_compute. split_and!; try done; [|by eexists|by left|by eexists]. intros (c & o & H). apply elem_of_list_In in H. cbn in H. intuition congruence. Qed.
(** C184: false when a listener throws: the polling thread is gone, and isRunning() says true until stop() is called, whatever happens meanwhile. *)
Theorem C184_refuted : exists acts, let s := prun (pst_new [[Start]]) acts in
  ~ timed_out s /\ between_calls s /\ forall more, p_running (prun s more) = true /\ p_thread (prun s more) = TEnded.
Proof.
  exists [PCall 0 false; PCall 0 false; PCall 0 false; PThread false; PCall 0 false; PThread false; PThread true]. cbv zeta. set (s := prun _ _). split_and!.
  - vm_compute. intros (c & o & H). apply elem_of_list_In in H. cbn in H. intuition congruence.
  - by eexists.
  - intros more. assert (E : prun s more = s); [|by rewrite E]. induction more as [|a more IH]; [done|]. cbn [prun fold_left]. fold (prun (pstep s a) more).
    assert (Ea : pstep s a = s); [|by rewrite Ea]. destruct a as [[|c] t|t]; [done| |done]. cbn. done.
Qed.
Print Assumptions C184_refuted.
