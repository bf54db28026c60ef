(** * Networks of in-memory providers: what does not work (C107, C108), and examples. *)
From Coq Require Import Lia Sorted.
From stdpp Require Import prelude.
From Verif Require Import Forward_Model Forward_Spec Forward_Props Forward_Thms.
(** C108, a listener that publishes to its own provider: whatever the capacity, one publisher is enough to block the polling thread in its own queue for ever. *)
Definition echo (i : nat) (v : unit) : list (nat * unit) := [(0, v)].
Definition never (i : nat) : bool := false.
Lemma fill c k m q p on dn log inn ctl w : length q + k <= c ->
  f_run (fun _ => c) never echo (Net [Node q p on dn log inn] [replicate (k + m) (0, tt)] ctl w) (replicate k (FExt 0)) =
  Net [Node (q ++ replicate k (SrcExt 0, tt)) p on dn log (inn ++ replicate k (SrcExt 0, tt))] [replicate m (0, tt)] ctl w.
Proof.
  revert q inn. induction k as [|k IH]; intros q inn Hk; [cbn; by rewrite !app_nil_r|].
  assert (E : f_step (fun _ => c) never echo (Net [Node q p on dn log inn] [replicate (S k + m) (0, tt)] ctl w) (FExt 0) =
    Net [Node (q ++ [(SrcExt 0, tt)]) p on dn log (inn ++ [(SrcExt 0, tt)])] [replicate (k + m) (0, tt)] ctl w).
  { simpl. unfold push. simpl. destruct (Nat.ltb_spec (length q) c); [done|lia]. }
  specialize (IH (q ++ [(SrcExt 0, tt)]) (inn ++ [(SrcExt 0, tt)])). rewrite <- !(assoc_L (++)) in IH. cbn [replicate]. rewrite <- E in IH.
  apply IH. rewrite app_length. cbn. lia.
Qed.
Theorem C108_own_queue_refuted c : 0 < c -> exists progs acts,
  let s := f_run (fun _ => c) never echo (f_new 1 progs []) acts in
  (exists nd, t_nodes s !! 0 = Some nd /\ n_pend nd <> [] /\ n_done nd = false) /\ forall more, f_run (fun _ => c) never echo s more = s.
Proof.
  intros Hc. exists [replicate (1 + (c + 0)) (0, tt)], (FExt 0 :: FPoll 0 :: replicate c (FExt 0)).
  assert (E : f_run (fun _ => c) never echo (f_new 1 [replicate (1 + (c + 0)) (0, tt)] []) (FExt 0 :: FPoll 0 :: replicate c (FExt 0)) =
    Net [Node (replicate c (SrcExt 0, tt)) [(0, tt)] true false [(SrcExt 0, tt)] ((SrcExt 0, tt) :: replicate c (SrcExt 0, tt))] [[]] [] false).
  { pose proof (fill c c 0 [] [(0, tt)] true false [(SrcExt 0, tt)] [(SrcExt 0, tt)] [] false ltac:(cbn; lia)) as F. cbn [app replicate] in F.
    rewrite <- F. clear F. destruct c as [|c]; [lia|]. unfold f_run. change (fold_left ?f (?x :: ?y :: ?l) ?s) with (fold_left f l (f (f s x) y)). f_equal. }
  rewrite E. cbn zeta. split.
  - eexists. split; [done|]. cbn. done.
  - induction more as [|a more IH]; [done|]. unfold f_run in *. cbn [fold_left]. rewrite <- IH at 2. f_equal.
    destruct a as [[|i]|[|t]|]; cbn [f_step t_nodes t_ext t_ctl lookup list_lookup]; try done.
    cbn [n_done n_pend]. unfold push. cbn [insert list_insert lookup list_lookup never n_q n_on n_log n_in n_done n_pend]. rewrite replicate_length, Nat.ltb_irrefl. done.
Qed.
(** C108, providers stopped against the direction of the events: stop() of the first one never returns, whatever the capacities. *)
Definition chain2 (i : nat) (v : unit) : list (nat * unit) := match i with 0 => [(1, v)] | _ => [] end.
Definition mid (c0 c1 k m : nat) : net unit :=
  Net [Node [] [] true false (replicate k (SrcExt 0, tt)) (replicate k (SrcExt 0, tt));
       Node (replicate k (SrcNode 0, tt)) [] false true [] (replicate k (SrcNode 0, tt))] [replicate m (0, tt)] [0] false.
Definition caps (c0 c1 : nat) (i : nat) : nat := match i with 0 => c0 | _ => c1 end.
Lemma repl_snoc {A} k (x : A) : replicate k x ++ [x] = replicate (S k) x.
Proof. induction k as [|k IH]; [done|]. cbn. f_equal. exact IH. Qed.
Lemma mid_step c0 c1 k m : 0 < c0 -> k < c1 -> f_run (caps c0 c1) never chain2 (mid c0 c1 k (S m)) [FExt 0; FPoll 0; FPoll 0] = mid c0 c1 (S k) m.
Proof.
  intros H0 H1. unfold f_run, mid. cbn [fold_left]. cbn [f_step t_ext t_nodes lookup list_lookup replicate]. unfold push. cbn [lookup list_lookup never n_q caps length].
  destruct (Nat.ltb_spec 0 c0); [|lia]. cbn [insert list_insert n_q n_pend n_on n_done n_log n_in t_nodes t_ext t_ctl t_waiting app lookup list_lookup chain2 snd].
  cbn [caps never]. rewrite replicate_length. destruct (Nat.ltb_spec k c1); [|lia].
  cbn [insert list_insert n_q n_pend n_on n_done n_log n_in t_nodes t_ext t_ctl t_waiting app]. change ((SrcExt 0, tt) :: replicate k (SrcExt 0, tt)) with (replicate (S k) (SrcExt 0, tt)).
  by rewrite !repl_snoc.
Qed.
Lemma mid_run c0 c1 k j m : 0 < c0 -> j + k <= c1 -> f_run (caps c0 c1) never chain2 (mid c0 c1 j (k + m)) (concat (replicate k [FExt 0; FPoll 0; FPoll 0])) = mid c0 c1 (j + k) m.
Proof.
  intros H0. revert j. induction k as [|k IH]; intros j Hk; [cbn; by rewrite Nat.add_0_r|].
  cbn [replicate concat Nat.add]. unfold f_run. rewrite fold_left_app. fold (f_run (caps c0 c1) never chain2 (mid c0 c1 j (S (k + m))) [FExt 0; FPoll 0; FPoll 0]).
  rewrite mid_step by lia. fold (f_run (caps c0 c1) never chain2 (mid c0 c1 (S j) (k + m)) (concat (replicate k [FExt 0; FPoll 0; FPoll 0]))). rewrite IH by lia. f_equal. lia.
Qed.
Theorem C108_stop_order_refuted c0 c1 : 0 < c0 -> 0 < c1 -> exists progs acts,
  let s := f_run (caps c0 c1) never chain2 (f_new 2 progs [1; 0]) acts in
  t_ctl s = [0] /\ forall more, t_ctl (f_run (caps c0 c1) never chain2 s more) = [0].
Proof.
  intros H0 H1. exists [replicate (c1 + 1) (0, tt)], ([FCtl; FPoll 1; FCtl] ++ concat (replicate c1 [FExt 0; FPoll 0; FPoll 0]) ++ [FExt 0; FPoll 0; FCtl]).
  assert (E : f_run (caps c0 c1) never chain2 (f_new 2 [replicate (c1 + 1) (0, tt)] [1; 0]) ([FCtl; FPoll 1; FCtl] ++ concat (replicate c1 [FExt 0; FPoll 0; FPoll 0]) ++ [FExt 0; FPoll 0; FCtl]) =
    Net [Node [] [(1, tt)] false false (replicate (S c1) (SrcExt 0, tt)) (replicate (S c1) (SrcExt 0, tt));
       Node (replicate c1 (SrcNode 0, tt)) [] false true [] (replicate c1 (SrcNode 0, tt))] [[]] [0] true).
  { unfold f_run. rewrite !fold_left_app. change (fold_left (f_step (caps c0 c1) never chain2) [FCtl; FPoll 1; FCtl] (f_new 2 [replicate (c1 + 1) (0, tt)] [1; 0])) with (mid c0 c1 0 (c1 + 1)).
    pose proof (mid_run c0 c1 c1 0 1 H0 ltac:(lia)) as M. unfold f_run in M. rewrite M. cbn [Nat.add]. unfold mid. cbn [fold_left].
    cbn [f_step t_ext t_nodes lookup list_lookup replicate]. unfold push. cbn [lookup list_lookup never n_q caps length].
    destruct (Nat.ltb_spec 0 c0); [|lia]. cbn [insert list_insert n_q n_pend n_on n_done n_log n_in t_nodes t_ext t_ctl t_waiting app lookup list_lookup chain2 snd].
    change ((SrcExt 0, tt) :: replicate c1 (SrcExt 0, tt)) with (replicate (S c1) (SrcExt 0, tt)). by rewrite !repl_snoc. }
  rewrite E. cbn zeta. split; [done|]. intros more.
  assert (Hs : forall more s, s = Net [Node [] [(1, tt)] false false (replicate (S c1) (SrcExt 0, tt)) (replicate (S c1) (SrcExt 0, tt));
       Node (replicate c1 (SrcNode 0, tt)) [] false true [] (replicate c1 (SrcNode 0, tt))] [[]] [0] true -> f_run (caps c0 c1) never chain2 s more = s).
  { clear -H1. induction more as [|a more IH]; intros s Hs; [done|]. unfold f_run. cbn [fold_left]. rewrite <- (IH s Hs) at 2. unfold f_run. f_equal. subst s.
    destruct a as [[|[|i]]|[|t]|]; cbn [f_step t_nodes t_ext t_ctl lookup list_lookup]; try done.
    cbn [n_done n_pend]. unfold push. cbn [insert list_insert lookup list_lookup never n_q n_on n_log n_in n_done n_pend caps]. rewrite replicate_length, Nat.ltb_irrefl. done. }
  by rewrite (Hs more _ eq_refl).
Qed.
(** Hypotheses of C107 met: three providers, the first feeds both others, the second feeds the third; capacities 1, 2 and 1. *)
Definition net3 (i : nat) (v : nat) : list (nat * nat) := match i with 0 => [(1, v + 10); (2, v + 20)] | 1 => [(2, v + 100)] | _ => [] end.
Definition caps3 (i : nat) : nat := match i with 1 => 2 | _ => 1 end.
Definition round3 : list fact := [FExt 0; FExt 1; FPoll 0; FPoll 1; FPoll 2; FCtl].
Definition progs3 : list (list (nat * nat)) := [[(0, 1); (0, 2)]; [(2, 7)]].
Example C107_hypotheses : forward_only 3 net3 /\ in_net 3 progs3 /\ fair_round 3 2 round3 /\ StronglySorted lt [0; 1; 2].
Proof.
  split_and!.
  - intros [|[|i]] v j w H; unfold net3 in H; rewrite ?elem_of_cons, ?elem_of_nil in H.
    + destruct H as [H|[H|[]]]; apply (f_equal fst) in H; cbn in H; lia.
    + destruct H as [H|[]]; apply (f_equal fst) in H; cbn in H; lia.
    + done.
  - intros p j v H1 H2. unfold progs3 in H1. rewrite ?elem_of_cons, ?elem_of_nil in H1. destruct H1 as [-> |[-> |[]]]; rewrite ?elem_of_cons, ?elem_of_nil in H2; naive_solver lia.
  - split_and!; [intros i Hi; assert (i = 0 \/ i = 1 \/ i = 2) as [-> |[-> | ->]] by lia|intros t Ht; assert (t = 0 \/ t = 1) as [-> | ->] by lia|]; unfold round3; rewrite !elem_of_cons; tauto.
  - repeat constructor; lia.
Qed.
Example C107_example : let s := f_run caps3 never net3 (f_new 3 progs3 []) (concat (replicate 20 round3)) in
  (fun nd => snd <$> n_log nd) <$> t_nodes s = [[1; 2]; [11; 12]; [7; 21; 111; 22; 112]] /\ t_ext s = [[]; []].
Proof. by vm_compute. Qed.
Example C107_example_stops : t_ctl (f_run caps3 never net3 (f_new 3 progs3 [0; 1; 2]) (concat (replicate 20 round3))) = [].
Proof. by vm_compute. Qed.
Print Assumptions C107_flow.
Print Assumptions C107_newest_kept.
Print Assumptions C107_everything_arrives.
Print Assumptions C107_stops_in_order.
Print Assumptions C108_own_queue_refuted.
Print Assumptions C108_stop_order_refuted.
