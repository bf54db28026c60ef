(** * C55: what holds of the locks of swap and copy assignment. *)
From stdpp Require Import prelude list_numbers.
From Verif Require Import SafeQueue_Model SafeQueue_Props.

(** ** Specification *)
(** The call has the mutex of queue [m]. *)
Definition holds (c : swap_call) (m : nat) : Prop := (sw_pc c = 1 /\ m = sw_this c) \/ (sw_pc c = 2 /\ (m = sw_this c \/ m = sw_arg c)).
Definition legal (n : nat) (calls : list (nat * nat)) : Prop := Forall (fun p => p.1 < n /\ p.2 < n) calls.
(** All calls lock queues in one order: [rank] grows from the queue assigned to, to the argument (self-swaps apart). *)
Definition ordered (rank : nat -> nat) (calls : list (nat * nat)) : Prop := Forall (fun p => p.1 = p.2 \/ rank p.1 < rank p.2) calls.
(** How many steps of the schedule do something. *)
Fixpoint effective (s : swap_st) (sched : list nat) : nat :=
  match sched with
  | [] => 0
  | t :: sched' =>
      (if decide (((fun c => sw_pc c) <$> sw_thr (swap_step s t)) = ((fun c => sw_pc c) <$> sw_thr s)) then 0 else 1)
      + effective (swap_step s t) sched'
  end.

(** ** Invariant *)
Record SI (n : nat) (calls : list (nat * nat)) (s : swap_st) : Prop := {
  si_len : length (sw_owner s) = n;
  si_calls : (fun c => (sw_this c, sw_arg c)) <$> sw_thr s = calls;
  si_own : forall m t, sw_owner s !! m = Some (Some t) <-> exists c, sw_thr s !! t = Some c /\ holds c m;
  si_self : forall t c, sw_thr s !! t = Some c -> sw_this c = sw_arg c -> sw_pc c = 0 \/ sw_pc c = 3;
  si_pc : forall t c, sw_thr s !! t = Some c -> sw_pc c <= 3
}.
Lemma si_bound n calls s t c : legal n calls -> SI n calls s -> sw_thr s !! t = Some c -> sw_this c < n /\ sw_arg c < n.
Proof.
  intros HL I Ht. unfold legal in HL. rewrite <- (si_calls _ _ _ I) in HL. rewrite Forall_forall in HL.
  apply (HL (sw_this c, sw_arg c)). apply elem_of_list_fmap. exists c. split; [done|]. by eapply elem_of_list_lookup_2.
Qed.
Lemma si_new n calls : SI n calls (swap_new n calls).
Proof.
  constructor; unfold swap_new; cbn [sw_owner sw_thr].
  - by rewrite repeat_length.
  - rewrite <- list_fmap_compose. rewrite <- (list_fmap_id calls) at 2. apply list_fmap_ext. intros i [a b] _. done.
  - intros m t. split.
    + intros H. apply elem_of_list_lookup_2, elem_of_list_In, repeat_spec in H. done.
    + intros (c & Hc & Hh). rewrite list_lookup_fmap in Hc. destruct (calls !! t); [|done]. injection Hc as <-. destruct Hh as [[H _]|[H _]]; done.
  - intros t c Hc _. rewrite list_lookup_fmap in Hc. destruct (calls !! t); [|done]. injection Hc as <-. by left.
  - intros t c Hc. rewrite list_lookup_fmap in Hc. destruct (calls !! t); [|done]. injection Hc as <-. cbn. lia.
Qed.
Lemma fmap_at (s : list swap_call) t c k : s !! t = Some c ->
  (fun c => (sw_this c, sw_arg c)) <$> <[t := SwapCall (sw_this c) (sw_arg c) k]> s = (fun c => (sw_this c, sw_arg c)) <$> s.
Proof. intros H. rewrite list_fmap_insert. cbn. apply list_insert_id. by rewrite list_lookup_fmap, H. Qed.
Lemma si_acquire n calls s t c m k :
  SI n calls s -> sw_thr s !! t = Some c -> sw_owner s !! m = Some None -> sw_this c <> sw_arg c ->
  (sw_pc c = 0 /\ m = sw_this c /\ k = 1 \/ sw_pc c = 1 /\ m = sw_arg c /\ k = 2) ->
  SI n calls (SwapSt (<[m := Some t]> (sw_owner s)) (<[t := SwapCall (sw_this c) (sw_arg c) k]> (sw_thr s))).
Proof.
  intros I Ht Hm Hne Hk. pose proof (lookup_lt_Some _ _ _ Ht) as Hlt. pose proof (lookup_lt_Some _ _ _ Hm) as Hml.
  constructor; cbn [sw_owner sw_thr].
  - rewrite insert_length. apply I.
  - rewrite (fmap_at _ _ _ _ Ht). apply I.
  - intros m' t'. split.
    + intros H. destruct (decide (m' = m)) as [->|Hmm].
      * rewrite list_lookup_insert in H by done. injection H as <-. eexists. rewrite list_lookup_insert by done. split; [done|].
        unfold holds. cbn. destruct Hk as [(_ & -> & ->)|(_ & -> & ->)]; auto.
      * rewrite list_lookup_insert_ne in H by done. apply (si_own _ _ _ I) in H as (c' & Hc' & Hh). destruct (decide (t' = t)) as [->|Htt].
        -- rewrite Ht in Hc'. injection Hc' as <-. eexists. rewrite list_lookup_insert by done. split; [done|].
           unfold holds in *. cbn. destruct Hk as [(E & -> & ->)|(E & -> & ->)]; destruct Hh as [[E' Hh]|[E' Hh]]; try congruence; auto.
        -- exists c'. by rewrite list_lookup_insert_ne by done.
    + intros (c' & Hc' & Hh). destruct (decide (t' = t)) as [->|Htt].
      * rewrite list_lookup_insert in Hc' by done. injection Hc' as <-. unfold holds in Hh. cbn in Hh.
        destruct Hk as [(E & -> & ->)|(E & -> & ->)]; destruct Hh as [[E' Hh]|[E' Hh]]; try done.
        -- subst m'. by rewrite list_lookup_insert by done.
        -- destruct Hh as [-> | ->]; [|by rewrite list_lookup_insert by done].
           rewrite list_lookup_insert_ne by done. apply (si_own _ _ _ I). exists c. split; [done|]. left. done.
      * rewrite list_lookup_insert_ne in Hc' by done. assert (sw_owner s !! m' = Some (Some t')) as Ho by (apply (si_own _ _ _ I); eauto).
        rewrite list_lookup_insert_ne; [done|]. intros ->. congruence.
  - intros t' c' Hc' E. destruct (decide (t' = t)) as [->|Htt].
    + rewrite list_lookup_insert in Hc' by done. injection Hc' as <-. done.
    + rewrite list_lookup_insert_ne in Hc' by done. by eapply I.
  - intros t' c' Hc'. destruct (decide (t' = t)) as [->|Htt].
    + rewrite list_lookup_insert in Hc' by done. injection Hc' as <-. cbn. lia.
    + rewrite list_lookup_insert_ne in Hc' by done. by eapply I.
Qed.
Lemma si_step n calls s t : legal n calls -> SI n calls s -> SI n calls (swap_step s t).
Proof.
  intros HL I. unfold swap_step. destruct (sw_thr s !! t) as [c|] eqn:Ht; [|done]. cbv zeta.
  pose proof (lookup_lt_Some _ _ _ Ht) as Hlt. destruct (si_bound _ _ _ _ _ HL I Ht) as [B1 B2].
  destruct (sw_pc c) as [|[|[|k]]] eqn:Hpc.
  - destruct (Nat.eqb_spec (sw_this c) (sw_arg c)) as [E|E].
    + constructor; cbn [sw_owner sw_thr].
      * apply I.
      * rewrite (fmap_at _ _ _ _ Ht). apply I.
      * intros m t'. rewrite (si_own _ _ _ I). split; intros (c' & Hc' & Hh).
        -- exists c'. split; [|done]. rewrite list_lookup_insert_ne; [done|]. intros <-. rewrite Ht in Hc'. injection Hc' as <-.
           unfold holds in Hh. rewrite Hpc in Hh. destruct Hh as [[? _]|[? _]]; done.
        -- destruct (decide (t = t')) as [<-|Htt]; [|rewrite list_lookup_insert_ne in Hc' by done; eauto].
           rewrite list_lookup_insert in Hc' by done. injection Hc' as <-. destruct Hh as [[? _]|[? _]]; done.
      * intros t' c' Hc'. destruct (decide (t = t')) as [<-|Htt]; [|rewrite list_lookup_insert_ne in Hc' by done; by eapply I].
        rewrite list_lookup_insert in Hc' by done. injection Hc' as <-. cbn. auto.
      * intros t' c' Hc'. destruct (decide (t = t')) as [<-|Htt]; [|rewrite list_lookup_insert_ne in Hc' by done; by eapply I].
        rewrite list_lookup_insert in Hc' by done. injection Hc' as <-. cbn. auto.
    + destruct (sw_owner s !! sw_this c) as [[u|]|] eqn:Eo; [done| |done]. apply si_acquire; auto.
  - assert (sw_this c <> sw_arg c) as E. { intros E. destruct (si_self _ _ _ I _ _ Ht E); congruence. }
    destruct (sw_owner s !! sw_arg c) as [[u|]|] eqn:Eo; [done| |done]. apply si_acquire; auto.
  - assert (sw_this c <> sw_arg c) as E. { intros E. destruct (si_self _ _ _ I _ _ Ht E); congruence. }
    assert (sw_owner s !! sw_this c = Some (Some t)) as O1. { apply (si_own _ _ _ I). exists c. split; [done|]. right. auto. }
    assert (sw_owner s !! sw_arg c = Some (Some t)) as O2. { apply (si_own _ _ _ I). exists c. split; [done|]. right. auto. }
    pose proof (lookup_lt_Some _ _ _ O1). pose proof (lookup_lt_Some _ _ _ O2).
    constructor; cbn [sw_owner sw_thr].
    + rewrite !insert_length. apply I.
    + rewrite (fmap_at _ _ _ _ Ht). apply I.
    + intros m t'. split.
      * intros Hm. destruct (decide (m = sw_this c)) as [->|N1]; [by rewrite list_lookup_insert in Hm by (by rewrite insert_length)|].
        rewrite list_lookup_insert_ne in Hm by done. destruct (decide (m = sw_arg c)) as [->|N2]; [by rewrite list_lookup_insert in Hm by done|].
        rewrite list_lookup_insert_ne in Hm by done. apply (si_own _ _ _ I) in Hm as (c' & Hc' & Hh). exists c'. split; [|done].
        rewrite list_lookup_insert_ne; [done|]. intros <-. rewrite Ht in Hc'. injection Hc' as <-. unfold holds in Hh. destruct Hh as [[? ->]|[_ [-> | ->]]]; done.
      * intros (c' & Hc' & Hh). destruct (decide (t = t')) as [<-|Htt].
        { rewrite list_lookup_insert in Hc' by done. injection Hc' as <-. destruct Hh as [[? _]|[? _]]; done. }
        rewrite list_lookup_insert_ne in Hc' by done. assert (sw_owner s !! m = Some (Some t')) as Ho by (apply (si_own _ _ _ I); eauto).
        rewrite !list_lookup_insert_ne; [done| |]; intros <-; congruence.
    + intros t' c' Hc'. destruct (decide (t = t')) as [<-|Htt]; [|rewrite list_lookup_insert_ne in Hc' by done; by eapply I].
      rewrite list_lookup_insert in Hc' by done. injection Hc' as <-. cbn. auto.
    + intros t' c' Hc'. destruct (decide (t = t')) as [<-|Htt]; [|rewrite list_lookup_insert_ne in Hc' by done; by eapply I].
      rewrite list_lookup_insert in Hc' by done. injection Hc' as <-. cbn. auto.
  - done.
Qed.
Lemma si_run n calls sched s : legal n calls -> SI n calls s -> SI n calls (swap_run s sched).
Proof. intros HL. revert s. induction sched as [|t sched IH]; intros s I; [done|]. cbn [swap_run fold_left]. apply IH. by apply si_step. Qed.

(** ** Progress *)
Definition todo (s : swap_st) : nat := sum_list ((fun c => 3 - sw_pc c) <$> sw_thr s).
Lemma todo_insert (l : list swap_call) t c k : l !! t = Some c -> k <= 3 -> sw_pc c < k ->
  sum_list ((fun c => 3 - sw_pc c) <$> <[t := SwapCall (sw_this c) (sw_arg c) k]> l) < sum_list ((fun c => 3 - sw_pc c) <$> l).
Proof.
  intros Ht Hk Hlt. revert t Ht. induction l as [|d l IH]; intros t Ht; [done|]. destruct t as [|t].
  - cbn in Ht. injection Ht as ->. cbn [insert list_insert fmap list_fmap sum_list sum_list_with sw_pc]. cbn. lia.
  - specialize (IH t Ht). cbn [insert list_insert fmap list_fmap sum_list sum_list_with] in IH |- *. unfold fmap, insert in *. lia.
Qed.
(** Either nothing changes or the work left decreases. *)
Lemma step_todo n calls s t : SI n calls s -> swap_step s t = s \/ todo (swap_step s t) < todo s.
Proof.
  intros I. unfold swap_step. destruct (sw_thr s !! t) as [c|] eqn:Ht; [|by left]. cbv zeta. pose proof (si_pc _ _ _ I _ _ Ht) as Hpc.
  destruct (sw_pc c) as [|[|[|k]]] eqn:E; [..|by left].
  - destruct (_ =? _); [right; apply todo_insert; [done|lia|lia]|]. destruct (sw_owner s !! _) as [[u|]|]; [by left| |by left].
    right. apply todo_insert; [done|lia|lia].
  - destruct (sw_owner s !! _) as [[u|]|]; [by left| |by left]. right. apply todo_insert; [done|lia|lia].
  - right. apply todo_insert; [done|lia|lia].
Qed.
Lemma lookup_bound (s : swap_st) n m : length (sw_owner s) = n -> m < n -> sw_owner s !! m = Some None \/ exists u, sw_owner s !! m = Some (Some u).
Proof. intros E H. destruct (sw_owner s !! m) as [[u|]|] eqn:Eo; [eauto|by left|]. apply lookup_ge_None in Eo. lia. Qed.
Lemma pc_moves (l : list swap_call) t c k : l !! t = Some c -> k <> sw_pc c -> <[t := SwapCall (sw_this c) (sw_arg c) k]> l <> l.
Proof.
  intros H Hk E. assert (l !! t = Some (SwapCall (sw_this c) (sw_arg c) k)) as H2.
  { rewrite <- E. apply list_lookup_insert. by eapply lookup_lt_Some. }
  rewrite H in H2. injection H2 as H2. apply Hk. rewrite H2. done.
Qed.
Lemma moves_pc2 s t c : sw_thr s !! t = Some c -> sw_pc c = 2 -> swap_step s t <> s.
Proof. intros Ht E H. apply (f_equal sw_thr) in H. unfold swap_step in H. rewrite Ht in H. cbv zeta in H. rewrite E in H. cbn in H. eapply pc_moves in H; [done|done|congruence]. Qed.
Lemma holder_moves n calls rank s B : legal n calls -> ordered rank calls -> SI n calls s -> (forall q, q < n -> rank q <= B) ->
  forall k t c, sw_thr s !! t = Some c -> sw_pc c = 1 -> B - rank (sw_this c) <= k -> exists u, swap_step s u <> s.
Proof.
  intros HL HO I HB. induction k as [k IH] using lt_wf_ind. intros t c Ht Hpc Hk.
  destruct (si_bound _ _ _ _ _ HL I Ht) as [B1 B2].
  assert (sw_this c <> sw_arg c) as Hne. { intros E. destruct (si_self _ _ _ I _ _ Ht E); congruence. }
  assert (rank (sw_this c) < rank (sw_arg c)) as Hr.
  { unfold ordered in HO. rewrite <- (si_calls _ _ _ I) in HO. rewrite Forall_forall in HO.
    destruct (HO (sw_this c, sw_arg c)) as [E|E]; [|done|exact E]. apply elem_of_list_fmap. exists c. split; [done|]. by eapply elem_of_list_lookup_2. }
  destruct (lookup_bound s n (sw_arg c) (si_len _ _ _ I) B2) as [Eo|[u Eo]].
  - exists t. intros H. apply (f_equal sw_thr) in H. unfold swap_step in H. rewrite Ht in H. cbv zeta in H. rewrite Hpc, Eo in H. cbn in H.
    eapply pc_moves in H; [done|done|congruence].
  - apply (si_own _ _ _ I) in Eo as (d & Hd & Hh). unfold holds in Hh. destruct Hh as [[E1 E2]|[E1 _]].
    + pose proof (HB _ B2) as HB2. apply (IH (B - rank (sw_this d))) with (t := u) (c := d); [rewrite <- E2; lia|done|done|lia].
    + exists u. by eapply moves_pc2.
Qed.
Lemma some_move n calls rank s : legal n calls -> ordered rank calls -> SI n calls s -> ~ swaps_done s -> exists u, swap_step s u <> s.
Proof.
  intros HL HO I Hnd.
  assert (exists t c, sw_thr s !! t = Some c /\ sw_pc c <> 3) as (t & c & Ht & Hpc).
  { unfold swaps_done in Hnd. apply not_Forall_Exists in Hnd; [|intros x; apply _]. apply Exists_exists in Hnd as (c & Hin & Hc).
    apply elem_of_list_lookup in Hin as [t Ht]. exists t, c. done. }
  pose proof (si_pc _ _ _ I _ _ Ht) as Hle. destruct (si_bound _ _ _ _ _ HL I Ht) as [B1 B2].
  set (B := max_list (rank <$> seq 0 n)).
  assert (forall q, q < n -> rank q <= B) as HB.
  { intros q Hq. unfold B. apply max_list_elem_of_le, elem_of_list_fmap. exists q. split; [done|]. apply elem_of_seq. lia. }
  destruct (sw_pc c) as [|[|[|k]]] eqn:E; [| | |lia].
  - destruct (Nat.eqb_spec (sw_this c) (sw_arg c)) as [Es|Es].
    + exists t. intros H. apply (f_equal sw_thr) in H. unfold swap_step in H. rewrite Ht in H. cbv zeta in H. rewrite E in H.
      rewrite (proj2 (Nat.eqb_eq _ _) Es) in H. cbn in H. eapply pc_moves in H; [done|done|congruence].
    + destruct (lookup_bound s n (sw_this c) (si_len _ _ _ I) B1) as [Eo|[u Eo]].
      * exists t. intros H. apply (f_equal sw_thr) in H. unfold swap_step in H. rewrite Ht in H. cbv zeta in H. rewrite E in H.
        rewrite (proj2 (Nat.eqb_neq _ _) Es), Eo in H. cbn in H. eapply pc_moves in H; [done|done|congruence].
      * apply (si_own _ _ _ I) in Eo as (d & Hd & Hh). unfold holds in Hh. destruct Hh as [[E1 E2]|[E1 _]].
        -- by eapply holder_moves.
        -- exists u. by eapply moves_pc2.
  - by eapply holder_moves.
  - exists t. by eapply moves_pc2.
Qed.

(** ** C55 *)
(** Safety, for all calls: two calls never have the same mutex; and when all have returned every mutex is free (no self-deadlock of
    self-swaps, no lock left behind). *)
Theorem C55_exclusive : forall n calls sched t u c d m, legal n calls -> let s := swap_run (swap_new n calls) sched in
  sw_thr s !! t = Some c -> sw_thr s !! u = Some d -> holds c m -> holds d m -> t = u.
Proof.
  intros n calls sched t u c d m HL s Ht Hu Hc Hd. pose proof (si_run n calls sched _ HL (si_new n calls)) as I. fold s in I.
  assert (sw_owner s !! m = Some (Some t)) as H1 by (apply (si_own _ _ _ I); eauto).
  assert (sw_owner s !! m = Some (Some u)) as H2 by (apply (si_own _ _ _ I); eauto). congruence.
Qed.
Print Assumptions C55_exclusive.
Theorem C55_all_released : forall n calls sched, legal n calls -> let s := swap_run (swap_new n calls) sched in
  swaps_done s -> sw_owner s = repeat None n.
Proof.
  intros n calls sched HL s Hd. pose proof (si_run n calls sched _ HL (si_new n calls)) as I. fold s in I.
  apply list_eq_same_length with (n := n); [by rewrite repeat_length|apply I|]. intros i x y Hi Hx Hy.
  apply elem_of_list_lookup_2, elem_of_list_In, repeat_spec in Hy as ->. destruct x as [t|]; [|done]. exfalso.
  apply (si_own _ _ _ I) in Hx as (c & Hc & Hh). unfold swaps_done in Hd. rewrite Forall_forall in Hd. apply elem_of_list_lookup_2, Hd in Hc.
  unfold holds in Hh. lia.
Qed.
Print Assumptions C55_all_released.
(** Liveness, when all calls lock in one order (for example: every queue is only ever filled from queues of higher index): never a
    deadlock, from whatever point of whatever schedule the calls can all return; and every schedule does at most three steps per call, so
    every schedule that keeps running threads that can run ends with all of them returned. *)
Theorem C106_ordered : forall rank n calls sched, legal n calls -> ordered rank calls ->
  exists sched', swaps_done (swap_run (swap_new n calls) (sched ++ sched')).
Proof.
  intros rank n calls sched HL HO. unfold swap_run. setoid_rewrite fold_left_app. fold (swap_run (swap_new n calls) sched).
  pose proof (si_run n calls sched _ HL (si_new n calls)) as I. generalize dependent (swap_run (swap_new n calls) sched). intros s I.
  remember (todo s) as k eqn:Ek. revert s I Ek. induction k as [k IH] using lt_wf_ind. intros s I ->.
  destruct (decide (Forall (fun c => sw_pc c = 3) (sw_thr s))) as [Hd|Hnd].
  - by exists [].
  - destruct (some_move n calls rank s HL HO I Hnd) as [u Hu]. destruct (step_todo n calls s u I) as [E|Hlt]; [done|].
    destruct (IH _ Hlt _ (si_step n calls s u HL I) eq_refl) as [sched' Hs]. by exists (u :: sched').
Qed.
Print Assumptions C106_ordered.
Theorem C106_no_deadlock : forall rank n calls sched, legal n calls -> ordered rank calls -> let s := swap_run (swap_new n calls) sched in
  swaps_done s \/ exists t, swap_step s t <> s.
Proof.
  intros rank n calls sched HL HO s. pose proof (si_run n calls sched _ HL (si_new n calls)) as I. fold s in I.
  destruct (decide (Forall (fun c => sw_pc c = 3) (sw_thr s))) as [Hd|Hnd]; [by left|right]. by eapply some_move.
Qed.
Print Assumptions C106_no_deadlock.
Theorem C55_bounded_steps : forall n calls sched, legal n calls -> effective (swap_new n calls) sched <= 3 * length calls.
Proof.
  intros n calls sched HL.
  assert (forall s, SI n calls s -> effective s sched <= todo s) as H.
  { induction sched as [|t sched IH]; intros s I; [cbn; lia|]. cbn [effective]. specialize (IH _ (si_step n calls s t HL I)).
    destruct (step_todo n calls s t I) as [E|Hlt]; [rewrite E in *; rewrite decide_True by done; lia|]. destruct (decide _); lia. }
  specialize (H _ (si_new n calls)). assert (todo (swap_new n calls) = 3 * length calls) as <-; [|done].
  unfold todo, swap_new. cbn [sw_thr]. clear. induction calls as [|p calls IH]; [done|]. cbn in IH |- *. rewrite IH. lia.
Qed.
Print Assumptions C55_bounded_steps.
(** Three queues; 0 := 1, 1 := 2, 0 := 2 and a self-swap. *)
Example C55_case : let calls := [(0, 1); (1, 2); (0, 2); (1, 1)] in
  legal 3 calls /\ ordered (fun q => q) calls /\ swaps_done (swap_run (swap_new 3 calls) [0; 1; 2; 3; 0; 1; 1; 2; 0; 0; 2; 2; 2]).
Proof. split; [|split]; repeat constructor; cbn; lia. Qed.
