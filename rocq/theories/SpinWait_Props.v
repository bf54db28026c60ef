(** * C179: the waits that spin. *)
From stdpp Require Import prelude.
From Verif Require Import SpinWait_Model.
Local Open Scope Z_scope.
(** ** Specification: nothing to return and no alert in this turn. *)
Definition idle_turn (seq : Z) (i : turn) : Prop := tu_value i < seq /\ tu_alerted i = false.
(** What n turns in vain do between the reads: busy_spin only spins; yielding spins [tries] times and then yields; sleeping spins until 100 tries are left, yields for these, and then sleeps. *)
Definition pauses_of (g : spin) (n : nat) : list pause :=
  match g with
  | Busy => repeat PSpin n
  | Yielding t => take n (repeat PSpin (Z.to_nat t)) ++ repeat PYield (n - Z.to_nat t)
  | Sleeping r => take n (repeat PSpin (Z.to_nat (r - 100))) ++ take (n - Z.to_nat (r - 100)) (repeat PYield (Z.to_nat (Z.min r 100))) ++ repeat PSleep (n - Z.to_nat r)
  end.
Definition sane (g : spin) : Prop := match g with Busy => True | Yielding n | Sleeping n => 0 <= n end.

Lemma w_snoc g seq ins i : w_wait g seq (ins ++ [i]) = w_turn g seq (w_wait g seq ins) i.
Proof. unfold w_wait. by rewrite fold_left_app. Qed.
Lemma take_rep {A} (x : A) n m : take n (repeat x m) = repeat x (Nat.min n m).
Proof. revert m; induction n as [|n IH]; intros [|m]; cbn; try done. by rewrite IH. Qed.
Lemma rep_snoc {A} (x : A) n : repeat x n ++ [x] = repeat x (S n).
Proof. induction n as [|n IH]; [done|]. cbn in *. by rewrite IH. Qed.
Definition counter_of (g : spin) (n : nat) : Z := match g with Busy => 0 | Yielding t => Z.max 0 (t - Z.of_nat n) | Sleeping r => Z.max 0 (r - Z.of_nat n) end.
Lemma pause_step g n : sane g -> pause_of g (counter_of g n) = (counter_of g (S n), default PSpin (last (pauses_of g (S n)))) /\ pauses_of g (S n) = pauses_of g n ++ [default PSpin (last (pauses_of g (S n)))].
Proof.
  intros Hg. destruct g as [|t|r]; cbn [pause_of counter_of pauses_of sane] in *.
  - rewrite <-rep_snoc, last_snoc. done.
  - rewrite !take_rep. destruct (Z.eqb_spec (Z.max 0 (t - Z.of_nat n)) 0) as [E|E].
    + replace (S n - Z.to_nat t)%nat with (S (n - Z.to_nat t)) by lia. rewrite <-rep_snoc, app_assoc, last_snoc. cbn [default]. replace (Nat.min (S n) (Z.to_nat t)) with (Nat.min n (Z.to_nat t)) by lia. split; [|done]. f_equal. lia.
    + replace (S n - Z.to_nat t)%nat with 0%nat by lia. replace (n - Z.to_nat t)%nat with 0%nat by lia. cbn [repeat]. rewrite !app_nil_r.
      replace (Nat.min (S n) (Z.to_nat t)) with (S n) by lia. replace (Nat.min n (Z.to_nat t)) with n by lia. rewrite <-rep_snoc, last_snoc. cbn [default]. split; [|done]. f_equal. lia.
  - rewrite !take_rep. destruct (Z.ltb_spec 100 (Z.max 0 (r - Z.of_nat n))) as [E|E]; [|destruct (Z.ltb_spec 0 (Z.max 0 (r - Z.of_nat n))) as [E'|E']].
    + replace (S n - Z.to_nat r)%nat with 0%nat by lia. replace (n - Z.to_nat r)%nat with 0%nat by lia. replace (S n - Z.to_nat (r - 100))%nat with 0%nat by lia. replace (n - Z.to_nat (r - 100))%nat with 0%nat by lia.
      rewrite !Nat.min_0_l. change (repeat PYield 0) with (@nil pause). change (repeat PSleep 0) with (@nil pause). rewrite !app_nil_r.
      replace (Nat.min (S n) (Z.to_nat (r - 100))) with (S n) by lia. replace (Nat.min n (Z.to_nat (r - 100))) with n by lia. rewrite <-rep_snoc, last_snoc. cbn [default]. split; [|done]. f_equal. lia.
    + replace (S n - Z.to_nat r)%nat with 0%nat by lia. replace (n - Z.to_nat r)%nat with 0%nat by lia. cbn [repeat]. rewrite !app_nil_r.
      replace (Nat.min (S n) (Z.to_nat (r - 100))) with (Z.to_nat (r - 100)) by lia. replace (Nat.min n (Z.to_nat (r - 100))) with (Z.to_nat (r - 100)) by lia.
      replace (Nat.min (S n - Z.to_nat (r - 100)) (Z.to_nat (Z.min r 100))) with (S (n - Z.to_nat (r - 100))) by lia. replace (Nat.min (n - Z.to_nat (r - 100)) (Z.to_nat (Z.min r 100))) with (n - Z.to_nat (r - 100))%nat by lia.
      rewrite <-rep_snoc, app_assoc, last_snoc. cbn [default]. split; [|done]. f_equal. lia.
    + replace (S n - Z.to_nat r)%nat with (S (n - Z.to_nat r)) by lia. rewrite <-rep_snoc, !app_assoc, last_snoc. cbn [default].
      replace (Nat.min (S n) (Z.to_nat (r - 100))) with (Z.to_nat (r - 100)) by lia. replace (Nat.min n (Z.to_nat (r - 100))) with (Z.to_nat (r - 100)) by lia.
      replace (Nat.min (S n - Z.to_nat (r - 100)) (Z.to_nat (Z.min r 100))) with (Z.to_nat (Z.min r 100)) by lia. replace (Nat.min (n - Z.to_nat (r - 100)) (Z.to_nat (Z.min r 100))) with (Z.to_nat (Z.min r 100)) by lia.
      split; [|done]. f_equal. lia.
Qed.
Lemma counter_start g : sane g -> w_start g = WGoing (counter_of g 0) (pauses_of g 0).
Proof.
  intros Hg. unfold w_start. f_equal.
  - destruct g; cbn [counter_of sane] in *; lia.
  - destruct g; cbn [pauses_of]; rewrite ?take_0; done.
Qed.

(** C179: a wait that met only turns in vain is still waiting, and has paused as specified: in particular the yielding wait gives the processor away from try [tries] on, the sleeping one sleeps from try [retries] on. *)
Theorem C179_waits g seq ins : sane g -> Forall (idle_turn seq) ins -> exists c, w_wait g seq ins = WGoing c (pauses_of g (length ins)) /\ 0 <= c <= match g with Busy => 0 | Yielding n | Sleeping n => n end.
Proof.
  intros Hg H. assert (G : w_wait g seq ins = WGoing (counter_of g (length ins)) (pauses_of g (length ins))).
  { revert H. induction ins as [|i ins IH] using rev_ind; intros H; [by apply counter_start|]. apply Forall_app in H as [H1 H2]. apply List.Forall_inv in H2 as [H2 H3]. rewrite w_snoc, (IH H1). cbn [w_turn].
    rewrite (proj2 (Z.leb_gt _ _)) by done. rewrite H3. destruct (pause_step g (length ins) Hg) as [E1 E2]. rewrite E1. rewrite app_length, Nat.add_1_r. by rewrite <-E2. }
  exists (counter_of g (length ins)). split; [done|]. destruct g; cbn in *; lia.
Qed.
Print Assumptions C179_waits.
(** It ends with the first turn that is not in vain: it returns what was read if that is enough, whether or not there is an alert, and else throws the alert. *)
Theorem C179_ends g seq ins i rest : sane g -> Forall (idle_turn seq) ins -> ~ idle_turn seq i ->
  w_wait g seq (ins ++ i :: rest) = if seq <=? tu_value i then WReturned (tu_value i) else WAlert.
Proof.
  intros Hg H Hi. destruct (C179_waits g seq ins Hg H) as (c & E & _). unfold w_wait in *. rewrite fold_left_app, E. cbn [fold_left w_turn].
  assert (A : forall l o, match o with WGoing _ _ => False | _ => True end -> fold_left (w_turn g seq) l o = o) by (clear; induction l as [|x l IH]; intros o Ho; [done|]; destruct o; [done|..]; cbn; by apply IH).
  destruct (Z.leb_spec seq (tu_value i)) as [Hl|Hl]; [by rewrite A|]. destruct (tu_alerted i) eqn:Ea; [by rewrite A|]. destruct Hi. by split.
Qed.
Print Assumptions C179_ends.
(** Hence no wait returns less than was asked for. *)
Theorem C179_enough g seq ins v : sane g -> w_wait g seq ins = WReturned v -> seq <= v.
Proof.
  intros Hg. induction ins as [|i ins IH] using rev_ind; [by destruct g|]. rewrite w_snoc. destruct (w_wait g seq ins) as [c p|v'|] eqn:E; cbn [w_turn]; [|by intros [= ->]; apply IH|done].
  destruct (Z.leb_spec seq (tu_value i)); [by intros [= <-]|]. destruct (tu_alerted i); [done|]. by destruct (pause_of g c).
Qed.
Print Assumptions C179_enough.
Example C179_case : w_wait (Sleeping 102) 5 (repeat (Turn 4 false) 104) = WGoing 0 (repeat PSpin 2 ++ repeat PYield 100 ++ repeat PSleep 2) /\
  w_wait (Yielding 1) 5 [Turn 3 false; Turn 4 false; Turn 7 true] = WReturned 7 /\ w_wait (Yielding 1) 5 [Turn 3 false; Turn 4 true; Turn 7 true] = WAlert /\ Forall (idle_turn 5) [Turn 3 false; Turn 4 false] /\ ~ idle_turn 5 (Turn 7 true).
Proof. vm_compute. split_and!; try done. { repeat constructor. } intros [H _]. done. Qed.
