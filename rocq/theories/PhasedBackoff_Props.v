(** * C85: the phased-backoff wait strategy. *)
From stdpp Require Import prelude.
From Coq Require Import ZArith Lia ZifyBool.
From Verif Require Import Base PhasedBackoff_Model.
Local Open Scope Z_scope.
Section P.
Context (tries : nat) (yield_ns seq : Z).
Lemma p_snoc ins i : p_wait tries yield_ns seq (ins ++ [i]) = p_turn tries yield_ns seq (p_wait tries yield_ns seq ins) i.
Proof. unfold p_wait. by rewrite fold_left_app. Qed.
Lemma p_app a b : p_wait tries yield_ns seq (a ++ b) = fold_left (p_turn tries yield_ns seq) b (p_wait tries yield_ns seq a).
Proof. unfold p_wait. by rewrite fold_left_app. Qed.
Definition below (i : pin) : Prop := pin_value i < seq.
End P.
(** It returns a value that was there, and that is at least the awaited sequence: the first such value. *)
Theorem C85_returns_first : forall tries y seq ins v, p_wait tries y seq ins = PReturned v -> exists a i b, ins = a ++ i :: b /\ v = pin_value i /\ seq <= v /\ Forall (below seq) a.
Proof.
  intros tries y seq ins v. 
  assert (G : forall ins, match p_wait tries y seq ins with PReturned v => exists a i b, ins = a ++ i :: b /\ v = pin_value i /\ seq <= v /\ Forall (below seq) a | PGoing _ _ => Forall (below seq) ins | PFellBack => True end).
  { clear. induction ins as [|i ins IH] using rev_ind; [constructor|]. rewrite p_snoc. destruct (p_wait tries y seq ins) as [c st|v|]; cbn [p_turn].
    - destruct (Z.leb_spec seq (pin_value i)) as [H|H]; [by exists ins, i, []|]. assert (Hb : Forall (below seq) (ins ++ [i])) by (apply Forall_app; split; [done|by constructor]).
      destruct c as [|[|c]]; try done; (destruct (st =? 0); [done|]; by destruct (_ <? _)).
    - destruct IH as (a & j & b & -> & H). exists a, j, (b ++ [i]). split; [by rewrite <-app_assoc|done].
    - done. }
  intros H. specialize (G ins). by rewrite H in G.
Qed.
(** As long as it is in its loop, an available sequence ends the wait at once. *)
Theorem C85_returns_at_once : forall tries y seq ins i c st, p_wait tries y seq ins = PGoing c st -> seq <= pin_value i -> p_wait tries y seq (ins ++ [i]) = PReturned (pin_value i).
Proof. intros tries y seq ins i c st H Hi. rewrite p_snoc, H. cbn. by rewrite (proj2 (Z.leb_le _ _)). Qed.
(** A full round of unsuccessful turns, of which the last reads the clock. *)
Lemma round tries y seq ins i st : Forall (below seq) ins -> below seq i -> S (length ins) = tries ->
  fold_left (p_turn tries y seq) (ins ++ [i]) (PGoing tries st) = if st =? 0 then PGoing tries (pin_clock i) else if y <? pin_clock i - st then PFellBack else PGoing tries st.
Proof.
  intros Hb Hi Hl. rewrite fold_left_app. assert (G : forall ins n, Forall (below seq) ins -> (length ins < n)%nat -> fold_left (p_turn tries y seq) ins (PGoing n st) = PGoing (n - length ins) st).
  { clear. induction ins as [|i ins IH]; intros n Hb Hl; [cbn; f_equal; lia|]. apply Forall_cons in Hb as [H1 H2]. unfold below in H1. cbn [fold_left p_turn length] in *.
    rewrite (proj2 (Z.leb_gt _ _)) by done. destruct n as [|[|n]]; [lia|lia|]. rewrite IH by (done || lia). f_equal. }
  rewrite G by (done || lia). cbn [fold_left p_turn]. unfold below in Hi. rewrite (proj2 (Z.leb_gt _ _)) by done. by replace (tries - length ins)%nat with 1%nat by lia.
Qed.
(** The wait falls back in the first round, after the one that starts the clock, at whose end more than the yield time has passed; until then it goes on (if nothing becomes available). *)
Definition is_round (tries : nat) (seq : Z) (r : list pin) (clock : Z) : Prop := exists a i, r = a ++ [i] /\ S (length a) = tries /\ Forall (below seq) r /\ pin_clock i = clock.
Theorem C85_falls_back : forall tries y seq r0 start rounds clocks r clock, 0 < start -> is_round tries seq r0 start -> Forall2 (is_round tries seq) rounds clocks -> Forall (fun c => c - start <= y) clocks ->
  is_round tries seq r clock -> p_wait tries y seq (r0 ++ concat rounds ++ r) = if y <? clock - start then PFellBack else PGoing tries start.
Proof.
  intros tries y seq r0 start rounds clocks r clock Hs (a & i & -> & Ha & Hb & Hc) Hr Hcl Hl. rewrite p_app. unfold p_wait.
  apply Forall_app in Hb as [Hb1 Hb2]. apply List.Forall_inv in Hb2. rewrite round by done. cbn [Z.eqb]. rewrite Hc. rewrite fold_left_app.
  assert (G : fold_left (p_turn tries y seq) (concat rounds) (PGoing tries start) = PGoing tries start).
  { clear Hl. induction Hr as [|rd c rounds clocks (a' & j & -> & Ha' & Hb' & Hc') Hr IH]; [done|]. apply Forall_cons in Hcl as [H1 H2]. cbn [concat]. rewrite fold_left_app. apply Forall_app in Hb' as [Hb3 Hb4]. apply List.Forall_inv in Hb4.
    rewrite round by done. rewrite (proj2 (Z.eqb_neq start 0)) by lia. rewrite Hc'. rewrite (proj2 (Z.ltb_ge _ _)) by lia. by apply IH. }
  rewrite G. destruct Hl as (a' & j & -> & Ha' & Hb' & Hc'). apply Forall_app in Hb' as [Hb3 Hb4]. apply List.Forall_inv in Hb4. rewrite round by done. rewrite (proj2 (Z.eqb_neq start 0)) by lia. by rewrite Hc'.
Qed.
(** What a user relies on: an alert (halt()) ends the wait. The loop does not look at the alert: however long the barrier has been alerted, if no event comes and the clock does not show the
    yield time passing (a long yield time, or a clock that is set back), the wait goes on. *)
Theorem C105_alert_ignored_refuted : forall tries y seq n value clock, (0 < tries)%nat -> value < seq -> 0 < clock -> 0 <= y -> exists c st, p_wait tries y seq (repeat (Pin value clock true) n) = PGoing c st.
Proof.
  intros tries y seq n value clock Ht Hv Hc Hy. assert (G : exists c st, (st = 0 \/ st = clock) /\ p_wait tries y seq (repeat (Pin value clock true) n) = PGoing c st); [|destruct G as (c & st & _ & G); eauto].
  induction n as [|n (c & st & Hst & IH)]; [by exists tries, 0; split; [left|]|]. cbn [repeat]. rewrite repeat_cons, p_snoc, IH. cbn [p_turn pin_value pin_clock]. rewrite (proj2 (Z.leb_gt _ _)) by done.
  assert (E : (if st =? 0 then PGoing tries clock else if y <? clock - st then PFellBack else PGoing tries st) = PGoing tries clock).
  { destruct Hst as [->| ->]; [done|]. rewrite (proj2 (Z.eqb_neq clock 0)) by lia. by rewrite (proj2 (Z.ltb_ge _ _)) by lia. }
  destruct c as [|[|c]]; [exists tries, clock; auto..|]. by exists (S c), st.
Qed.
Example C85_case : p_wait 2 100 5 [Pin 3 10 false; Pin 4 20 true; Pin 4 30 true; Pin 4 115 true; Pin 4 120 true; Pin 4 121 true] = PFellBack /\
  p_wait 2 100 5 [Pin 3 10 false; Pin 4 20 true; Pin 6 30 true] = PReturned 6 /\ is_round 2 5 [Pin 4 30 true; Pin 4 115 true] 115.
Proof. do 2 (split; [by vm_compute|]). exists [Pin 4 30 true], (Pin 4 115 true). do 2 (split; [done|]). split; [|done]. repeat constructor. Qed.
Print Assumptions C85_returns_first.
Print Assumptions C85_returns_at_once.
Print Assumptions C85_falls_back.
Print Assumptions C105_alert_ignored_refuted.
