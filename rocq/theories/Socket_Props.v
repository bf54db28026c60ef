(** * C43: a message over a stream socket. *)
From stdpp Require Import prelude.
From Coq Require Import Lia.
From Verif Require Import Base Socket_Model.

(** ** Vocabulary. *)
(** Nothing happens to the connection but delays, splits and interruptions that the code retries. *)
Definition harmless (a : skact) : Prop := match a with SStep _ | RStep _ => True | SFail e => on_write_error e = Retry | RFail e => on_read_error e = Retry | SDrop | SShutFail => False end.
Definition harmlessb (a : skact) : bool := match a with SStep _ | RStep _ => true | SFail e => match on_write_error e with Retry => true | _ => false end | RFail e => match on_read_error e with Retry => true | _ => false end | SDrop | SShutFail => false end.
Lemma harmlessb_true a : harmlessb a = true <-> harmless a.
Proof. destruct a; cbn; try done; by destruct (on_write_error _) || destruct (on_read_error _). Qed.
(** reserve(n) gives at least n. *)
Definition reserves (grow : nat -> nat) : Prop := forall c, c + c / 2 + 10 <= grow c.

Lemma resize_length n l : length (resize n l) = n.
Proof. unfold resize. rewrite app_length, take_length, replicate_length. lia. Qed.
Lemma resize_take n l k : k <= n -> k <= length l -> take k (resize n l) = take k l.
Proof. intros H1 H2. unfold resize. rewrite take_app_le by (rewrite take_length; lia). rewrite take_take. f_equal. lia. Qed.
Lemma resize_le n l : n <= length l -> resize n l = take n l.
Proof. intros H. unfold resize. replace (n - length l) with 0 by lia. by rewrite app_nil_r. Qed.
Lemma store_length off b l : off + length b <= length l -> length (store off b l) = length l.
Proof. intros H. unfold store. rewrite !app_length, take_length, drop_length. lia. Qed.
Lemma store_take off b l : off + length b <= length l -> take (off + length b) (store off b l) = take off l ++ b.
Proof. intros H. unfold store. rewrite app_assoc. rewrite take_app_alt; [done|]. rewrite app_length, take_length. lia. Qed.

Section Conn.
  Context (msg : list Z) (grow : nat -> nat) (fd : nat) (cap0 : nat).
  Context (Hgrow : reserves grow) (Hcap : 2 <= cap0).
  Notation run := (sk_run msg grow fd cap0).
  Record KInv (s : skst) : Prop := {
    ki_w : k_written s <= length msg;
    ki_data : k_rpc s <> RThrew -> take (k_read s + k_got s) (k_str s) ++ k_pipe s = take (k_written s) msg;
    ki_size : k_rpc s = RReading -> length (k_str s) = k_cap s /\ k_read s + k_got s <= k_cap s - 1 /\ k_read s < k_cap s - 1 /\ 2 <= k_cap s;
    ki_done : k_rpc s = RDone -> length (k_str s) = k_read s /\ k_got s = 0;
    ki_spc : k_spc s = SClosed -> k_written s = length msg /\ k_shut s = true;
    ki_threw : k_rpc s = RThrew -> k_str s `prefix_of` msg
  }.
  Lemma tk_prefix (l : list Z) n : take n l `prefix_of` l.
  Proof. exists (drop n l). by rewrite take_drop. Qed.
  Lemma prefix_of_take (l p : list Z) w m : take m l ++ p = take w msg -> forall n, n <= m -> take n l `prefix_of` msg.
  Proof.
    intros H n Hn. trans (take m l); [|trans (take w msg); [exists p; by rewrite H|apply tk_prefix]].
    replace (take n l) with (take n (take m l)) by (rewrite take_take; f_equal; lia). apply tk_prefix.
  Qed.
  Lemma ki_new : KInv (sk_new cap0).
  Proof. constructor; cbn [sk_new k_written k_spc k_pipe k_shut k_str k_cap k_read k_got k_rpc]; try done; [lia|]. intros _. rewrite resize_length. lia. Qed.
  Lemma ki_end s : KInv s -> k_rpc s = RReading -> KInv (end_call grow s).
  Proof.
    intros [A1 A2 A3 A4 A5 A6] Er. specialize (A3 Er). specialize (A2 ltac:(by rewrite Er)). unfold end_call. case_decide as Hg.
    - rewrite Hg, Nat.add_0_r in *. constructor; cbn; try done.
      + intros _. rewrite Nat.add_0_r, resize_take by lia. done.
      + intros _. by rewrite resize_length.
    - pose proof (Hgrow (k_cap s)) as HG. constructor; cbn; try done.
      + intros _. rewrite Nat.add_0_r. rewrite (resize_take _ (resize _ _)) by (rewrite ?resize_length; lia). rewrite resize_take by lia. done.
      + intros _. rewrite resize_length. lia.
  Qed.
  Lemma ki_rthrow s : KInv s -> k_rpc s = RReading -> KInv (rcv_throw s).
  Proof.
    intros [A1 A2 A3 A4 A5 A6] Er. specialize (A3 Er). specialize (A2 ltac:(by rewrite Er)). constructor; cbn; try done.
    intros _. rewrite resize_le by lia. eapply prefix_of_take; [exact A2|lia].
  Qed.
  Lemma ki_step s a : KInv s -> KInv (sk_step msg grow fd s a).
  Proof.
    intros I. pose proof I as [A1 A2 A3 A4 A5 A6]. destruct a as [n|e| | |n|e]; cbn [sk_step].
    - destruct (k_spc s) eqn:Es; [|done..]. case_decide as Hw.
      + set (put := Nat.min (Nat.max 1 n) (length msg - k_written s)). constructor; cbn; try done.
        * lia.
        * intros Hr. rewrite app_assoc, (A2 Hr), take_take_drop. done.
      + constructor; cbn; try done. intros _. split; [lia|done].
    - destruct (k_spc s) eqn:Es; [|done..]. case_decide; [|done]. destruct (on_write_error e); [done| |]; constructor; cbn; done.
    - destruct (k_spc s) eqn:Es; [|done..]. case_decide; [done|]. constructor; cbn; done.
    - constructor; cbn; try done. intros Hs. destruct (A5 ltac:(by destruct (k_spc s))). done.
    - destruct (k_rpc s) eqn:Er; [|done..]. case_decide; [by apply ki_rthrow|]. case_decide as Hg; [by apply ki_end|]. destruct (k_pipe s) as [|x p] eqn:Ep.
      + destruct (k_shut s); [by apply ki_end|done].
      + rewrite <-Ep in *. specialize (A2 ltac:(done)). specialize (A3 eq_refl). set (b := take _ (k_pipe s)). assert (Hb : length b <= k_cap s - 1 - k_read s - k_got s) by (unfold b; rewrite take_length; lia).
        assert (Hbd : b ++ drop (length b) (k_pipe s) = k_pipe s).
        { unfold b. rewrite take_length. set (m := Nat.min (Nat.max 1 n) _). destruct (decide (m <= length (k_pipe s))); [rewrite Nat.min_l by done; apply take_drop|]. rewrite Nat.min_r, take_ge, drop_all by lia. apply app_nil_r. }
        constructor; cbn; try done.
        * intros _. rewrite Nat.add_assoc, store_take by lia. rewrite <-app_assoc, Hbd. done.
        * intros _. rewrite store_length by lia. lia.
    - destruct (k_rpc s) eqn:Er; [|done..]. case_decide; [by apply ki_rthrow|]. case_decide; [done|]. destruct (on_read_error e); [done|by apply ki_end|by apply ki_rthrow].
  Qed.
  Lemma ki_run acts : KInv (run acts).
  Proof.
    unfold sk_run. induction acts as [|a acts IH] using rev_ind; [apply ki_new|]. rewrite fold_left_app. by apply ki_step.
  Qed.
  (** Under harmless actions: nobody throws, and the pipe is shut only when everything was written. *)
  Record GInv (s : skst) : Prop := { gi_shut : k_shut s = true -> k_spc s = SClosed; gi_spc : k_spc s <> SThrew; gi_rpc : k_rpc s <> RThrew; gi_done : k_rpc s = RDone -> k_shut s = true /\ k_pipe s = [] }.
  Lemma gi_end s : KInv s -> GInv s -> k_rpc s = RReading -> (k_got s = 0 -> k_shut s = true /\ k_pipe s = []) -> GInv (end_call grow s).
  Proof. intros K [G1 G2 G3 G4] Er Hd. unfold end_call. case_decide as Hg; constructor; cbn; try done. intros _. by apply Hd. Qed.
  Lemma gi_step s a : fd <> 0 -> KInv s -> GInv s -> harmless a -> GInv (sk_step msg grow fd s a).
  Proof.
    intros Hfd K G Ha. pose proof G as [G1 G2 G3 G4]. destruct a as [n|e| | |n|e]; cbn [sk_step harmless] in *.
    - destruct (k_spc s) eqn:Es; [|done..]. case_decide; constructor; cbn; try done; try (intros Hx; by apply G1 in Hx).
      + intros Hx. destruct (G4 Hx) as [Hs _]. by apply G1 in Hs.
      + intros Hx. destruct (G4 Hx). done.
    - destruct (k_spc s) eqn:Es; [|done..]. rewrite Ha. by case_decide.
    - done.
    - done.
    - destruct (k_rpc s) eqn:Er; [|done..]. rewrite decide_False by done. pose proof (ki_size _ K Er) as Hs. case_decide as Hg.
      + apply gi_end; try done. intros H0. lia.
      + destruct (k_pipe s) as [|x p] eqn:Ep; [|constructor; cbn; done]. destruct (k_shut s) eqn:Esh; [|done]. apply gi_end; try done.
    - destruct (k_rpc s) eqn:Er; [|done..]. rewrite decide_False by done. rewrite Ha. by case_decide.
  Qed.
  Lemma gi_run acts : fd <> 0 -> Forall harmless acts -> GInv (run acts).
  Proof.
    intros Hfd. unfold sk_run. induction acts as [|a acts IH] using rev_ind; [intros _; constructor; done|]. intros [H1 H2]%Forall_app. apply Forall_cons in H2 as [H2 _].
    rewrite fold_left_app. cbn [fold_left]. apply gi_step; [done|apply (ki_run acts)|auto|done].
  Qed.
  (** * C43 *)
  (** Whatever the way the system splits, delays and interrupts the calls: when recvMessage returns, the string is the message. *)
  Theorem C43_received_is_sent acts : fd <> 0 -> Forall harmless acts -> k_rpc (run acts) = RDone -> k_str (run acts) = msg.
  Proof.
    intros Hfd Ha Hd. pose proof (ki_run acts) as [A1 A2 A3 A4 A5 A6]. pose proof (gi_run acts Hfd Ha) as [G1 G2 G3 G4]. destruct (G4 Hd) as [Hs Hp]. destruct (A5 (G1 Hs)) as [Hw _].
    destruct (A4 Hd) as [Hl Hg]. specialize (A2 G3). rewrite Hp, Hg, app_nil_r, Nat.add_0_r, <-Hl, firstn_all, Hw, firstn_all in A2. done.
  Qed.
  (** Nobody throws. *)
  Theorem C43_no_exception acts : fd <> 0 -> Forall harmless acts -> k_spc (run acts) <> SThrew /\ k_rpc (run acts) <> RThrew.
  Proof. intros Hfd Ha. by destruct (gi_run acts Hfd Ha). Qed.
  (** Every fair schedule completes: in rounds with a system call of each side, the message arrives within 3 * length + 4 rounds. *)
  Definition rank (s : skst) : nat :=
    match k_rpc s with RReading => 1 + 3 * (length msg - k_written s) + (if k_shut s then 0 else 1) + 2 * length (k_pipe s) + (if decide (k_got s = 0) then 0 else 1) | _ => 0 end.
  Definition helpful (s : skst) (a : skact) : bool :=
    match a with
    | SStep _ => negb (k_shut s)
    | RStep _ => match k_pipe s with [] => k_shut s || bool_decide (k_cap s - 1 - k_read s <= k_got s) | _ => true end
    | _ => false
    end.
  Definition calm_step (s : skst) (a : skact) : skst := if harmlessb a then sk_step msg grow fd s a else s.
  Definition both_sides (round : list skact) : Prop := (exists n, SStep n ∈ round) /\ (exists n, RStep n ∈ round).
  Lemma calm_inv s a : fd <> 0 -> KInv s /\ GInv s -> KInv (calm_step s a) /\ GInv (calm_step s a).
  Proof. intros Hfd [K G]. unfold calm_step. destruct (harmlessb a) eqn:E; [|done]. split; [by apply ki_step|]. apply gi_step; try done. by apply harmlessb_true. Qed.
  Lemma rank_cases s a : fd <> 0 -> KInv s -> GInv s -> rank s <> 0 -> (helpful s a = true /\ rank (calm_step s a) < rank s) \/ (helpful s a = false /\ calm_step s a = s).
  Proof.
    intros Hfd K G Hr. assert (Er : k_rpc s = RReading) by (unfold rank in Hr; by destruct (k_rpc s)). pose proof (ki_size _ K Er) as Hs. destruct G as [G1 G2 G3 G4]. unfold calm_step.
    destruct a as [n|e| | |n|e]; cbn [harmlessb sk_step helpful].
    - destruct (k_spc s) eqn:Es; [| |done].
      + left. destruct (k_shut s) eqn:Esh; [by specialize (G1 eq_refl)|]. split; [done|]. case_decide as Hw; unfold rank; cbn; rewrite Er, Esh; [|lia].
        rewrite app_length, take_length, drop_length. case_decide; lia.
      + right. destruct (ki_spc _ K Es) as [_ ->]. done.
    - right. split; [done|]. destruct (on_write_error e) eqn:Ee; [|done..]. destruct (k_spc s); [|done..]. by case_decide.
    - by right.
    - by right.
    - rewrite Er, decide_False by done. case_decide as Hg.
      + left. split; [destruct (k_pipe s); [rewrite bool_decide_true by done; apply orb_true_r|done]|]. unfold end_call. rewrite decide_False by lia. unfold rank. cbn [k_written k_spc k_pipe k_shut k_str k_cap k_read k_got k_rpc]. rewrite Er. rewrite (decide_False (P := k_got s = 0)) by lia. rewrite (decide_True (P := 0 = 0)) by done. destruct (k_shut s); lia.
      + destruct (k_pipe s) as [|x p] eqn:Ep.
        * destruct (k_shut s) eqn:Esh.
          -- left. split; [done|]. unfold end_call. case_decide as H0; unfold rank; cbn [k_written k_spc k_pipe k_shut k_str k_cap k_read k_got k_rpc]; rewrite Er, ?Ep, ?Esh; [lia|]. rewrite (decide_False (P := k_got s = 0)) by lia. rewrite (decide_True (P := 0 = 0)) by done. lia.
          -- right. rewrite bool_decide_false by done. done.
        * left. split; [done|]. rewrite <-Ep in *. set (b := take _ _). assert (Hb : 1 <= length b) by (unfold b; rewrite take_length, Ep; cbn [length]; lia).
          assert (Hb2 : length b <= length (k_pipe s)) by (unfold b; rewrite take_length; lia).
          unfold rank. cbn. rewrite Er, drop_length. repeat case_decide; lia.
    - right. split; [done|]. destruct (on_read_error e) eqn:Ee; [|done..]. rewrite Er, decide_False by done. by case_decide.
  Qed.
  Lemma calm_run acts s : Forall harmless acts -> fold_left calm_step acts s = fold_left (sk_step msg grow fd) acts s.
  Proof. revert s. induction acts as [|a acts IH]; [done|]. intros s [H1 H2]%Forall_cons. cbn. unfold calm_step at 2. rewrite (proj2 (harmlessb_true a) H1). by apply IH. Qed.
  Lemma done_stays acts s : k_rpc s = RDone -> k_rpc (fold_left (sk_step msg grow fd) acts s) = RDone.
  Proof.
    revert s. induction acts as [|a acts IH]; [done|]. intros s Hd. cbn [fold_left]. apply IH. destruct a; cbn [sk_step]; rewrite ?Hd; try done; destruct (k_spc s); try done; case_decide; try done. by destruct (on_write_error e).
  Qed.
  Theorem C43_always_received acts rounds : fd <> 0 -> Forall harmless acts -> Forall (Forall harmless) rounds -> Forall both_sides rounds -> 3 * length msg + 4 <= length rounds ->
    k_rpc (run (acts ++ concat rounds)) = RDone /\ k_str (run (acts ++ concat rounds)) = msg.
  Proof.
    intros Hfd Ha Hr Hb Hlen. assert (Hall : Forall harmless (acts ++ concat rounds)).
    { apply Forall_app. split; [done|]. apply Forall_forall. intros x Hx. apply elem_of_list_In, in_concat in Hx as (l & Hl & Hx). apply elem_of_list_In in Hl, Hx. rewrite Forall_forall in Hr. specialize (Hr l Hl). rewrite Forall_forall in Hr. auto. }
    assert (Hd : k_rpc (run (acts ++ concat rounds)) = RDone); [|split; [done|by apply C43_received_is_sent]].
    set (s := run acts). pose proof (ki_run acts) as K. pose proof (gi_run acts Hfd Ha) as G. fold s in K, G.
    assert (Hrank : rank s <= length rounds).
    { unfold rank. destruct (k_rpc s) eqn:Er; [|lia..]. pose proof (ki_data _ K ltac:(by rewrite Er)) as Hdt. apply (f_equal length) in Hdt. rewrite app_length, !take_length in Hdt. pose proof (ki_w _ K). pose proof (ki_size _ K Er).
      destruct (k_shut s); case_decide; lia. }
    destruct (fair_progress calm_step (fun s => KInv s /\ GInv s) rank helpful) with (rounds := rounds) (s := s) as (pre & suf & E & H0).
    - intros s0 a [K0 G0] Hr0. split; [by apply calm_inv|]. destruct (rank_cases s0 a Hfd K0 G0 Hr0) as [[_ ?]|[_ ->]]; lia.
    - intros s0 a [K0 G0] Hr0 Hh. destruct (rank_cases s0 a Hfd K0 G0 Hr0) as [[_ ?]|[? _]]; [done|congruence].
    - intros s0 a [K0 G0] Hr0 Heq b Hb0. destruct (rank_cases s0 a Hfd K0 G0 Hr0) as [[_ ?]|[_ ->]]; [lia|done].
    - done.
    - eapply Forall_impl; [exact Hb|]. intros r [[n Hn] [m Hm]] s0 [K0 G0] Hr0. apply Exists_exists. destruct (k_shut s0) eqn:Esh; [|exists (SStep n); cbn; by rewrite Esh].
      exists (RStep m). split; [done|]. cbn. destruct (k_pipe s0); [by rewrite Esh|done].
    - done.
    - assert (Hpre : Forall harmless pre) by (rewrite E in Hall; apply Forall_app in Hall as [_ Hall]; by apply Forall_app in Hall as [? _]).
      rewrite (calm_run pre s Hpre) in H0. unfold sk_run in *. rewrite E, fold_left_app. fold s in H0. change (fold_left (sk_step msg grow fd) acts (sk_new cap0)) with s. rewrite fold_left_app. apply done_stays.
      assert (Hp2 : fold_left (sk_step msg grow fd) pre s = run (acts ++ pre)) by (unfold sk_run; by rewrite fold_left_app).
      rewrite Hp2 in *. assert (Ha2 : Forall harmless (acts ++ pre)) by (by apply Forall_app). destruct (gi_run (acts ++ pre) Hfd Ha2) as [_ _ G3 _].
      unfold rank in H0. destruct (k_rpc (run (acts ++ pre))); [|done|done]. exfalso. revert H0. clear. destruct (k_shut _), (decide _); lia.
  Qed.
  (** * C68: with an arbitrary environment (resets, failures, a sender that dies) the string is always a prefix of the message ... *)
  Theorem C68_always_a_prefix acts : k_rpc (run acts) <> RReading -> k_str (run acts) `prefix_of` msg.
  Proof.
    intros Hr. pose proof (ki_run acts) as [A1 A2 A3 A4 A5 A6]. destruct (k_rpc (run acts)) eqn:Er; [done| |by apply A6].
    destruct (A4 eq_refl) as [Hl Hg]. specialize (A2 ltac:(done)). rewrite Hg, Nat.add_0_r, <-Hl, firstn_all in A2. trans (take (k_written (run acts)) msg); [|apply tk_prefix]. exists (k_pipe (run acts)). by rewrite A2.
  Qed.
End Conn.
(** ... but a truncated message is returned as if it were complete: after a reset, and when the sender goes away in the middle. *)
Theorem C68_truncated_refuted :
  (exists msg grow cap acts, reserves grow /\ 2 <= cap /\ let s := sk_run msg grow 4 cap acts in k_rpc s = RDone /\ k_str s <> msg /\ RFail ECONNRESET ∈ acts) /\
  (exists msg grow cap acts, reserves grow /\ 2 <= cap /\ let s := sk_run msg grow 4 cap acts in k_rpc s = RDone /\ k_str s <> msg /\ SDrop ∈ acts).
Proof.
  split; exists [1; 2; 3]%Z, (fun c => c + c / 2 + 10), 15.
  - exists [SStep 2; RStep 9; RFail ECONNRESET; RFail ECONNRESET]. split; [intros c; lia|]. split; [lia|]. cbn zeta. split; [reflexivity|]. split; [vm_compute; discriminate|]. right; right; left.
  - exists [SStep 2; SDrop; RStep 9; RStep 9; RStep 9]. split; [intros c; lia|]. split; [lia|]. cbn zeta. split; [reflexivity|]. split; [vm_compute; discriminate|]. right; left.
Qed.
(** The hypothesis on the descriptor is needed: recvMessage refuses descriptor 0, which is a valid one (the invalid one is -1). *)
Theorem C43_descriptor_zero_refuted msg grow cap n : k_rpc (sk_step msg grow 0 (sk_new cap) (RStep n)) = RThrew.
Proof. reflexivity. Qed.
(** And a string without spare capacity would end the reception at once; no standard library gives one (15 or 22 characters are always there). *)
Theorem C43_no_capacity_refuted : exists msg grow acts, reserves grow /\ Forall harmless acts /\ k_rpc (sk_run msg grow 4 1 acts) = RDone /\ k_str (sk_run msg grow 4 1 acts) <> msg.
Proof. exists [1]%Z, (fun c => c + c / 2 + 10), [RStep 1]. split; [intros c; lia|]. split; [by repeat constructor|]. split; [reflexivity|]. vm_compute. discriminate. Qed.
(** A concrete run: 20 bytes, capacity 15, odd pieces, interruptions. *)
Definition sk_demo : list skact := [SStep 3; RStep 2; RFail EINTR; SStep 100; SFail EAGAIN; RStep 5; RStep 100; RStep 1; RFail ETIMEDOUT; SStep 1; RStep 1; RStep 100; RStep 1; RStep 7].
Example C43_case : Forall harmless sk_demo /\ k_rpc (sk_run (Z.of_nat <$> seq 1 20) (fun c => c + c / 2 + 10) 4 15 sk_demo) = RDone /\ reserves (fun c => c + c / 2 + 10).
Proof. split; [by repeat constructor|]. split; [reflexivity|]. intros c. lia. Qed.
Print Assumptions C43_received_is_sent.
Print Assumptions C43_no_exception.
Print Assumptions C43_always_received.
Print Assumptions C43_descriptor_zero_refuted.
Print Assumptions C43_no_capacity_refuted.
Print Assumptions C68_always_a_prefix.
Print Assumptions C68_truncated_refuted.
