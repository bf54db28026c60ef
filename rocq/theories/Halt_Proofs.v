From stdpp Require Import prelude list_numbers.
From Coq Require Import ZArith Lia ZifyBool.
From Verif Require Import Base Halt_Model.
Local Open Scope Z_scope.

Lemma hrun_snoc g s acts a : hrun g s (acts ++ [a]) = hstep g (hrun g s acts) a.
Proof. unfold hrun. by rewrite fold_left_app. Qed.
Lemma hrun_app g s a b : hrun g s (a ++ b) = hrun g (hrun g s a) b.
Proof. apply fold_left_app. Qed.

Definition at_pc (P : cpc -> Prop) (s : hst) : Prop := exists t c, h_callers s !! t = Some c /\ P (c_pc c).
Definition csig := at_pc (fun p => p = CSig).
Definition pend := at_pc (fun p => p = CExch \/ p = CSig).
Definition owned_pc (pc : rpc) : bool := match pc with RNeed | RCur | RAl | RCur2 => true | _ => false end.
Definition lite (g : hcfg) : Prop := h_strat g = LiteBlocking.
Record WInv (g : hcfg) (s : hst) : Prop := {
  w_own : h_owned s = owned_pc (h_run s);
  w_buf : h_buf s = false;
  w_spin : h_strat g = Spin -> match h_run s with RFast | RLock | RNeed | RCur | RAl | RAsleep _ | RRelock _ | RCur2 => False | _ => True end;
  w_lite : ~ lite g -> match h_run s with RNeed | RCur2 => False | _ => True end;
  w_exch : at_pc (fun p => p = CExch) s -> lite g;
  w_sig : match h_run s with
          | RCur => lite g -> h_needed s = true \/ csig s
          | RAl => (h_next s <= h_cursor s -> pend s) /\ (lite g -> h_needed s = true \/ csig s)
          | RAsleep false => (h_alerted s = true \/ h_next s <= h_cursor s -> pend s) /\ (lite g -> h_needed s = true \/ csig s)
          | _ => True
          end
}.
Definition setc (s : hst) (t : nat) (c : caller) : hst := Hst (h_running s) (h_alerted s) (h_needed s) (h_buf s) (h_owned s) (h_cursor s) (h_seq s) (h_next s) (h_run s) (<[t := c]> (h_callers s)) (h_log s).
Lemma at_ins (P : cpc -> Prop) s s' t c c' : h_callers s !! t = Some c -> h_callers s' = <[t := c']> (h_callers s) -> at_pc P s -> (P (c_pc c) -> P (c_pc c')) -> at_pc P s'.
Proof.
  intros Ht E (u & d & Hu & Hp) Hcc. destruct (decide (u = t)) as [->|Hne].
  - exists t, c'. rewrite E, list_lookup_insert by (by eapply lookup_lt_Some). split; [done|]. apply Hcc. congruence.
  - exists u, d. by rewrite E, list_lookup_insert_ne.
Qed.
Lemma at_new (P : cpc -> Prop) s s' t c c' : h_callers s !! t = Some c -> h_callers s' = <[t := c']> (h_callers s) -> P (c_pc c') -> at_pc P s'.
Proof. intros Ht E Hp. exists t, c'. by rewrite E, list_lookup_insert by (by eapply lookup_lt_Some). Qed.
Lemma at_inv (P : cpc -> Prop) s s' t c c' : h_callers s !! t = Some c -> h_callers s' = <[t := c']> (h_callers s) -> at_pc P s' -> P (c_pc c') \/ at_pc P s.
Proof.
  intros Ht E (u & d & Hu & Hp). rewrite E in Hu. apply list_lookup_insert_case in Hu as [[-> ->]|[Hne Hu]]; [by left|right]. by exists u, d.
Qed.
Lemma at_eq (P : cpc -> Prop) s s' : h_callers s' = h_callers s -> at_pc P s -> at_pc P s'.
Proof. intros E. unfold at_pc. by rewrite E. Qed.
Lemma winv_run g s o w : (h_tso g = true -> h_strat g <> LiteBlocking) -> WInv g s -> WInv g (run_step g s o w).
Proof.
  intros Htso [W1 W2 W3 W4 W5 W6]. unfold run_step. unfold lite in *. destruct (h_run s) as [| | | | | | | |wk|to| | | |nx avail| | | | |] eqn:Epc.
  - destruct (h_running s); constructor; cbn; done.
  - constructor; cbn; done.
  - destruct (h_alerted s); [constructor; cbn; done|]. destruct (h_strat g) eqn:Es; constructor; cbn; unfold lite; rewrite ?Es; try done.
  - destruct (_ <? _); constructor; cbn; done.
  - destruct (h_strat g) eqn:Es; constructor; cbn; unfold lite; rewrite ?Es; try done.
  - destruct (h_tso g); [destruct (W4 (Htso eq_refl))|]. constructor; cbn; try done. auto.
  - destruct (Z.ltb_spec (h_cursor s) (h_next s)); constructor; cbn; try done. split; [lia|done].
  - destruct (h_alerted s) eqn:Ea; constructor; cbn; try done. destruct W6 as [H1 H2]. rewrite Ea, W2. split.
    + intros [?|?]; [done|]. destruct (H1 H) as (t & c & ?). by exists t, c.
    + intros Hl. destruct (H2 Hl) as [->|(t & c & ?)]; [by left|right]. by exists t, c.
  - destruct w, (h_strat g) eqn:Es, wk; constructor; cbn; unfold lite; rewrite ?Epc, ?Es; try done.
  - destruct to; [constructor; cbn; done|]. destruct (h_strat g) eqn:Es; constructor; cbn; unfold lite; rewrite ?Es; try done.
  - destruct (_ <? _); constructor; cbn; done.
  - destruct (_ <? _); constructor; cbn; done.
  - destruct (h_alerted s); constructor; cbn; done.
  - destruct (_ <=? _); [destruct o|]; constructor; cbn; done.
  - destruct (h_running s); constructor; cbn; done.
  - constructor; cbn; done.
  - constructor; cbn; rewrite ?Epc; done.
  - constructor; cbn; done.
  - constructor; cbn; rewrite ?Epc; done.
Qed.
Lemma winv_call g s t : WInv g s -> WInv g (call_step g s t).
Proof.
  intros W. pose proof W as [W1 W2 W3 W4 W5 W6]. unfold call_step. destruct (h_callers s !! t) as [[pc todo]|] eqn:Ht; [|done].
  (* a step that keeps the consumer where it is, starts no signal and does not end one *)
  assert (Hkeep : forall c' running' cursor', (cursor' = h_cursor s) -> c_pc c' <> CExch -> (pc <> CExch /\ pc <> CSig) ->
    WInv g (c_set s t c' running' (h_alerted s) (h_needed s) cursor' (h_run s))).
  { intros c' running' cursor' -> Hc Hpc. set (s' := c_set _ _ _ _ _ _ _ _). assert (Ec : h_callers s' = <[t := c']> (h_callers s)) by done.
    assert (Hp : pend s -> pend s') by (intros H; apply (at_ins _ s s' t _ c' Ht Ec H); cbn; tauto).
    assert (Hs : csig s -> csig s') by (intros H; apply (at_ins _ s s' t _ c' Ht Ec H); cbn; tauto).
    constructor; cbn [h_owned h_run h_buf h_needed h_alerted h_next h_cursor s' c_set]; try done.
    - intros H. apply (at_inv _ s s' t _ c' Ht Ec) in H as [H|H]; [by cbn in H|by apply W5].
    - destruct (h_run s); try done; [intros Hl; destruct (W6 Hl); [by left|right; by apply Hs]| |].
      + destruct W6 as [H1 H2]. split; [auto|]. intros Hl. destruct (H2 Hl); auto.
      + destruct woken; [done|]. destruct W6 as [H1 H2]. split; [auto|]. intros Hl. destruct (H2 Hl); auto. }
  (* a step that starts a signal *)
  assert (Hstart : forall todo' running' alerted' cursor', (pc <> CExch /\ pc <> CSig) -> (h_alerted s = true -> alerted' = true) ->
    WInv g (c_set s t (Caller (sig_pc g) todo') running' alerted' (h_needed s) cursor' (h_run s))).
  { intros todo' running' alerted' cursor' Hpc Ha. set (s' := c_set _ _ _ _ _ _ _ _). assert (Ec : h_callers s' = <[t := Caller (sig_pc g) todo']> (h_callers s)) by done.
    assert (Hp : h_strat g <> Spin -> pend s').
    { intros H. apply (at_new _ s s' t _ _ Ht Ec). cbn. unfold sig_pc. destruct (h_strat g); auto. done. }
    assert (Hs : csig s -> csig s') by (intros H; apply (at_ins _ s s' t _ _ Ht Ec H); cbn; tauto).
    constructor; cbn [h_owned h_run h_buf h_needed h_alerted h_next h_cursor s' c_set]; try done.
    - intros H. apply (at_inv _ s s' t _ _ Ht Ec) in H as [H|H]; [|by apply W5]. cbn in H. unfold sig_pc in H. unfold lite. by destruct (h_strat g).
    - assert (Hns : match h_run s with RAl | RAsleep _ => h_strat g <> Spin | _ => True end) by (destruct (h_run s); try done; intros E; by apply W3).
      destruct (h_run s); try done; [intros Hl; destruct (W6 Hl); auto| |].
      + destruct W6 as [H1 H2]. split; [auto|]. intros Hl. destruct (H2 Hl); auto.
      + destruct woken; [done|]. destruct W6 as [H1 H2]. split; [auto|]. intros Hl. destruct (H2 Hl); auto. }
  destruct pc.
  - destruct todo as [|[] rest]; [done|apply Hkeep; done|apply Hstart; done| |].
    + destruct (h_running s) eqn:Er; [|done]. apply Hkeep; done.
    + destruct (finished (h_run s)); [|done]. apply Hkeep; done.
  - apply Hstart; [done|]. done.
  - (* exchange *)
    set (c' := Caller (if h_needed s then CSig else CIdle) todo). set (s' := c_set _ _ _ _ _ _ _ _). assert (Ec : h_callers s' = <[t := c']> (h_callers s)) by done.
    assert (Hl : lite g) by (apply W5; exists t, (Caller CExch todo); done).
    assert (Hs : h_needed s = true \/ csig s -> csig s').
    { intros [E|H]; [|by apply (at_ins _ s s' t _ _ Ht Ec H)]. apply (at_new _ s s' t _ _ Ht Ec). unfold c'. cbn. by rewrite E. }
    assert (Hsp : csig s' -> pend s') by (intros (u & d & Hu & Hd); exists u, d; auto).
    constructor; cbn [h_owned h_run h_buf h_needed h_alerted h_next h_cursor s' c_set]; try done.
    destruct (h_run s); try done; [intros _; right; apply Hs; by apply W6| |].
    + destruct W6 as [H1 H2]. auto.
    + destruct woken; [done|]. destruct W6 as [H1 H2]. auto.
  - (* notify *)
    destruct (h_owned s) eqn:Eo; [done|]. set (s' := c_set _ _ _ _ _ _ _ _). assert (Ec : h_callers s' = <[t := Caller CIdle todo]> (h_callers s)) by done.
    constructor; cbn [h_owned h_run h_buf h_needed h_alerted h_next h_cursor s' c_set].
    + destruct (h_run s); done.
    + done.
    + intros E. specialize (W3 E). destruct (h_run s); done.
    + intros E. specialize (W4 E). destruct (h_run s); done.
    + intros H. apply (at_inv _ s s' t _ _ Ht Ec) in H as [H|H]; [by cbn in H|by apply W5].
    + destruct (h_run s); try done.
Qed.
Lemma winv_step g s a : (h_tso g = true -> h_strat g <> LiteBlocking) -> WInv g s -> WInv g (hstep g s a).
Proof. intros H W. destruct a; [by apply winv_run|by apply winv_call]. Qed.
Lemma winv_reach g progs acts : (h_tso g = true -> h_strat g <> LiteBlocking) -> WInv g (hrun g (hst_new progs) acts).
Proof.
  intros H. induction acts as [|a acts IH] using rev_ind; [|rewrite hrun_snoc; by apply winv_step].
  constructor; cbn; try done. intros (t & c & Ht & Hc). cbn in Ht. apply list_lookup_fmap_Some in Ht as (p & _ & ->). done.
Qed.

(** ** Sequences. *)
Record QInv (s : hst) : Prop := {
  q_pc : match h_run s with RHandle nx avail => nx = h_next s /\ nx <= avail + 1 /\ avail <= h_cursor s | _ => True end;
  q_next : 0 <= h_next s <= h_cursor s + 1;
  q_log : match h_run s with RFail | RThrew => exists n, 0 <= n /\ h_log s = seqZ 0 n | _ => h_log s = seqZ 0 (h_next s) end
}.
Lemma seqZ_snoc0 n : 0 <= n -> seqZ 0 n ++ [n] = seqZ 0 (n + 1).
Proof. intros H. rewrite seqZ_app by lia. done. Qed.
Lemma qinv_step g s a : QInv s -> QInv (hstep g s a).
Proof.
  intros [Q1 Q2 Q3]. destruct a as [o w|t]; cbn [hstep].
  - unfold run_step. destruct (h_run s) as [| | | | | | | |wk|to| | | |nx avail| | | | |] eqn:Epc;
      repeat match goal with |- context [if ?b then _ else _] => destruct b eqn:? end; try (constructor; cbn; rewrite ?Epc; done); try (destruct (h_strat g); constructor; cbn; rewrite ?Epc; done).
    + constructor; cbn; rewrite ?Epc; try done. exists (h_next s). split; [lia|done].
    + destruct w, (h_strat g); constructor; cbn; rewrite ?Epc; done.
    + destruct w, (h_strat g); constructor; cbn; rewrite ?Epc; done.
    + constructor; cbn; try done. lia.
    + destruct Q1 as (-> & H1 & H2). destruct o; constructor; cbn; try done; try lia.
      * rewrite Q3. apply seqZ_snoc0. lia.
      * rewrite Q3. apply seqZ_snoc0. lia.
      * exists (h_next s + 1). split; [lia|]. rewrite Q3. apply seqZ_snoc0. lia.
  - unfold call_step. destruct (h_callers s !! t) as [[[] todo]|]; [|constructor; cbn; done| | |done].
    + destruct todo as [|[] rest]; [done|constructor; cbn; done| | |].
      * constructor; cbn; try done; try lia. destruct (h_run s); try done. lia.
      * destruct (h_running s); [constructor; cbn; done|done].
      * destruct (finished (h_run s)); [constructor; cbn; done|done].
    + constructor; cbn; done.
    + destruct (h_owned s); [done|]. constructor; cbn; try done; destruct (h_run s); done.
Qed.
Lemma qinv_reach g progs acts : QInv (hrun g (hst_new progs) acts).
Proof. induction acts as [|a acts IH] using rev_ind; [|rewrite hrun_snoc; by apply qinv_step]. constructor; cbn; try done; lia. Qed.
(** The processor's own sequence, on which producers and dependent consumers are gated. *)
Definition SInv (s : hst) : Prop :=
  h_seq s <= h_next s - 1 /\ match h_run s with RHandle _ _ | RFail | RThrew => True | _ => h_seq s = h_next s - 1 end.
Lemma sinv_step g s a : QInv s -> SInv s -> SInv (hstep g s a).
Proof.
  intros [Q1 Q2 Q3] [S1 S2]. destruct a as [o w|t]; cbn [hstep].
  - unfold run_step. destruct (h_run s) as [| | | | | | | |wk|to| | | |nx avail| | | | |] eqn:Epc;
      repeat match goal with |- context [if ?b then _ else _] => destruct b eqn:? end; try (split; cbn; rewrite ?Epc; done);
      try (destruct (h_strat g); split; cbn; rewrite ?Epc; done); try (destruct w, (h_strat g); split; cbn; rewrite ?Epc; done).
    + destruct Q1 as (-> & H1 & H2). destruct o; split; cbn; lia || done.
    + destruct Q1 as (-> & H1 & H2). split; cbn; lia.
  - unfold call_step. destruct (h_callers s !! t) as [[[] todo]|]; [|by split| | |done].
    + destruct todo as [|[] rest]; [done|by split|by split| |].
      * destruct (h_running s); by split.
      * destruct (finished (h_run s)); by split.
    + by split.
    + destruct (h_owned s); [done|]. split; [done|]. cbn. destruct (h_run s); done.
Qed.
Lemma sinv_reach g progs acts : SInv (hrun g (hst_new progs) acts).
Proof. induction acts as [|a acts IH] using rev_ind; [|rewrite hrun_snoc; apply sinv_step; [apply qinv_reach|done]]. split; cbn; lia. Qed.
(** Also after a failure, what has been handled is at least what the sequence says. *)
Definition FInv (s : hst) : Prop := match h_run s with RFail | RThrew => exists n, h_next s <= n /\ h_log s = seqZ 0 n | _ => True end.
Lemma finv_step g s a : QInv s -> FInv s -> FInv (hstep g s a).
Proof.
  unfold FInv. intros [Q1 Q2 Q3] F. destruct a as [o w|t]; cbn [hstep].
  - unfold run_step. destruct (h_run s) as [| | | | | | | |wk|to| | | |nx avail| | | | |] eqn:Epc;
      repeat match goal with |- context [if ?b then _ else _] => destruct b eqn:? end; try (cbn; rewrite ?Epc; done);
      try (destruct (h_strat g); cbn; rewrite ?Epc; done); try (destruct w, (h_strat g); cbn; rewrite ?Epc; done).
    + cbn. exists (h_next s). split; [lia|done].
    + destruct Q1 as (-> & H1 & H2). destruct o; cbn; try done. exists (h_next s + 1). split; [lia|]. rewrite Q3. apply seqZ_snoc0. lia.
  - unfold call_step. destruct (h_callers s !! t) as [[[] todo]|]; try done.
    + destruct todo as [|[] rest]; try done; [destruct (h_running s)|destruct (finished (h_run s))]; done.
    + destruct (h_owned s); [done|]. cbn. destruct (h_run s); done.
Qed.
Lemma fail_log g progs acts : FInv (hrun g (hst_new progs) acts).
Proof. induction acts as [|a acts IH] using rev_ind; [done|rewrite hrun_snoc; apply finv_step; [apply qinv_reach|done]]. Qed.
