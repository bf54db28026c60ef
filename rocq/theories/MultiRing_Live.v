(** Progress of the consumers of the multi-producer ring. *)
From stdpp Require Import prelude list_numbers.
From Coq Require Import ZArith Lia ZifyBool.
From Verif Require Import Base MultiRing_Model MultiRing_Spec MultiRing_Proofs MultiRing_Log MultiRing_Wrap.
Local Open Scope Z_scope.

Lemma pub_mono r s a j : m_pub s j = true -> m_pub (mstep r s a) j = true.
Proof.
  intros H. destruct a as [t ok|i th]; cbn [mstep].
  - unfold prod_step. destruct (m_prods s !! t) as [[pc [|c todo]]|]; [done| |done]. destruct pc; cbn; try done.
    + by destruct (_ <? _).
    + by destruct (rg_gating r !! _).
    + destruct (cl_blocking c); [|done]. by destruct (_ <? _).
    + by destruct (_ && _).
    + by destruct (cl_vals c !! _).
    + destruct (cl_vals c !! _); [|done]. cbn. unfold fupd. by destruct (_ =? _).
  - unfold cons_step. destruct (m_cons s !! i) as [c|]; [|done]. destruct (co_pc c); cbn; try done.
    + destruct (deps_of r i); [|done]. by destruct (_ <? _).
    + destruct (deps_of r i !! _); [done|]. by destruct (_ <? _).
    + destruct (_ <? _); [done|]. by destruct (_ =? _).
    + destruct (_ <? _); [done|]. by destruct th.
Qed.
Lemma cons_other r s i th : m_cons (cons_step r s i th) = m_cons s \/ exists c', m_cons (cons_step r s i th) = <[i := c']> (m_cons s).
Proof.
  unfold cons_step. destruct (m_cons s !! i) as [c|]; [|by left]. destruct (co_pc c); cbn; eauto.
  - destruct (deps_of r i); [|eauto]. destruct (_ <? _); eauto.
  - destruct (deps_of r i !! _); [eauto|]. destruct (_ <? _); eauto.
  - destruct (_ <? _); [eauto|]. destruct (_ =? _); eauto.
  - destruct (_ <? _); [eauto|]. destruct th; eauto.
Qed.
Lemma seq_mono r nc s a i : MInv r nc s -> cseq (m_cons s) i <= cseq (m_cons (mstep r s a)) i.
Proof.
  intros M. destruct a as [t ok|j th]; cbn [mstep]; [rewrite prod_cons; lia|].
  unfold cons_step. destruct (m_cons s !! j) as [c|] eqn:Hj; [|lia].
  assert (Hset : forall c', co_seq c <= co_seq c' -> cseq (m_cons s) i <= cseq (<[j := c']> (m_cons s)) i).
  { intros c' H. rewrite (cseq_insert _ _ c) by done. destruct (decide (i = j)) as [->|]; [|lia]. unfold cseq. rewrite Hj. done. }
  destruct (i_cons _ _ _ M j c Hj) as (A & B & P & E & _).
  destruct (co_pc c); cbn.
  - destruct (deps_of r j); [destruct (_ <? _); [lia|]|]; by apply Hset.
  - destruct (deps_of r j !! _); [|destruct (_ <? _)]; by apply Hset.
  - destruct (_ <? _); [|destruct (_ =? _)]; by apply Hset.
  - destruct (_ <? _); [|destruct th]; by apply Hset.
  - apply Hset. cbn. lia.
Qed.
Section Live.
  Context (r : ring) (nc : nat) (W : wf_ring r nc) (n : nat) (Hn : (n < nc)%nat) (T : Z).
  Context (N D : Z) (HNe : N = rsize (rg_k r)) (HDe : D = Z.of_nat (length (deps_of r n))).
  Definition stepL (s : mst) (a : mact) : mst :=
    if bool_decide (m_cursor (mstep r s a) < 2^31) then mstep r s a else
    match a with ACons _ _ => mstep r s a | AProd t ok => if forallb (fun p => forallb cl_blocking (pr_todo p)) (m_prods s) then mstep r s a else s end.
  Definition phase (c : cons) : Z :=
    match co_pc c with
    | CWait => 2 * N + D + 6
    | CDeps j m => if m <? co_seq c + 1 then 2 * N + D + 10 + (D - Z.min D (Z.of_nat j)) else 2 * N + 5 + (D - Z.min D (Z.of_nat j))
    | CAvail seq avail => if avail <? co_seq c + 1 then 2 * N + D + 9 else N + 4 + (avail + 1 - seq)
    | CHandle nx avail => if avail <? co_seq c + 1 then 2 * N + D + 8 else 2 + (avail + 1 - nx)
    | CSet v => if v <? co_seq c + 1 then 2 * N + D + 7 else 1
    end.
  Definition K : Z := 2 * N + 2 * D + 12.
  Definition rankZ (c : cons) : Z := if T <=? co_seq c then 0 else (T - co_seq c - 1) * K + phase c.
  Definition rank (s : mst) : nat := match m_cons s !! n with Some c => Z.to_nat (rankZ c) | None => 0 end.
  Definition helpful (s : mst) (a : mact) : bool := match a with ACons i _ => bool_decide (i = n) | _ => false end.
  Record InvL (s : mst) : Prop := {
    il_m : MInv r nc s;
    il_pub : forall j, 0 <= j <= T -> m_pub s j = true;
    il_deps : forall d, d ∈ deps_of r n -> T <= cseq (m_cons s) d
  }.
  Lemma phase_pos s c : InvL s -> m_cons s !! n = Some c -> 1 <= phase c < K.
  Proof.
    intros I Hc. pose proof (wf_k _ _ W) as Hk. pose proof (rsize_pos (rg_k r) ltac:(lia)) as HN. rewrite <-HNe in HN.
    assert (HD : 0 <= D) by lia.
    destruct (i_cons _ _ _ (il_m _ I) n c Hc) as (A & (B & _) & P & E & _).
    assert (Hw : m_cursor s - N <= co_seq c).
    { pose proof (prot_window r nc s W (il_m _ I) n) as Hw. unfold cseq in Hw. rewrite Hc in Hw. rewrite HNe. apply Hw. by apply (wf_prot _ _ W). }
    unfold phase, K. destruct (co_pc c) as [|j m|seq avail|nx avail|v].
    - lia.
    - destruct (m <? _); lia.
    - destruct E as (E1 & (E2 & _) & _). destruct (Z.ltb_spec avail (co_seq c + 1)); lia.
    - destruct E as (E1 & (E2 & _) & _). destruct (Z.ltb_spec avail (co_seq c + 1)); lia.
    - destruct (_ <? _); lia.
  Qed.
  Lemma rank_lt c c' s s' : InvL s -> InvL s' -> m_cons s !! n = Some c -> m_cons s' !! n = Some c' -> co_seq c < T ->
    (co_seq c < co_seq c' \/ (co_seq c' = co_seq c /\ phase c' < phase c)) -> (rank s' < rank s)%nat.
  Proof.
    intros I I' Hc Hc' HT H. pose proof (phase_pos s c I Hc). pose proof (phase_pos s' c' I' Hc').
    unfold rank. rewrite Hc, Hc'. unfold rankZ. destruct (Z.leb_spec T (co_seq c)); [lia|].
    assert (0 <= (T - co_seq c - 1) * K) by (apply Z.mul_nonneg_nonneg; lia).
    destruct (Z.leb_spec T (co_seq c')).
    - lia.
    - destruct H as [H|[-> H]]; [|lia].
      assert (0 <= (T - co_seq c' - 1) * K) by (apply Z.mul_nonneg_nonneg; lia).
      assert ((T - co_seq c' - 1) * K + K <= (T - co_seq c - 1) * K). { replace ((T - co_seq c' - 1) * K + K) with ((T - co_seq c') * K) by lia. apply Z.mul_le_mono_nonneg_r; lia. }
      lia.
  Qed.
  Lemma invL_step s a : InvL s -> InvL (stepL s a).
  Proof.
    intros I.
    assert (Hm : MInv r nc (mstep r s a) -> InvL (mstep r s a)).
    { intros M. constructor; [done| |].
      - intros j Hj. apply pub_mono. by apply (il_pub _ I).
      - intros d Hd. pose proof (il_deps _ I d Hd). pose proof (seq_mono r nc s a d (il_m _ I)). lia. }
    unfold stepL. destruct a as [t ok|i th]; cbn [mstep] in *.
    - case_bool_decide as Hb.
      + apply Hm. apply prod_step_inv; [done|apply I|by left].
      + destruct (forallb _ _) eqn:E; [|done]. apply Hm. apply prod_step_inv; [done|apply I|right].
        intros u p Hu. rewrite forallb_True in E || apply forallb_forall with (x := p) in E.
        * apply Forall_forall. intros c Hc. apply forallb_forall with (x := c) in E; [done|]. by apply elem_of_list_In.
        * apply elem_of_list_In. by eapply elem_of_list_lookup_2.
    - rewrite cons_cursor. case_bool_decide; (apply Hm, cons_step_inv; [done|apply I]).
  Qed.
  Lemma cons_progress s c th : InvL s -> m_cons s !! n = Some c -> co_seq c < T ->
    exists c', m_cons (cons_step r s n th) !! n = Some c' /\ (co_seq c < co_seq c' \/ (co_seq c' = co_seq c /\ phase c' < phase c)).
  Proof.
    intros I Hc HT. pose proof (wf_k _ _ W) as Hk. pose proof (rsize_pos (rg_k r) ltac:(lia)) as HN. rewrite <-HNe in HN.
    pose proof (il_m _ I) as M. destruct (i_cons _ _ _ M n c Hc) as (A & (B & B2) & P & E & _).
    assert (Hlt : (n < length (m_cons s))%nat) by (by eapply lookup_lt_Some).
    assert (HTc : T <= m_cursor s). { destruct (i_pub _ _ _ M T); [apply (il_pub _ I); lia|lia]. }
    assert (Hw : m_cursor s - N <= co_seq c).
    { pose proof (prot_window r nc s W M n) as Hw. unfold cseq in Hw. rewrite Hc in Hw. rewrite HNe. apply Hw. by apply (wf_prot _ _ W). }
    assert (Hset : forall c', (co_seq c < co_seq c' \/ (co_seq c' = co_seq c /\ phase c' < phase c)) ->
       exists c'', <[n := c']> (m_cons s) !! n = Some c'' /\ (co_seq c < co_seq c'' \/ (co_seq c'' = co_seq c /\ phase c'' < phase c))).
    { intros c' H. exists c'. split; [by apply list_lookup_insert|done]. }
    unfold cons_step. rewrite Hc. destruct (co_pc c) as [|j m|seq avail|nx avail|v] eqn:Epc.
    - destruct (deps_of r n) as [|d ds] eqn:Ed.
      + destruct (Z.ltb_spec (m_cursor s) (co_seq c + 1)); [lia|]. apply Hset. right. split; [done|]. unfold phase. rewrite Epc. cbn [co_pc co_seq].
        destruct (Z.ltb_spec (m_cursor s) (co_seq c + 1)); [lia|]. lia.
      + apply Hset. right. split; [done|]. unfold phase. rewrite Epc. cbn [co_pc co_seq].
        assert (T <= cseq (m_cons s) d) by (apply (il_deps _ I); rewrite Ed; left).
        destruct (Z.ltb_spec (cseq (m_cons s) d) (co_seq c + 1)); [lia|]. cbn [length] in HDe. lia.
    - destruct E as (E1 & E2 & E3 & E4). destruct (deps_of r n !! j) as [d|] eqn:Ed.
      + apply Hset. right. split; [done|]. unfold phase. rewrite Epc. cbn [co_pc co_seq].
        assert (T <= cseq (m_cons s) d) by (apply (il_deps _ I); by eapply elem_of_list_lookup_2).
        apply lookup_lt_Some in Ed. assert (Z.of_nat j < D) by lia.
        destruct (Z.ltb_spec (cseq (m_cons s) d) m); destruct (Z.ltb_spec m (co_seq c + 1));
          try destruct (Z.ltb_spec (cseq (m_cons s) d) (co_seq c + 1)); try destruct (Z.ltb_spec m (co_seq c + 1)); lia.
      + apply lookup_ge_None in Ed. assert (D <= Z.of_nat j) by lia. assert (0 <= D) by lia.
        destruct (Z.ltb_spec m (co_seq c + 1)); apply Hset; right; (split; [done|]); unfold phase; rewrite Epc; cbn [co_pc co_seq].
        * destruct (Z.ltb_spec m (co_seq c + 1)); lia.
        * destruct (Z.ltb_spec m (co_seq c + 1)); lia.
    - destruct E as (E1 & (E2 & _) & E3). assert (0 <= D) by lia.
      destruct (Z.ltb_spec avail seq).
      + apply Hset. right. split; [done|]. unfold phase. rewrite Epc. cbn [co_pc co_seq]. destruct (Z.ltb_spec avail (co_seq c + 1)); lia.
      + rewrite (flag_pub r nc s seq W M) by lia. destruct (m_pub s seq) eqn:Ep; apply Hset; right; (split; [done|]); unfold phase; rewrite Epc; cbn [co_pc co_seq].
        * destruct (Z.ltb_spec avail (co_seq c + 1)); lia.
        * assert (T < seq). { destruct (Z.lt_ge_cases T seq); [done|]. rewrite (il_pub _ I seq) in Ep by lia. done. }
          destruct (Z.ltb_spec avail (co_seq c + 1)); destruct (Z.ltb_spec (seq - 1) (co_seq c + 1)); lia.
    - destruct E as (E1 & (E2 & _) & E3). assert (0 <= D) by lia.
      destruct (Z.ltb_spec avail nx); [|destruct th]; apply Hset; right; (split; [done|]); unfold phase; rewrite Epc; cbn [co_pc co_seq].
      + destruct (Z.ltb_spec avail (co_seq c + 1)); lia.
      + destruct (Z.ltb_spec avail (co_seq c + 1)); destruct (Z.ltb_spec nx (co_seq c + 1)); lia.
      + destruct (Z.ltb_spec avail (co_seq c + 1)); lia.
    - destruct E as (E1 & (E2 & _) & E3). apply Hset. cbn [co_seq]. destruct (decide (v = co_seq c)) as [->|]; [right|left; lia].
      split; [done|]. unfold phase. rewrite Epc. cbn [co_pc co_seq]. destruct (Z.ltb_spec (co_seq c) (co_seq c + 1)); lia.
  Qed.
  Lemma rank_seq s : InvL s -> rank s <> 0%nat -> exists c, m_cons s !! n = Some c /\ co_seq c < T.
  Proof.
    intros I H. unfold rank in H. destruct (m_cons s !! n) as [c|] eqn:E; [|done]. exists c. split; [done|].
    unfold rankZ in H. destruct (Z.leb_spec T (co_seq c)); lia.
  Qed.
  Lemma other_step s a : helpful s a = false -> m_cons (stepL s a) !! n = m_cons s !! n.
  Proof.
    intros H. assert (E : m_cons (mstep r s a) !! n = m_cons s !! n).
    { destruct a as [t ok|i th]; cbn [mstep]; [by rewrite prod_cons|]. cbn in H. apply bool_decide_eq_false in H.
      destruct (cons_other r s i th) as [->|[c' ->]]; [done|]. by rewrite list_lookup_insert_ne. }
    unfold stepL. case_bool_decide; [done|]. destruct a; [|done]. by destruct (forallb _ _).
  Qed.
  Lemma live_main (rounds : list (list mact)) s : InvL s -> Forall (fun l => exists th, ACons n th ∈ l) rounds -> (rank s <= length rounds)%nat ->
    exists pre suf, concat rounds = pre ++ suf /\ rank (fold_left stepL pre s) = 0%nat.
  Proof.
    intros I Hr Hlen.
    assert (Hhelp : forall s a, InvL s -> rank s <> 0%nat -> helpful s a = true -> (rank (stepL s a) < rank s)%nat).
    { intros s0 a I0 H0 Hh. destruct a as [|i th]; [done|]. cbn in Hh. apply bool_decide_eq_true in Hh as ->.
      destruct (rank_seq s0 I0 H0) as (c & Hc & HT). destruct (cons_progress s0 c th I0 Hc HT) as (c' & Hc' & Hd).
      pose proof (invL_step s0 (ACons n th) I0) as I1.
      assert (E : stepL s0 (ACons n th) = cons_step r s0 n th) by (unfold stepL; by case_bool_decide).
      rewrite E in *. by eapply rank_lt. }
    apply (fair_progress stepL InvL rank helpful); try done.
    - intros s0 a I0 H0. split; [by apply invL_step|]. destruct (helpful s0 a) eqn:Eh; [|unfold rank; by rewrite other_step].
      apply Nat.lt_le_incl. by apply Hhelp.
    - eapply Forall_impl; [exact Hr|]. intros l [th Hth] s0 _ _. apply Exists_exists. exists (ACons n th). split; [done|]. cbn. by apply bool_decide_eq_true.
  Qed.
End Live.
Lemma run_cursor r s acts : m_cursor s <= m_cursor (mrun r s acts).
Proof. revert s. induction acts as [|a acts IH]; intros s; cbn; [lia|]. pose proof (step_cursor r s a). specialize (IH (mstep r s a)). unfold mrun in IH. lia. Qed.
Lemma stepL_run r acts : forall s, (m_cursor (mrun r s acts) < 2^31 \/ all_blocking s) -> fold_left (stepL r) acts s = mrun r s acts.
Proof.
  induction acts as [|a acts IH]; intros s Hb; [done|]. cbn [fold_left]. change (mrun r s (a :: acts)) with (mrun r (mstep r s a) acts) in *.
  assert (E : stepL r s a = mstep r s a).
  { unfold stepL. case_bool_decide as Hc; [done|]. destruct a; [|done]. destruct Hb as [Hb|Hb].
    - pose proof (run_cursor r (mstep r s (AProd t cas_ok)) acts). lia.
    - destruct (forallb _ _) eqn:Ef; [done|]. exfalso. apply Bool.not_true_iff_false in Ef. apply Ef. apply forallb_forall. intros p Hp.
      apply elem_of_list_In, elem_of_list_lookup in Hp as [u Hu]. specialize (Hb u p Hu). rewrite Forall_forall in Hb. apply forallb_forall. intros c Hin. apply Hb. by apply elem_of_list_In. }
  rewrite E. apply IH. destruct Hb as [Hb|Hb]; [by left|right]. intros u p Hu. apply prod_todo in Hu as (q & Hq & [l El]). specialize (Hb u q Hq). rewrite El in Hb. by apply Forall_app in Hb as [_ Hb].
Qed.
Lemma seq_mono_run r nc progs acts acts2 i : wf_ring r nc -> (m_cursor (mrun r (mst_new nc progs) (acts ++ acts2)) < 2^31 \/ progs_blocking progs) ->
  cseq (m_cons (mrun r (mst_new nc progs) acts)) i <= cseq (m_cons (mrun r (mst_new nc progs) (acts ++ acts2))) i.
Proof.
  intros W. induction acts2 as [|a acts2 IH] using rev_ind; intros Hb; [rewrite app_nil_r; lia|].
  rewrite app_assoc, mrun_snoc in *.
  assert (Hb0 : m_cursor (mrun r (mst_new nc progs) (acts ++ acts2)) < 2^31 \/ progs_blocking progs).
  { destruct Hb as [Hb|]; [|by right]. left. pose proof (step_cursor r (mrun r (mst_new nc progs) (acts ++ acts2)) a). lia. }
  specialize (IH Hb0). pose proof (minv_run r nc progs _ W Hb0) as M. pose proof (seq_mono r nc _ a i M). lia.
Qed.
Lemma live_consumer r nc progs acts rounds n T : wf_ring r nc -> (n < nc)%nat ->
  let s := mrun r (mst_new nc progs) acts in let s' := mrun r (mst_new nc progs) (acts ++ concat rounds) in
  (m_cursor s' < 2^31 \/ progs_blocking progs) ->
  (forall j, 0 <= j <= T -> m_pub s j = true) -> (forall d, d ∈ deps_of r n -> T <= cseq (m_cons s) d) ->
  Forall (fun l => exists th, ACons n th ∈ l) rounds ->
  (T + 1) * (2 * rsize (rg_k r) + 2 * Z.of_nat (length (deps_of r n)) + 12) <= Z.of_nat (length rounds) ->
  T <= cseq (m_cons s') n.
Proof.
  intros W Hn s s' Hb Hpub Hdeps Hr Hlen.
  assert (Hb0 : m_cursor s < 2^31 \/ progs_blocking progs).
  { destruct Hb as [Hb|]; [|by right]. left. unfold s' in Hb. rewrite mrun_app in Hb. pose proof (run_cursor r s (concat rounds)). fold s in Hb. lia. }
  pose proof (minv_run r nc progs acts W Hb0) as M. fold s in M.
  set (N := rsize (rg_k r)) in *. set (D := Z.of_nat (length (deps_of r n))) in *.
  assert (I : InvL r nc n T s) by (constructor; done).
  destruct (live_main r nc W n Hn T N D eq_refl eq_refl rounds s I Hr) as (pre & suf & E & H0).
  { unfold rank. destruct (m_cons s !! n) as [c|] eqn:Hc; [|lia]. pose proof (phase_pos r nc W n Hn T N D eq_refl eq_refl s c I Hc) as Hph. unfold rankZ.
    destruct (Z.leb_spec T (co_seq c)) as [|HT]; [lia|]. destruct (i_cons _ _ _ M n c Hc) as (A & _). fold (K N D) in Hlen.
    assert ((T - co_seq c - 1) * K N D <= T * K N D) by (apply Z.mul_le_mono_nonneg_r; lia).
    replace ((T + 1) * K N D) with (T * K N D + K N D) in Hlen by lia. lia. }
  assert (Hend : T <= cseq (m_cons (mrun r (mst_new nc progs) (acts ++ pre))) n).
  { rewrite mrun_app. fold s. rewrite <-(stepL_run r pre s).
    - set (sp := fold_left (stepL r) pre s) in *.
      assert (Ip : InvL r nc n T sp). { unfold sp. clearbody s. clear -I W Hn. revert s I. induction pre as [|a pre IH]; intros s I; [done|]. cbn [fold_left]. apply IH. by apply (invL_step r nc W n Hn T s a I). }
      unfold rank in H0. unfold cseq. destruct (m_cons sp !! n) as [c|] eqn:Hc.
      + unfold rankZ in H0. destruct (Z.leb_spec T (co_seq c)) as [|HT]; [done|].
        pose proof (phase_pos r nc W n Hn T N D eq_refl eq_refl sp c Ip Hc) as Hph. assert (0 <= (T - co_seq c - 1) * K N D) by (apply Z.mul_nonneg_nonneg; lia). lia.
      + exfalso. apply lookup_ge_None in Hc. rewrite (i_nc _ _ _ (il_m _ _ _ _ _ Ip)) in Hc. lia.
    - destruct Hb as [Hb|Hb]; [left|right; by apply blocking_run]. unfold s' in Hb. rewrite mrun_app, E, mrun_app in Hb. fold s in Hb. pose proof (run_cursor r (mrun r s pre) suf). lia. }
  unfold s' in *. rewrite E, app_assoc in *. pose proof (seq_mono_run r nc progs (acts ++ pre) suf n W Hb). lia.
Qed.
