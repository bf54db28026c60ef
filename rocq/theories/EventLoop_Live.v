(** Every accepted event is handled, whatever the (fair) schedule. *)
From stdpp Require Import prelude strings list_numbers.
From Coq Require Import ZArith Lia ZifyBool.
From Verif Require Import Base MultiRing_Model MultiRing_Spec MultiRing_Proofs MultiRing_Log MultiRing_Live EventLoop_Model EventLoop_Spec EventLoop_Proofs EventLoop_Calls EventLoop_Order.
Local Open Scope Z_scope.

Definition is_loop (a : elact) : bool := match a with ELoop _ => true | _ => false end.
Definition keeps_subs (a : elact) : bool := match a with ELoop _ | EProd _ _ => true | _ => false end.
Section Live.
  Context (g : elcfg) (progs : list (list Z)) (Hk : 1 <= ec_k g <= 30) (T : Z) (subs0 : list (string * list nat)).
  Definition lwork (u : nat) : nat := (2 + match subs0 !! u with Some x => length x.2 | None => 0 end)%nat.
  Definition work (todo : list nat) : nat := sum_list (lwork <$> todo).
  Definition tot : nat := (sum_list ((fun x : string * list nat => 2 + length x.2) <$> subs0) + 2)%nat.
  Definition hr (h : hpc) : nat :=
    match h with HNone => tot | HSubs todo => work todo + 1 | HCalls _ _ cbs todo => length cbs + 2 + work todo end%nat.
  Definition stepE (s : elst) (a : elact) : elst :=
    if keeps_subs a && bool_decide (m_cursor (el_ring (el_step g s a)) < 2^31) then el_step g s a else s.
  Definition rr (s : elst) : nat := rank 0 T (rsize (ec_k g)) 0 (el_ring s).
  Definition erank (s : elst) : nat := if T <=? cseq (m_cons (el_ring s)) 0 then 0%nat else (rr s * (tot + 1) + hr (el_h s))%nat.
  Record InvE (s : elst) : Prop := {
    ie_run : exists acts, s = el_run g (el_new g progs) acts;
    ie_b : m_cursor (el_ring s) < 2^31;
    ie_pub : forall j, 0 <= j <= T -> m_pub (el_ring s) j = true;
    ie_subs : el_subs s = subs0
  }.
  Lemma work_le name : forall (l : list (string * list nat)) i, (forall k x, l !! k = Some x -> subs0 !! (i + k)%nat = Some x) ->
    (work (subs_for name i l) <= sum_list ((fun x : string * list nat => 2 + length x.2)%nat <$> l))%nat.
  Proof.
    induction l as [|[n ls] l IH]; intros i H; cbn [subs_for]; [cbn; lia|].
    assert (IH' : (work (subs_for name (S i) l) <= sum_list ((fun x : string * list nat => 2 + length x.2)%nat <$> l))%nat).
    { apply IH. intros k x Hx. specialize (H (S k) x Hx). replace (S i + k)%nat with (i + S k)%nat by lia. done. }
    rewrite fmap_cons. cbn [sum_list snd]. destruct (bool_decide _); [|lia]. unfold work in *. rewrite fmap_cons. cbn [sum_list].
    unfold lwork at 1. specialize (H 0%nat _ eq_refl). rewrite Nat.add_0_r in H. rewrite H. cbn [snd]. lia.
  Qed.
  Lemma invL_of s : InvE s -> InvL (el_rg g) 1 0 T (el_ring s).
  Proof.
    intros [[acts E] Hb Hp Hs]. constructor.
    - subst s. by apply (ri_m _ _ _ (rinv_run g progs acts Hk Hb)).
    - done.
    - intros d Hd. by apply elem_of_nil in Hd.
  Qed.
  Lemma cons_drop s c th : InvE s -> m_cons (el_ring s) = [c] -> co_seq c < T ->
    exists c', m_cons (cons_step (el_rg g) (el_ring s) 0 th) = [c'] /\
      (rank 0 T (rsize (ec_k g)) 0 (cons_step (el_rg g) (el_ring s) 0 th) < rr s)%nat.
  Proof.
    intros I Hc HT. pose proof (invL_of s I) as L. pose proof (el_wf g Hk) as W. assert (Hc0 : m_cons (el_ring s) !! 0%nat = Some c) by (by rewrite Hc).
    destruct (cons_progress (el_rg g) 1 W 0%nat ltac:(lia) T (rsize (ec_k g)) 0 eq_refl eq_refl (el_ring s) c th L Hc0 HT) as (c' & Hc' & Hd).
    destruct (cons_single (el_rg g) (el_ring s) c th Hc) as [c'' Hc'']. rewrite Hc'' in Hc'. injection Hc' as ->. exists c'. split; [done|].
    assert (L' : InvL (el_rg g) 1 0 T (cons_step (el_rg g) (el_ring s) 0 th)).
    { pose proof (invL_step (el_rg g) 1 W 0%nat ltac:(lia) T (el_ring s) (ACons 0 th) L) as H. unfold stepL in H. cbn [mstep] in H. destruct (bool_decide _); exact H. }
    eapply (rank_lt (el_rg g) 1 W 0%nat ltac:(lia) T (rsize (ec_k g)) 0 eq_refl eq_refl c c'); try done. by rewrite Hc''.
  Qed.
  Lemma loop_drop s th : InvE s -> erank s <> 0%nat -> (erank (el_loop g s th) < erank s)%nat.
  Proof.
    intros I H. pose proof I as [[acts E] Hb Hp Hs]. pose proof (rinv_run g progs acts Hk) as R. pose proof (einv_run g progs acts Hk) as EI. rewrite <-E in R, EI. specialize (R Hb). specialize (EI Hb).
    destruct (cons0 _ _ _ R) as [c Hc].
    assert (Hcs : cseq (m_cons (el_ring s)) 0 = co_seq c) by (unfold cseq; by rewrite Hc).
    unfold erank in H. unfold erank at 2. rewrite Hcs in *. destruct (Z.leb_spec T (co_seq c)) as [|HT]; [done|]. clear H.
    assert (Hring : forall th wr' dc dp sb lg, (erank (El (cons_step (el_rg g) (el_ring s) 0 th) wr' dc dp HNone sb lg) < rr s * (tot + 1))%nat).
    { intros b wr' dc dp sb lg. destruct (cons_drop s c b I Hc HT) as (c' & Hc' & Hlt). unfold erank. cbn [el_ring el_h].
      destruct (_ <=? _); [nia|]. unfold rr in *. cbn [hr el_ring]. nia. }
    assert (Hin : forall wr' dc dp h' sb lg, (hr h' < hr (el_h s))%nat -> (erank (El (el_ring s) wr' dc dp h' sb lg) < rr s * (tot + 1) + hr (el_h s))%nat).
    { intros wr' dc dp h' sb lg Hlt. unfold erank. cbn [el_ring el_h]. destruct (_ <=? _); unfold rr; cbn [el_ring]; nia. }
    assert (Hout : (forall nx avail, co_pc c = CHandle nx avail -> avail < nx) -> el_h s = HNone).
    { intros Ho. destruct (decide (el_h s = HNone)) as [|Hh]; [done|]. destruct (e_h _ _ EI Hh) as (sq & nx & avail & lg & F1 & F2). rewrite Hc in F1. injection F1 as ->. specialize (Ho nx avail eq_refl). lia. }
    unfold el_loop. rewrite Hc. cbn [lookup list_lookup]. destruct c as [sq pc lg].
    destruct pc as [|j mm|seq avail|nx avail|v]; try (rewrite Hout by done; eapply Nat.lt_le_trans; [apply Hring|cbn [hr]; lia]).
    destruct (Z.ltb_spec avail nx) as [Hlt|Hge]; [rewrite Hout by (by intros ?? [= <- <-]); eapply Nat.lt_le_trans; [apply Hring|lia]|].
    destruct (el_h s) as [|[|u todo]|u d [|cb cbs] todo] eqn:Eh.
    - apply Hin. cbn [hr]. rewrite Hs. pose proof (work_le (w_name (el_wr s (ring_index (ec_k g) nx))) subs0 0 ltac:(done)). unfold tot. lia.
    - eapply Nat.lt_le_trans; [apply Hring|lia].
    - apply Hin. cbn [hr]. rewrite Hs. unfold work. rewrite fmap_cons. cbn [sum_list]. unfold lwork at 2. destruct (subs0 !! u) as [x|]; cbn [length]; unfold id; lia.
    - apply Hin. cbn [hr length]. lia.
    - destruct th; [eapply Nat.lt_le_trans; [apply Hring|lia]|]. apply Hin. cbn [hr length]. lia.
  Qed.
  Lemma invE_step s a : InvE s -> InvE (stepE s a).
  Proof.
    intros I. unfold stepE. destruct (keeps_subs a) eqn:Ek; [|done]. cbn [andb]. case_bool_decide as Hb; [|done].
    destruct I as [[acts E] Hb0 Hp Hs]. constructor.
    - exists (acts ++ [a]). by rewrite el_run_snoc, <-E.
    - done.
    - intros j Hj. destruct (ring_step g s a) as [->|[b ->]]; [by apply Hp|]. by apply pub_mono, Hp.
    - rewrite <-Hs. destruct a; try done; [apply el_prod_subs|apply el_loop_subs].
  Qed.
  Lemma invE_fold pre : forall s, InvE s -> InvE (fold_left stepE pre s).
  Proof. induction pre as [|a pre IH]; intros s I; [done|]. cbn [fold_left]. apply IH. by apply invE_step. Qed.
  Lemma prod_cons_el s t ok : m_cons (el_ring (el_prod g s t ok)) = m_cons (el_ring s) /\ el_h (el_prod g s t ok) = el_h s.
  Proof.
    unfold el_prod. destruct (el_dpc s !! t) as [[|p|p v]|]; try done. pose proof (prod_cons (el_rg g) (el_ring s) t ok) as Hc.
    destruct (m_prods (el_ring s) !! t) as [[[| |cur|cur i m|cur m|cur|lo [|i]|lo i] [|[b [|z [|z' l]]] todo]]|]; try done;
      try (destruct (drop _ _) as [|[x [lo' vs| |]] [|]]; done).
  Qed.
  Lemma live_E (rounds : list (list elact)) s : InvE s -> Forall (fun l => exists th, ELoop th ∈ l) rounds -> (erank s <= length rounds)%nat ->
    exists pre suf, concat rounds = pre ++ suf /\ erank (fold_left stepE pre s) = 0%nat.
  Proof.
    intros I Hr Hlen.
    assert (Hhelp : forall s a, InvE s -> erank s <> 0%nat -> is_loop a = true -> (erank (stepE s a) < erank s)%nat).
    { intros s0 a I0 H0 Hh. destruct a as [|th| | |]; try done. unfold stepE. cbn [keeps_subs andb el_step].
      rewrite bool_decide_true; [by apply loop_drop|]. pose proof (ie_b _ I0).
      destruct (ring_step g s0 (ELoop th)) as [E|[b E]]; cbn [el_step] in E.
      - by rewrite E.
      - assert (Hc : forall b, m_cursor (cons_step (el_rg g) (el_ring s0) 0 b) = m_cursor (el_ring s0)) by (intros; apply cons_log).
        unfold el_loop. destruct (m_cons (el_ring s0) !! 0%nat) as [[sq [|j m|seq avail|nx avail|v] lg]|]; cbn [el_ring]; rewrite ?Hc; try done.
        destruct (avail <? nx); cbn [el_ring]; rewrite ?Hc; try done. destruct (el_h s0) as [|[|u todo]|u d [|cb cbs] todo]; cbn [el_ring]; rewrite ?Hc; try done. destruct th; cbn [el_ring]; by rewrite ?Hc. }
    apply (fair_progress stepE InvE erank (fun _ => is_loop)); try done.
    - intros s0 a I0 H0. split; [by apply invE_step|]. destruct (is_loop a) eqn:Eh; [apply Nat.lt_le_incl; by apply Hhelp|].
      unfold stepE. destruct (keeps_subs a) eqn:Ek; [|done]. cbn [andb]. case_bool_decide; [|done]. destruct a as [t ok| | | |]; try done. cbn [el_step].
      unfold erank, rr, rank. by destruct (prod_cons_el s0 t ok) as [-> ->].
    - eapply Forall_impl; [exact Hr|]. intros l [th Hth] s0 _ _. apply Exists_exists. by exists (ELoop th).
  Qed.
End Live.
Lemma el_cursor_run g s acts : m_cursor (el_ring s) <= m_cursor (el_ring (el_run g s acts)).
Proof. revert s. induction acts as [|a acts IH]; intros s; cbn; [lia|]. pose proof (step_cursor_el g s a). specialize (IH (el_step g s a)). unfold el_run in IH. lia. Qed.
Lemma stepE_run g acts : forall s, m_cursor (el_ring (el_run g s acts)) < 2^31 -> Forall (fun a => keeps_subs a = true) acts -> fold_left (stepE g) acts s = el_run g s acts.
Proof.
  induction acts as [|a acts IH]; intros s Hb Hs; [done|]. cbn [fold_left]. apply Forall_cons in Hs as [Ha Hs]. change (el_run g s (a :: acts)) with (el_run g (el_step g s a) acts) in *.
  assert (E : stepE g s a = el_step g s a). { unfold stepE. rewrite Ha. cbn [andb]. pose proof (el_cursor_run g (el_step g s a) acts). by rewrite bool_decide_true by lia. }
  rewrite E. by apply IH.
Qed.
Lemma el_run_app g s a b : el_run g s (a ++ b) = el_run g (el_run g s a) b.
Proof. unfold el_run. apply fold_left_app. Qed.
(** After [N] rounds (which depends on where the loop is now). *)
Lemma live_loop g progs acts T : 1 <= ec_k g <= 30 ->
  let s := el_run g (el_new g progs) acts in
  m_cursor (el_ring s) < 2^31 -> (forall j, 0 <= j <= T -> m_pub (el_ring s) j = true) -> 0 <= T ->
  exists N, forall rounds,
    let s' := el_run g (el_new g progs) (acts ++ concat rounds) in
    m_cursor (el_ring s') < 2^31 ->
    Forall (fun l => (exists th, ELoop th ∈ l) /\ Forall (fun a => keeps_subs a = true) l) rounds -> (N <= length rounds)%nat ->
    handled T (el_log s').
Proof.
  intros Hk s Hb0 Hpub HT. exists (erank g T (el_subs s) s). intros rounds s' Hb Hr Hlen.
  assert (Hs' : s' = el_run g s (concat rounds)) by (unfold s'; by rewrite el_run_app).
  assert (I : InvE g progs T (el_subs s) s) by (constructor; [by exists acts|done..]).
  assert (Hks : Forall (fun a => keeps_subs a = true) (concat rounds)).
  { apply Forall_concat. eapply Forall_impl; [exact Hr|]. by intros l [_ H]. }
  destruct (live_E g progs Hk T (el_subs s) rounds s I) as (pre & suf & E & H0); [|done|].
  { eapply Forall_impl; [exact Hr|]. by intros l [H _]. }
  rewrite E in Hks. apply Forall_app in Hks as [Hk1 Hk2].
  assert (Hbp : m_cursor (el_ring (el_run g s pre)) < 2^31).
  { rewrite Hs', E, el_run_app in Hb. pose proof (el_cursor_run g (el_run g s pre) suf). lia. }
  rewrite (stepE_run g pre s Hbp Hk1) in H0.
  assert (Ep : el_run g s pre = el_run g (el_new g progs) (acts ++ pre)) by (by rewrite el_run_app).
  rewrite Ep in H0, Hbp. pose proof (rinv_run g progs (acts ++ pre) Hk Hbp) as R. destruct (cons0 _ _ _ R) as [c Hc].
  destruct (win g progs _ c Hk R Hc) as (W1 & W2 & W3 & W4).
  assert (Hd : T <= co_seq c).
  { unfold erank, cseq in H0. rewrite Hc in H0. cbn [lookup list_lookup] in H0. destruct (Z.leb_spec T (co_seq c)) as [|Hlt]; [done|]. exfalso. unfold rr, rank in H0. rewrite Hc in H0. cbn [lookup list_lookup] in H0.
    unfold rankZ in H0. destruct (Z.leb_spec T (co_seq c)); [lia|].
    assert (Ip : InvE g progs T (el_subs s) (el_run g (el_new g progs) (acts ++ pre))).
    { rewrite <-Ep, <-(stepE_run g pre s); [|by rewrite Ep|done]. by apply invE_fold. }
    assert (Hc0 : m_cons (el_ring (el_run g (el_new g progs) (acts ++ pre))) !! 0%nat = Some c) by (by rewrite Hc).
    pose proof (phase_pos (el_rg g) 1 (el_wf g Hk) 0%nat ltac:(lia) T (rsize (ec_k g)) 0 eq_refl eq_refl _ c (invL_of g progs Hk T _ _ Ip) Hc0) as Hph.
    pose proof (rsize_pos (ec_k g) ltac:(lia)). unfold K in *. assert (0 <= (T - co_seq c - 1) * (2 * rsize (ec_k g) + 2 * 0 + 12)) by (apply Z.mul_nonneg_nonneg; lia). nia. }
  assert (Hh : handled T (el_log (el_run g s pre))) by (rewrite Ep; eapply (handled_run g progs (acts ++ pre) Hk Hbp); [exact Hc|lia]).
  rewrite Hs', E, el_run_app. clear -Hh. revert Hh. generalize (el_run g s pre). induction suf as [|a suf IH]; intros s0 H; [done|].
  change (el_run g s0 (a :: suf)) with (el_run g (el_step g s0 a) suf). apply IH. destruct (log_step g s0 a) as (w & -> & _). by apply handled_app.
Qed.
