(** The long-run behaviour of try_next on the multi-producer ring: a concrete execution, for every ring size, that passes 2^31 events. *)
From stdpp Require Import prelude list_numbers.
From Coq Require Import ZArith Lia ZifyBool.
From Verif Require Import Base MultiRing_Model MultiRing_Spec MultiRing_Proofs MultiRing_Log.
Local Open Scope Z_scope.

Definition ring1 (k : Z) : ring := Ring k [0%nat] [[]].
Definition one (b : bool) (v : Z) : claim := Claim b [v].
Lemma mrun_app r s a b : mrun r s (a ++ b) = mrun r (mrun r s a) b.
Proof. apply fold_left_app. Qed.
(** One blocking publication followed by its consumption. *)
Record quiet_at (j : Z) (todo : list claim) (s : mst) : Prop := {
  q_cur : m_cursor s = j;
  q_cache : m_cache s <= j;
  q_prods : m_prods s = [Prod MIdle todo];
  q_cons : exists log, m_cons s = [Cons j CWait log];
  q_ub : m_ub s = false
}.
Definition P := AProd 0 true.
Definition C := ACons 0 false.

(** A publication whose capacity test succeeds: from an idle producer to an idle producer. *)
Lemma publish_one k b v j todo s sq pc log : 1 <= k ->
  m_cursor s = j -> m_prods s = [Prod MIdle (one b v :: todo)] -> m_cons s = [Cons sq pc log] ->
  (b = true -> m_cache s <= j /\ sq = j) ->
  (b = false -> fits32 (wrap32 j + 1) = true /\ wrap32 j <= sq /\ wrap32 j + 1 < 2^31) ->
  m_ub s = false ->
  exists acts, let s' := mrun (ring1 k) s acts in
    m_cursor s' = j + 1 /\ m_prods s' = [Prod MIdle todo] /\ m_cons s' = m_cons s /\ m_ub s' = false /\ (b = true -> m_cache s' <= j) /\
    m_slots s' = fupd (m_slots s) (ring_index k (j + 1)) v /\
    m_flags s' = fupd (m_flags s) (flag_index k (j + 1)) (avail_flag k (j + 1)) /\
    m_log s' = m_log s ++ [(0%nat, RClaimed (j + 1) [v])].
Proof.
  intros Hk Hcur Hp Hc Hb Hnb Hub.
  assert (HN : 2 <= rsize k). { unfold rsize. change 2 with (2^1) at 1. apply Z.pow_le_mono_r; lia. }
  (* after the capacity test *)
  assert (Hcas : exists acts ca, (b = true -> ca <= j) /\
     mrun (ring1 k) s acts = Mst j ca (m_flags s) (m_slots s) [Prod (MCas j) (one b v :: todo)] (m_cons s) false (m_log s) (m_vals s) (m_pub s)).
  { destruct s as [cur cache flags slots prods cons ub log0 vals pub]. cbn in *. subst.
    destruct b.
    - destruct (Hb eq_refl) as [Hca ->]. clear Hnb Hb.
      assert (Hfin : forall ca, j + 1 - rsize k <= ca <= j -> mrun (ring1 k) (Mst j ca flags slots [Prod MStart (one true v :: todo)] [Cons j pc log] false log0 vals pub) [P; P]
        = Mst j ca flags slots [Prod (MCas j) (one true v :: todo)] [Cons j pc log] false log0 vals pub).
      { intros ca Hra. unfold mrun. cbn -[Z.add Z.sub Z.ltb rsize]. unfold wrap_point, seen_cursor, cl_n, one. cbn -[Z.add Z.sub Z.ltb rsize].
        change (Z.of_nat 1) with 1. destruct (Z.ltb_spec ca (j + 1 - rsize k)); [lia|]. destruct (Z.ltb_spec j ca); [lia|]. done. }
      destruct (decide (j + 1 - rsize k <= cache)) as [Hge|Hlt].
      + exists [P; P; P], cache. split; [done|]. change [P;P;P] with ([P] ++ [P;P]). rewrite mrun_app.
        change (mrun (ring1 k) (Mst j cache flags slots [Prod MIdle (one true v :: todo)] [Cons j pc log] false log0 vals pub) [P]) with
          (Mst j cache flags slots [Prod MStart (one true v :: todo)] [Cons j pc log] false log0 vals pub). apply Hfin. lia.
      + exists [P; P; P; P; P; P; P; P], j. split; [lia|]. change [P;P;P;P;P;P;P;P] with ([P;P;P] ++ [P;P;P] ++ [P;P]). rewrite !mrun_app.
        assert (E : mrun (ring1 k) (Mst j cache flags slots [Prod MIdle (one true v :: todo)] [Cons j pc log] false log0 vals pub) [P;P;P] =
          Mst j cache flags slots [Prod (MScan j 0 j) (one true v :: todo)] [Cons j pc log] false log0 vals pub).
        { unfold mrun. cbn -[Z.add Z.sub Z.ltb rsize]. unfold cl_n, one. cbn -[Z.add Z.sub Z.ltb rsize]. change (Z.of_nat 1 <? 1) with false. cbn -[Z.add Z.sub Z.ltb rsize].
          unfold wrap_point, seen_cursor, cl_n. cbn -[Z.add Z.sub Z.ltb rsize].
          change (Z.of_nat 1) with 1. destruct (Z.ltb_spec cache (j + 1 - rsize k)); [|lia]. done. }
        rewrite E.
        assert (E2 : mrun (ring1 k) (Mst j cache flags slots [Prod (MScan j 0 j) (one true v :: todo)] [Cons j pc log] false log0 vals pub) [P;P;P] =
          Mst j j flags slots [Prod MStart (one true v :: todo)] [Cons j pc log] false log0 vals pub).
        { unfold mrun. cbn -[Z.add Z.sub Z.ltb rsize]. unfold cseq. cbn -[Z.add Z.sub Z.ltb rsize]. destruct (Z.ltb_spec j j); [lia|].
          unfold wrap_point, seen_cursor, cl_n, one. cbn -[Z.add Z.sub Z.ltb rsize].
          change (Z.of_nat 1) with 1. destruct (Z.ltb_spec j (j + 1 - rsize k)); [lia|]. done. }
        rewrite E2. apply Hfin. lia.
    - destruct (Hnb eq_refl) as (Hf & Hsq & Hlt). clear Hnb Hb. set (w := wrap32 j) in *.
      assert (Hw1 : wrap32 (w + 1) = w + 1). { apply wrap32_id. split; [|done]. pose proof (wrap32_ge j). fold w in H. lia. }
      assert (E : mrun (ring1 k) (Mst j cache flags slots [Prod MIdle (one false v :: todo)] [Cons sq pc log] false log0 vals pub) [P;P;P] =
          Mst j cache flags slots [Prod (if (cache <? w + 1 - rsize k) || (w <? cache) then MScan j 0 w else MCas j) (one false v :: todo)] [Cons sq pc log] false log0 vals pub).
      { unfold mrun. cbn -[Z.add Z.sub Z.ltb rsize wrap32 fits32]. unfold cl_n, one. cbn -[Z.add Z.sub Z.ltb rsize wrap32 fits32]. change (Z.of_nat 1 <? 1) with false. cbn -[Z.add Z.sub Z.ltb rsize wrap32 fits32].
        unfold wrap_point, seen_cursor, cl_n. cbn -[Z.add Z.sub Z.ltb rsize wrap32 fits32].
        change (Z.of_nat 1) with 1. fold w. rewrite Hf, Hw1. done. }
      destruct ((cache <? w + 1 - rsize k) || (w <? cache)) eqn:Et.
      + exists [P;P;P;P;P;P], w. split; [done|]. change [P;P;P;P;P;P] with ([P;P;P] ++ [P;P;P]). rewrite mrun_app, E.
        unfold mrun. cbn -[Z.add Z.sub Z.ltb rsize wrap32 fits32]. unfold cseq. cbn -[Z.add Z.sub Z.ltb rsize wrap32 fits32]. destruct (Z.ltb_spec sq w); [lia|].
        unfold wrap_point, seen_cursor, cl_n, one. cbn -[Z.add Z.sub Z.ltb rsize wrap32 fits32]. change (Z.of_nat 1) with 1. fold w. rewrite Hw1.
        destruct (Z.ltb_spec w (w + 1 - rsize k)); [lia|]. done.
      + exists [P;P;P], cache. done. }
  destruct Hcas as (acts & ca & Hca & E).
  exists (acts ++ [P;P;P;P;P]). cbv zeta. rewrite mrun_app, E. unfold mrun, P, one.
  cbn -[Z.add rsize ring_index flag_index avail_flag fupd bool_decide]. rewrite bool_decide_true by done.
  cbn -[Z.add rsize ring_index flag_index avail_flag fupd bool_decide]. rewrite !Z.add_0_r.
  unfold cl_n. cbn -[Z.add rsize ring_index flag_index avail_flag fupd bool_decide Z.of_nat].
  repeat split; auto.
Qed.

(** The consumer takes the event just published. *)
Lemma consume_one k j log s : m_cursor s = j + 1 -> m_cons s = [Cons j CWait log] -> m_flags s (flag_index k (j + 1)) = avail_flag k (j + 1) ->
  mrun (ring1 k) s [C; C; C] = Mst (j + 1) (m_cache s) (m_flags s) (m_slots s) (m_prods s) [Cons j (CHandle (j + 1) (j + 1)) log] (m_ub s) (m_log s) (m_vals s) (m_pub s).
Proof.
  destruct s as [cur cache flags slots prods cons ub log0 vals pub]. cbn -[Z.add]. intros -> -> Hf.
  unfold mrun. cbn -[Z.add Z.sub Z.ltb rsize flag_index avail_flag]. destruct (Z.ltb_spec (j + 1) (j + 1)); [lia|].
  cbn -[Z.add Z.sub Z.ltb rsize flag_index avail_flag]. destruct (Z.ltb_spec (j + 1) (j + 1)); [lia|].
  rewrite Hf, Z.eqb_refl. cbn -[Z.add Z.sub Z.ltb rsize flag_index avail_flag]. destruct (Z.ltb_spec (j + 1) (j + 1 + 1)); [|lia]. done.
Qed.
Lemma handle_one k j log s : m_cons s = [Cons j (CHandle (j + 1) (j + 1)) log] ->
  mrun (ring1 k) s [C; C; C] = Mst (m_cursor s) (m_cache s) (m_flags s) (m_slots s) (m_prods s)
    [Cons (j + 1) CWait (log ++ [Delivery (j + 1) (m_slots s (ring_index k (j + 1))) true false])] (m_ub s) (m_log s) (m_vals s) (m_pub s).
Proof.
  destruct s as [cur cache flags slots prods cons ub log0 vals pub]. cbn -[Z.add]. intros ->.
  unfold mrun. cbn -[Z.add Z.sub Z.ltb Z.eqb rsize ring_index]. destruct (Z.ltb_spec (j + 1) (j + 1)); [lia|].
  cbn -[Z.add Z.sub Z.ltb Z.eqb rsize ring_index]. destruct (Z.ltb_spec (j + 1) (j + 1 + 1)); [|lia]. rewrite Z.eqb_refl. done.
Qed.
Lemma cycles k n todo : 1 <= k -> exists acts,
  quiet_at (Z.of_nat n - 1) todo (mrun (ring1 k) (mst_new 1 [repeat (one true 0) n ++ todo]) acts).
Proof.
  intros Hk. enough (H : forall n m s, quiet_at m (repeat (one true 0) n ++ todo) s -> exists acts, quiet_at (m + Z.of_nat n) todo (mrun (ring1 k) s acts)).
  { destruct (H n (-1) (mst_new 1 [repeat (one true 0) n ++ todo])) as [acts Q].
    - constructor; cbn; eauto; lia.
    - exists acts. replace (Z.of_nat n - 1) with (-1 + Z.of_nat n) by lia. done. }
  clear n. induction n as [|n IH]; intros m s Q.
  - exists []. cbn. by rewrite Z.add_0_r.
  - destruct Q as [Q1 Q2 Q3 [log Q4] Q5]. cbn [repeat app] in Q3.
    destruct (publish_one k true 0 m (repeat (one true 0) n ++ todo) s m CWait log) as (acts & A1 & A2 & A3 & A4 & A5 & A6 & A7 & A8); try done.
    set (s1 := mrun (ring1 k) s acts) in *.
    assert (E1 := consume_one k m log s1 A1 (eq_trans A3 Q4)).
    rewrite A7 in E1. rewrite fupd_eq in E1 by done. specialize (E1 eq_refl).
    set (s2 := mrun (ring1 k) s1 [C;C;C]) in *.
    assert (E2 : m_cons s2 = [Cons m (CHandle (m + 1) (m + 1)) log]) by (by rewrite E1).
    pose proof (handle_one k m log s2 E2) as E3. set (s3 := mrun (ring1 k) s2 [C;C;C]) in *.
    destruct (IH (m + 1) s3) as [acts2 Q].
    { rewrite E3, E1. constructor; cbn; eauto. specialize (A5 eq_refl). lia. }
    exists (acts ++ [C;C;C] ++ [C;C;C] ++ acts2). rewrite !mrun_app. fold s1. fold s2. fold s3.
    replace (m + Z.of_nat (S n)) with (m + 1 + Z.of_nat n) by lia. done.
Qed.

(** [n] further publications by try_next past 2^31, the consumer standing still. *)
Lemma wrap_low i : 0 <= i < 2^32 -> wrap32 (2^31 + i) = i - 2^31.
Proof.
  intros H. unfold wrap32. replace (2^31 + i + 2^31) with (i + 1 * 2^32) by lia. rewrite Z.mod_add, Z.mod_small by lia. lia.
Qed.
Lemma overrun k todo sq pc log vs : 1 <= k -> 0 <= sq -> forall i s, 0 <= i -> i + Z.of_nat (length vs) < 2^31 ->
  m_cursor s = 2^31 + i -> m_prods s = [Prod MIdle ((one false <$> vs) ++ todo)] -> m_cons s = [Cons sq pc log] -> m_ub s = false ->
  exists acts, let s' := mrun (ring1 k) s acts in
    m_cursor s' = 2^31 + i + Z.of_nat (length vs) /\ m_prods s' = [Prod MIdle todo] /\ m_cons s' = m_cons s /\ m_ub s' = false /\
    granted_events (m_log s') = granted_events (m_log s) ++ vs.
Proof.
  intros Hk Hsq. induction vs as [|v vs IH]; intros i s Hi Hlen Hcur Hp Hc Hub.
  - exists []. cbn -[Z.add Z.pow]. rewrite Z.add_0_r, app_nil_r. repeat split; auto.
  - cbn [length] in Hlen. cbn [fmap list_fmap app] in Hp.
    destruct (publish_one k false v (2^31 + i) ((one false <$> vs) ++ todo) s sq pc log) as (acts & A1 & A2 & A3 & A4 & _ & A6 & A7 & A8); try done.
    { intros _. rewrite wrap_low by lia. unfold fits32. lia. }
    set (s1 := mrun (ring1 k) s acts) in *.
    destruct (IH (i + 1) s1) as (acts2 & B1 & B2 & B3 & B4 & B5); [lia|lia|rewrite A1; lia|done|by rewrite A3|done|].
    exists (acts ++ acts2). cbv zeta. rewrite mrun_app. fold s1. set (s2 := mrun (ring1 k) s1 acts2) in *.
    replace (2^31 + i + Z.of_nat (length (v :: vs))) with (2^31 + (i + 1) + Z.of_nat (length vs)) by (cbn [length]; lia).
    split; [done|]. split; [done|]. split; [by rewrite B3|]. split; [done|].
    rewrite B5, A8. unfold granted_events, granted. rewrite omap_app, fmap_app, concat_app. cbn. by rewrite <-app_assoc.
Qed.
(** The whole story: 2^31 + 1 events through next(1) and consumed; one by try_next(1), about to be handled; then rsize k more by try_next(1):
    the last one lands on the unread event. *)
Definition wrap_prog (k : Z) : list claim :=
  repeat (one true 0) (Z.to_nat (2^31 + 1)) ++ [one false 0] ++ (one false <$> repeat 0 (Z.to_nat (rsize k - 1))) ++ [one false 1].
Lemma wrap_overwrites k : 1 <= k <= 30 -> exists acts c d,
  let s := mrun (ring1 k) (mst_new 1 [wrap_prog k]) acts in
  m_ub s = false /\ m_cons s !! 0%nat = Some c /\ d ∈ co_log c /\ d_val d = 1 /\ granted_events (m_log s) !! Z.to_nat (d_seq d) = Some 0.
Proof.
  intros Hk. assert (HN : 2 <= rsize k <= 2^30). { unfold rsize. split; [change 2 with (2^1) at 1; apply Z.pow_le_mono_r; lia|apply Z.pow_le_mono_r; lia]. }
  unfold wrap_prog. set (tail := (one false <$> repeat 0 (Z.to_nat (rsize k - 1))) ++ [one false 1]).
  set (n := Z.to_nat (2^31 + 1)). assert (Hn : Z.of_nat n = 2^31 + 1) by (unfold n; lia). clearbody n.
  destruct (cycles k n ([one false 0] ++ tail)) as [acts1 [Q1 Q2 Q3 [log Q4] Q5]]; [lia|].
  set (s1 := mrun (ring1 k) (mst_new 1 [repeat (one true 0) n ++ [one false 0] ++ tail]) acts1) in *.
  replace (Z.of_nat n - 1) with (2^31) in * by lia.
  destruct (publish_one k false 0 (2^31) tail s1 (2^31) CWait log) as (acts2 & A1 & A2 & A3 & A4 & _ & A6 & A7 & A8); try done; [lia|..].
  set (s2 := mrun (ring1 k) s1 acts2) in *.
  assert (E3 := consume_one k (2^31) log s2 A1 (eq_trans A3 Q4)). rewrite A7 in E3. rewrite fupd_eq in E3 by done. specialize (E3 eq_refl).
  set (s3 := mrun (ring1 k) s2 [C;C;C]) in *.
  destruct (overrun k [one false 1] (2^31) (CHandle (2^31 + 1) (2^31 + 1)) log (repeat 0 (Z.to_nat (rsize k - 1)))) with (i := 1) (s := s3) as (acts4 & B1 & B2 & B3 & B4 & B5);
    [lia|lia|lia|rewrite repeat_length; lia|by rewrite E3|by rewrite E3|by rewrite E3|by rewrite E3|].
  rewrite repeat_length in B1. set (s4 := mrun (ring1 k) s3 acts4) in *.
  replace (2^31 + 1 + Z.of_nat (Z.to_nat (rsize k - 1))) with (2^31 + rsize k) in B1 by lia.
  assert (Hc4 : m_cons s4 = [Cons (2^31) (CHandle (2^31 + 1) (2^31 + 1)) log]) by (rewrite B3, E3; done).
  destruct (publish_one k false 1 (2^31 + rsize k) [] s4 (2^31) (CHandle (2^31 + 1) (2^31 + 1)) log) as (acts5 & D1 & D2 & D3 & D4 & _ & D6 & D7 & D8); try done; [lia| |].
  { intros _. rewrite wrap_low by lia. unfold fits32. lia. }
  set (s5 := mrun (ring1 k) s4 acts5) in *.
  pose proof (handle_one k (2^31) log s5 (eq_trans D3 Hc4)) as E6. set (s6 := mrun (ring1 k) s5 [C;C;C]) in *.
  exists (acts1 ++ acts2 ++ [C;C;C] ++ acts4 ++ acts5 ++ [C;C;C]).
  exists (Cons (2^31 + 1) CWait (log ++ [Delivery (2^31 + 1) (m_slots s5 (ring_index k (2^31 + 1))) true false])).
  exists (Delivery (2^31 + 1) (m_slots s5 (ring_index k (2^31 + 1))) true false).
  cbv zeta. rewrite !mrun_app. fold s1. fold s2. fold s3. fold s4. fold s5. fold s6. rewrite E6.
  cbn [m_ub m_cons m_log co_log d_val d_seq]. split; [done|]. split; [done|]. split; [apply elem_of_app; right; by apply elem_of_list_singleton|].
  split.
  - rewrite D6. apply fupd_eq. rewrite !ring_index_mod by lia.
    replace (2^31 + rsize k + 1) with (2^31 + 1 + 1 * rsize k) by lia. rewrite Z.mod_add by lia. done.
  - assert (E : granted_events (m_log s2) = granted_events (m_log s1) ++ [0]).
    { rewrite A8. unfold granted_events, granted. rewrite omap_app, fmap_app, concat_app. done. }
    rewrite D8. unfold granted_events at 1, granted. rewrite omap_app, fmap_app, concat_app. cbn [omap list_omap snd fmap list_fmap concat app].
    change (concat (omap (λ p : nat * presult, match p.2 with RClaimed lo vals => Some (lo, vals) | _ => None end) (m_log s4)).*2) with (granted_events (m_log s4)).
    rewrite B5. assert (El : m_log s3 = m_log s2) by (rewrite E3; done). rewrite El, E.
    pose proof (l_vals _ _ (linv_run (ring1 k) 1 [repeat (one true 0) n ++ [one false 0] ++ tail] acts1)) as [V1 _]. fold s1 in V1. rewrite Q1 in V1.
    rewrite lookup_app_l by (rewrite !app_length; cbn; lia). rewrite lookup_app_l by (rewrite app_length; cbn; lia).
    rewrite lookup_app_r by lia. replace (Z.to_nat (2^31 + 1) - length (granted_events (m_log s1)))%nat with 0%nat by lia. done.
Qed.
(** The step from 2^31 - 1 computes an int sum that overflows. *)
Lemma wrap_overflows k : 1 <= k -> exists acts, m_ub (mrun (ring1 k) (mst_new 1 [repeat (one true 0) (Z.to_nat (2^31)) ++ [one false 0]]) acts) = true.
Proof.
  intros Hk. set (n := Z.to_nat (2^31)). assert (Hn : Z.of_nat n = 2^31) by (unfold n; lia). clearbody n.
  destruct (cycles k n [one false 0]) as [acts1 [Q1 Q2 Q3 [log Q4] Q5]]; [lia|].
  set (s1 := mrun (ring1 k) (mst_new 1 [repeat (one true 0) n ++ [one false 0]]) acts1) in *.
  exists (acts1 ++ [P;P;P]). rewrite mrun_app. fold s1. destruct s1 as [cur cache flags slots prods cons ub log0 vals pub]. cbn in Q1, Q2, Q3, Q4, Q5. subst.
  unfold mrun. cbn -[Z.add Z.sub Z.ltb rsize wrap32 fits32 Z.of_nat Z.pow]. unfold cl_n, one. cbn -[Z.add Z.sub Z.ltb rsize wrap32 fits32 Z.of_nat Z.pow].
  change (Z.of_nat 1 <? 1) with false. cbn -[Z.add Z.sub Z.ltb rsize wrap32 fits32 Z.of_nat Z.pow]. rewrite Hn.
  rewrite wrap32_id by lia. unfold fits32, cl_n. cbn [cl_vals length]. lia.
Qed.
