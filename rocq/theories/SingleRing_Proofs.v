From stdpp Require Import prelude list_numbers.
From Coq Require Import ZArith Lia ZifyBool.
From Verif Require Import Base MultiRing_Model MultiRing_Proofs SingleRing_Model SingleRing_Spec.
Local Open Scope Z_scope.

Definition sgle (s : sst) (x : Z) : Prop := forall g, g ∈ s_gating s -> x <= scseq (s_cons s) g.
Definition spos (c : scons) : Z := match sc_pc c with SHandle nx _ => nx - 1 | SSet v => v | _ => sc_seq c end.
Definition sbatch_end (r : sring) (c : scons) : Prop :=
  match last (sc_log c) with
  | None => match sc_pc c with SHandle nx _ => nx = sc_seq c + 1 | SSet v => v = sc_seq c | _ => True end
  | Some d => match sc_pc c with
              | SHandle nx avail => if decide (nx = sc_seq c + 1) then e_end d = true \/ e_threw d = true
                                    else e_threw d = false /\ e_end d = (nx - 1 =? avail)
              | _ => e_end d = true \/ e_threw d = true
              end
  end /\ Forall (fun d => sr_end_only r = true -> e_threw d = true -> e_end d = true) (sc_log c).
Definition scons_ok (r : sring) (s : sst) (i : nat) (c : scons) : Prop :=
  match sc_pc c with
  | SNew => sc_seq c = -1 /\ sc_log c = []
  | SReg v => sc_seq c = -1 /\ sc_log c = [] /\ -1 <= v <= s_cursor s
  | _ => i ∈ s_gating s /\ -1 <= sc_start c <= sc_seq c /\ sc_seq c <= s_cursor s /\
      match sc_pc c with
      | SHandle nx avail => sc_seq c + 1 <= nx <= avail + 1 /\ avail <= s_cursor s /\ sc_seq c < avail
      | SSet v => sc_seq c < v <= s_cursor s
      | _ => True
      end /\
      e_seq <$> sc_log c = seqZ (sc_start c + 1) (spos c - sc_start c) /\ sbatch_end r c
  end.
Definition sprod_ok (s : sst) : Prop :=
  match s_todo s with
  | [] | SPublish :: _ => s_pc s = PIdle
  | SClaim _ vals pub :: _ =>
      match s_pc s with
      | PIdle => True
      | PScan i m => 1 <= s_n vals /\ m <= s_next s /\ (forall g, g ∈ take i (s_gating s) -> m <= scseq (s_cons s) g)
      | PCheck m => 1 <= s_n vals /\ m <= s_next s /\ sgle s m
      | PWrite lo i => 1 <= s_n vals /\ lo = s_next s - s_n vals + 1 /\ Z.of_nat i <= s_n vals /\ s_cursor s < lo
      | PPub => pub = true
      end
  end.
Record SInv (r : sring) (s : sst) : Prop := {
  v_cur : -1 <= s_cursor s <= s_next s;
  v_gate : sgle s (s_next s - rsize (sr_k r));
  v_cache : sgle s (s_cached s) /\ s_cached s <= s_next s;
  v_prod : sprod_ok s;
  v_gin : forall g, g ∈ s_gating s -> (g < length (s_cons s))%nat;
  v_cons : forall i c, s_cons s !! i = Some c -> scons_ok r s i c
}.
Definition reg_safe (r : sring) (s : sst) (v : Z) : Prop :=
  s_cached s <= v /\ s_next s - rsize (sr_k r) <= v /\ match s_pc s with PScan _ m | PCheck m => m <= v | _ => True end.

Lemma scons_ok_frame r s s' i c : s_cursor s <= s_cursor s' -> s_gating s' = s_gating s -> scons_ok r s i c -> scons_ok r s' i c.
Proof.
  intros Hc Hg. unfold scons_ok. rewrite Hg. destruct (sc_pc c); try done.
  - intros (? & ? & ?). split; [done|]. split; [done|]. lia.
  - intros (? & ? & ? & ? & ?). do 2 (split; [done|]). split; [lia|]. done.
  - intros (? & ? & ? & ? & ?). do 2 (split; [done|]). split; [lia|]. split; [lia|]. done.
  - intros (? & ? & ? & ? & ?). do 2 (split; [done|]). split; [lia|]. split; [lia|]. done.
Qed.
Lemma sclaim_inv r s vals cached todo pub b : SInv r s -> s_todo s = SClaim b vals pub :: todo -> 1 <= s_n vals ->
  sgle s cached -> cached <= s_next s -> sgle s (s_next s + s_n vals - rsize (sr_k r)) -> SInv r (s_claim s cached vals).
Proof.
  intros I Ht Hn Hc1 Hc2 Hg. pose proof (v_cur _ _ I). constructor; cbn.
  - lia.
  - done.
  - split; [done|lia].
  - unfold sprod_ok. cbn. rewrite Ht. lia.
  - apply I.
  - intros i c Hi. by apply (v_cons _ _ I).
Qed.
Lemma sprod_inv r s : 0 <= sr_k r -> SInv r s -> SInv r (sprod_step r s).
Proof.
  intros Hk I. pose proof (rsize_pos (sr_k r) Hk) as HN. pose proof (v_cur _ _ I) as Hcur. pose proof (v_cache _ _ I) as [Hca1 Hca2]. pose proof (v_prod _ _ I) as HP.
  assert (Hpub : forall todo x, SInv r (Sst (s_next s) (s_next s) (s_cached s) (s_slots s) (s_heap s) (s_nobj s) PIdle todo (s_gating s) (s_cons s) (s_log s ++ x) (s_vals s))).
  { intros todo x. constructor; cbn; try apply I.
    - lia.
    - unfold sprod_ok. cbn. by destruct todo as [|[] ?].
    - intros i c Hi. apply (scons_ok_frame r s); [|done|by apply (v_cons _ _ I)]. cbn. lia. }
  assert (Hdone : forall cached todo x, sgle s cached -> cached <= s_next s -> SInv r (s_done s cached todo x)).
  { intros cached todo x H1 H2. constructor; cbn; try apply I.
    - split; done.
    - unfold sprod_ok. cbn. by destruct todo as [|[] ?]. }
  unfold sprod_step. unfold sprod_ok in HP. destruct (s_todo s) as [|[b vals pub|] todo] eqn:Ht; [done| |apply Hpub].
  assert (Hgoto : forall pc, (match pc with
      | PIdle => True
      | PScan i m => 1 <= s_n vals /\ m <= s_next s /\ (forall g, g ∈ take i (s_gating s) -> m <= scseq (s_cons s) g)
      | PCheck m => 1 <= s_n vals /\ m <= s_next s /\ sgle s m
      | PWrite lo i => 1 <= s_n vals /\ lo = s_next s - s_n vals + 1 /\ Z.of_nat i <= s_n vals /\ s_cursor s < lo
      | PPub => pub = true end) -> SInv r (s_goto s pc)).
  { intros pc H. constructor; cbn; try apply I. unfold sprod_ok. cbn. rewrite Ht. by destruct pc. }
  destruct (s_pc s) as [|i m|m|lo i|].
  - destruct (Z.ltb_spec (s_n vals) 1) as [|Hn]; [by apply Hdone|]. unfold s_must_scan.
    destruct (Z.ltb_spec (s_cached s) (s_next s + s_n vals - rsize (sr_k r))) as [|Hge]; cbn.
    + apply Hgoto. split; [done|]. split; [lia|]. intros g Hg. by apply elem_of_nil in Hg.
    + destruct (Z.ltb_spec (s_next s) (s_cached s)); [lia|]. eapply sclaim_inv; eauto. intros g Hg. specialize (Hca1 g Hg). lia.
  - destruct HP as (H1 & H2 & H3). destruct (s_gating s !! i) as [g|] eqn:Eg.
    + apply Hgoto. split; [done|]. split; [destruct (Z.ltb_spec (scseq (s_cons s) g) m); lia|]. intros g' Hg'. rewrite (take_S_r _ _ _ Eg) in Hg'.
      apply elem_of_app in Hg' as [Hg'|Hg'].
      * specialize (H3 g' Hg'). destruct (Z.ltb_spec (scseq (s_cons s) g) m); lia.
      * apply elem_of_list_singleton in Hg' as ->. destruct (Z.ltb_spec (scseq (s_cons s) g) m); lia.
    + apply Hgoto. split; [done|]. split; [done|]. intros g Hg. apply H3. apply lookup_ge_None in Eg. by rewrite take_ge.
  - destruct HP as (H1 & H2 & H3). destruct b; destruct (Z.ltb_spec m (s_next s + s_n vals - rsize (sr_k r))).
    + apply Hgoto. split; [done|]. split; [lia|]. intros g Hg. by apply elem_of_nil in Hg.
    + eapply sclaim_inv; eauto. intros g Hg. specialize (H3 g Hg). lia.
    + by apply Hdone.
    + eapply sclaim_inv; eauto. intros g Hg. specialize (H3 g Hg). lia.
  - destruct HP as (H1 & H2 & H3 & H4). destruct (vals !! i) as [[[] v]|] eqn:Ev.
    + apply lookup_lt_Some in Ev. constructor; cbn; try apply I. unfold sprod_ok. cbn. rewrite ?Ht. unfold s_n in *. lia.
    + apply lookup_lt_Some in Ev. constructor; cbn; try apply I. unfold sprod_ok. cbn. rewrite ?Ht. unfold s_n in *. lia.
    + by apply Hdone.
    + destruct pub; [by apply Hgoto|by apply Hdone].
  - apply Hpub.
Qed.
Lemma scseq_insert cs i c c' j : cs !! i = Some c -> scseq (<[i := c']> cs) j = if decide (j = i) then sc_seq c' else scseq cs j.
Proof.
  intros H. unfold scseq. destruct (decide (j = i)) as [->|Hne].
  - rewrite list_lookup_insert; [done|by eapply lookup_lt_Some].
  - by rewrite list_lookup_insert_ne.
Qed.
Lemma scons_set r s i c c' : SInv r s -> s_cons s !! i = Some c -> sc_seq c <= sc_seq c' ->
  (forall s', s_cursor s' = s_cursor s -> s_gating s' = s_gating s -> scons_ok r s' i c') ->
  SInv r (Sst (s_cursor s) (s_next s) (s_cached s) (s_slots s) (s_heap s) (s_nobj s) (s_pc s) (s_todo s) (s_gating s) (<[i := c']> (s_cons s)) (s_log s) (s_vals s)).
Proof.
  intros I Hi Hle Hok.
  assert (Hm : forall g, scseq (s_cons s) g <= scseq (<[i := c']> (s_cons s)) g).
  { intros g. rewrite (scseq_insert _ _ c) by done. destruct (decide (g = i)) as [->|]; [|lia]. unfold scseq. rewrite Hi. done. }
  assert (Hg : forall s' x, s_gating s' = s_gating s -> s_cons s' = <[i := c']> (s_cons s) -> sgle s x -> sgle s' x).
  { intros s' x E1 E2 H g Hin. rewrite E1 in Hin. rewrite E2. specialize (H g Hin). specialize (Hm g). lia. }
  constructor; cbn.
  - apply I.
  - eapply Hg; [done|done|apply I].
  - destruct (v_cache _ _ I). split; [eapply Hg; done|done].
  - pose proof (v_prod _ _ I) as HP. unfold sprod_ok in *. cbn. destruct (s_todo s) as [|[b vals pub|] todo]; try done.
    destruct (s_pc s) as [|j m|m|lo j|]; try done.
    + destruct HP as (H1 & H2 & H3). split; [done|]. split; [done|]. intros g Hin. specialize (H3 g Hin). specialize (Hm g). lia.
    + destruct HP as (H1 & H2 & H3). split; [done|]. split; [done|]. eapply Hg; done.
  - intros g Hin. rewrite insert_length. by apply (v_gin _ _ I).
  - intros j d Hj. apply list_lookup_insert_Some in Hj as [(-> & <- & _)|[Hne Hj]]; [by apply Hok|].
    apply (scons_ok_frame r s); [cbn; lia|done|by apply (v_cons _ _ I)].
Qed.
Lemma seqZ_snoc2 a n : 0 <= n -> seqZ a (n + 1) = seqZ a n ++ [a + n].
Proof. intros H. rewrite seqZ_app by lia. done. Qed.
Lemma scons_inv r s i th : 0 <= sr_k r -> SInv r s ->
  (forall c v, s_cons s !! i = Some c -> sc_pc c = SReg v -> reg_safe r s v) -> SInv r (scons_step r s i th).
Proof.
  intros Hk I Hreg. unfold scons_step. destruct (s_cons s !! i) as [c|] eqn:Hi; [|done].
  pose proof (v_cons _ _ I i c Hi) as Hok. pose proof (v_cur _ _ I) as Hcur. unfold scons_ok in Hok.
  destruct (sc_pc c) as [|v| |nx avail|v] eqn:Epc.
  - apply (scons_set r s i c); [done|done|cbn; lia|]. intros s' E1 E2. unfold scons_ok. cbn. rewrite E1. destruct Hok. repeat split; try done; lia.
  - destruct (Hreg c v eq_refl Epc) as (R1 & R2 & R3). destruct Hok as (O1 & O2 & O3).
    assert (Hnot : forall g, g <> i -> scseq (<[i := SCons v SWait v (sc_log c)]> (s_cons s)) g = scseq (s_cons s) g).
    { intros g Hne. rewrite (scseq_insert _ _ c) by done. by rewrite decide_False. }
    assert (Hthis : scseq (<[i := SCons v SWait v (sc_log c)]> (s_cons s)) i = v).
    { rewrite (scseq_insert _ _ c) by done. by rewrite decide_True. }
    assert (Hle : forall g, scseq (s_cons s) g <= scseq (<[i := SCons v SWait v (sc_log c)]> (s_cons s)) g).
    { intros g. destruct (decide (g = i)) as [->|]; [|rewrite Hnot by done; lia]. rewrite Hthis. unfold scseq. rewrite Hi, O1. lia. }
    assert (Hg : forall s' x, s_gating s' = s_gating s ++ [i] -> s_cons s' = <[i := SCons v SWait v (sc_log c)]> (s_cons s) -> x <= v -> sgle s x -> sgle s' x).
    { intros s' x E1 E2 Hx H g Hin. rewrite E2. rewrite E1 in Hin. apply elem_of_app in Hin as [Hin|Hin].
      - specialize (H g Hin). specialize (Hle g). lia.
      - apply elem_of_list_singleton in Hin as ->. by rewrite Hthis. }
    constructor; cbn.
    + apply I.
    + eapply Hg; [done|done|done|apply I].
    + destruct (v_cache _ _ I). split; [eapply Hg; done|done].
    + pose proof (v_prod _ _ I) as HP. unfold sprod_ok in *. cbn. destruct (s_todo s) as [|[b vals pub|] todo]; try done.
      destruct (s_pc s) as [|j m|m|lo j|]; try done.
      * destruct HP as (H1 & H2 & H3). split; [done|]. split; [done|]. intros g Hin.
        assert (g ∈ take j (s_gating s) \/ g = i) as [Hg'| ->].
        { destruct (decide (j <= length (s_gating s))%nat).
          - rewrite take_app_le in Hin by done. by left.
          - rewrite take_ge in Hin by (rewrite app_length; cbn; lia). apply elem_of_app in Hin as [Hin|Hin]; [left; by rewrite take_ge by lia|right; by apply elem_of_list_singleton]. }
        -- specialize (H3 g Hg'). specialize (Hle g). lia.
        -- rewrite Hthis. done.
      * destruct HP as (H1 & H2 & H3). split; [done|]. split; [done|]. eapply Hg; done.
    + intros g Hin. rewrite insert_length. apply elem_of_app in Hin as [Hin|Hin]; [by apply (v_gin _ _ I)|]. apply elem_of_list_singleton in Hin as ->. by eapply lookup_lt_Some.
    + intros j d Hj. apply list_lookup_insert_Some in Hj as [(-> & <- & _)|[Hne Hj]].
      * unfold scons_ok. cbn. split; [apply elem_of_app; right; by apply elem_of_list_singleton|]. split; [lia|]. split; [lia|]. split; [done|].
        unfold spos, sbatch_end. cbn. rewrite O2. rewrite Z.sub_diag. cbn. done.
      * pose proof (v_cons _ _ I j d Hj) as Hd. unfold scons_ok in *. cbn. destruct (sc_pc d); try done;
          (destruct Hd as (D1 & D2); split; [apply elem_of_app; by left|done]).
  - destruct Hok as (G & O1 & O2 & _ & O3 & O4). destruct (Z.ltb_spec (s_cursor s) (sc_seq c + 1)); [done|].
    apply (scons_set r s i c); [done|done|cbn; lia|]. intros s' E1 E2. unfold scons_ok. cbn. rewrite E1, E2.
    repeat (split; [try done; lia|]). split; [|].
    + rewrite O3. unfold spos. cbn. rewrite Epc. f_equal. lia.
    + unfold sbatch_end in *. rewrite Epc in O4. cbn. destruct O4 as [O4 O5]. split; [|done]. destruct (last (sc_log c)); [|done]. by rewrite decide_True.
  - destruct Hok as (G & O1 & O2 & (O3 & O4 & O5) & O6 & O7 & O8). rewrite Epc in O7. destruct (Z.ltb_spec avail nx).
    + apply (scons_set r s i c); [done|done|cbn; lia|]. intros s' E1 E2. unfold scons_ok. cbn. rewrite E1, E2.
      repeat (split; [try done; lia|]). split.
      * rewrite O6. unfold spos. cbn. rewrite Epc. f_equal. lia.
      * split; [|done]. cbn. destruct (last (sc_log c)) as [d|] eqn:El; [|lia]. destruct (decide (nx = sc_seq c + 1)); [lia|]. destruct O7 as [_ ->]. left. lia.
    + set (threw := th && (negb (sr_end_only r) || (nx =? avail))). set (d := SDel nx _ _ _ threw).
      assert (Hseq : e_seq <$> sc_log c ++ [d] = seqZ (sc_start c + 1) (nx - sc_start c)).
      { rewrite fmap_app, O6. unfold spos. rewrite Epc. cbn. replace (nx - sc_start c) with ((nx - 1 - sc_start c) + 1) by lia. rewrite seqZ_snoc2 by lia. f_equal. f_equal. lia. }
      assert (Hend : Forall (fun d => sr_end_only r = true -> e_threw d = true -> e_end d = true) (sc_log c ++ [d])).
      { apply Forall_app. split; [done|]. constructor; [|done]. cbn. unfold threw. intros -> Hth. apply andb_true_iff in Hth as [_ Hth]. done. }
      destruct threw eqn:Eth.
      * apply (scons_set r s i c); [done|done|cbn; lia|]. intros s' E1 E2. unfold scons_ok. cbn. rewrite E1, E2.
        split; [done|]. do 3 (split; [lia|]). split; [exact Hseq|]. split; [|done]. cbn. rewrite last_snoc. by right.
      * apply (scons_set r s i c); [done|done|cbn; lia|]. intros s' E1 E2. unfold scons_ok. cbn. rewrite E1, E2.
        split; [done|]. split; [lia|]. split; [lia|]. split; [lia|]. split; [unfold spos; cbn; rewrite Hseq; f_equal; lia|]. split; [|done]. cbn. rewrite last_snoc.
        rewrite decide_False by lia. cbn. split; [done|]. f_equal. lia.
  - destruct Hok as (G & O1 & O2 & O3 & O6 & O7). apply (scons_set r s i c); [done|done|cbn; lia|]. intros s' E1 E2. unfold scons_ok. cbn. rewrite E1, E2.
    repeat (split; [try done; lia|]). split.
    + rewrite O6. unfold spos. cbn. rewrite Epc. done.
    + unfold sbatch_end in *. rewrite Epc in O7. cbn. destruct O7 as [O7 O8]. split; [|done]. by destruct (last (sc_log c)).
Qed.
