From stdpp Require Import prelude list_numbers.
From Coq Require Import ZArith Lia ZifyBool.
From Verif Require Import Base MultiRing_Model MultiRing_Proofs SingleRing_Model SingleRing_Spec SingleRing_Proofs SingleRing_Run.
Local Open Scope Z_scope.

(** ** Contents. *)
Definition written (s : sst) : Z := match s_pc s with PWrite lo i => lo + Z.of_nat i | _ => s_next s + 1 end.
Record CInv (sm : bool) (r : sring) (s : sst) : Prop := {
  k_clean : clean sm (s_todo s);
  k_pw : match s_todo s, s_pc s with SClaim _ vals _ :: _, PWrite lo i => forall j x, vals !! j = Some x -> s_vals s (lo + Z.of_nat j) = x.2 | _, _ => True end;
  k_obj : forall a, 0 <= a < rsize (sr_k r) -> s_slots s a < s_nobj s;
  k_inj : sm = false -> forall a b, 0 <= a < rsize (sr_k r) -> 0 <= b < rsize (sr_k r) -> s_slots s a = s_slots s b -> a = b;
  k_cont : forall j, 0 <= j -> s_next s - rsize (sr_k r) < j < written s -> s_heap s (s_slots s (ring_index (sr_k r) j)) = s_vals s j;
  k_log : forall i c, s_cons s !! i = Some c -> Forall (fun d => e_val d = s_vals s (e_seq d)) (sc_log c)
}.
Lemma ring_index_range k j : 0 <= k -> 0 <= ring_index k j < rsize k.
Proof. intros H. rewrite ring_index_mod by done. apply Z.mod_pos_bound. by apply rsize_pos. Qed.
Lemma log_le r s i c d : SInv r s -> s_cons s !! i = Some c -> d ∈ sc_log c -> sc_start c < e_seq d <= s_cursor s.
Proof.
  intros I Hi Hd. pose proof (v_cons _ _ I i c Hi) as H. unfold scons_ok in H.
  assert (Hin : forall n, e_seq <$> sc_log c = seqZ (sc_start c + 1) n -> sc_start c + 1 <= e_seq d < sc_start c + 1 + n).
  { intros n E. assert (e_seq d ∈ seqZ (sc_start c + 1) n) as Hin by (rewrite <-E; by apply elem_of_list_fmap_1). by apply elem_of_seqZ in Hin. }
  unfold spos in H. destruct (sc_pc c) as [|v| |nx avail|v].
  - destruct H as [_ E]. rewrite E in Hd. by apply elem_of_nil in Hd.
  - destruct H as (_ & E & _). rewrite E in Hd. by apply elem_of_nil in Hd.
  - destruct H as (_ & ? & ? & _ & E & _). apply Hin in E. lia.
  - destruct H as (_ & ? & ? & ? & E & _). apply Hin in E. lia.
  - destruct H as (_ & ? & ? & ? & E & _). apply Hin in E. lia.
Qed.
Lemma cinv_claim sm r s cached b vals pub todo : SInv r s -> CInv sm r s -> s_todo s = SClaim b vals pub :: todo -> (match s_pc s with PWrite _ _ | PPub => False | _ => True end) -> 1 <= s_n vals ->
  CInv sm r (s_claim s cached vals).
Proof.
  intros I [K1 K2 K3 K4 K5 K6] Ht Hpc Hn. pose proof (v_cur _ _ I).
  assert (Ev : forall j, j <= s_next s -> (if (s_next s + 1 <=? j) && (j <=? s_next s + s_n vals) then (nth (Z.to_nat (j - (s_next s + 1))) vals (WSkip, 0)).2 else s_vals s j) = s_vals s j).
  { intros j Hj. destruct (Z.leb_spec (s_next s + 1) j); [lia|done]. }
  constructor; cbn; rewrite ?Ht; try done.
  - by rewrite Ht in K1.
  - intros j x Hj. assert (Hlt : (j < length vals)%nat) by (by eapply lookup_lt_Some).
    destruct (Z.leb_spec (s_next s + 1) (s_next s + 1 + Z.of_nat j)); [|lia]. destruct (Z.leb_spec (s_next s + 1 + Z.of_nat j) (s_next s + s_n vals)); [|unfold s_n in *; lia]. cbn [andb].
    replace (Z.to_nat (s_next s + 1 + Z.of_nat j - (s_next s + 1))) with j by lia. f_equal. by apply nth_lookup_Some.
  - intros j Hj Hw. unfold written in Hw. cbn in Hw. rewrite Ev by lia. apply K5; [done|]. unfold written. destruct (s_pc s); try done; lia.
  - intros i c Hi. specialize (K6 i c Hi). rewrite Forall_forall in *. intros d Hd. rewrite Ev; [by apply K6|]. pose proof (log_le r s i c d I Hi Hd). lia.
Qed.
Lemma cinv_prod sm r s : 0 <= sr_k r -> SInv r s -> CInv sm r s -> CInv sm r (sprod_step r s).
Proof.
  intros Hk I C. pose proof C as [K1 K2 K3 K4 K5 K6]. pose proof (v_cur _ _ I) as Hcur. pose proof (v_prod _ _ I) as HP. unfold sprod_ok in HP.
  unfold sprod_step. destruct (s_todo s) as [|[b vals pub|] todo] eqn:Ht; [done| |].
  2:{ apply Forall_cons in K1 as [_ K1]. constructor; cbn; try done.
      - by destruct todo as [|[] ?].
      - intros j H1 H2. apply K5; [done|]. unfold written in *. rewrite HP. cbn in H2. lia. }
  pose proof K1 as K1'. apply Forall_cons in K1' as [Hcl K1t].
  assert (Hdone : forall cached x, written s = s_next s + 1 -> CInv sm r (s_done s cached todo x)).
  { intros cached x Hwr. constructor; cbn; try done.
    - by destruct todo as [|[] ?].
    - intros j H1 H2. apply K5; [done|]. rewrite Hwr. unfold written in H2; cbn in H2. lia. }
  assert (Hgoto : forall pc, written s = s_next s + 1 -> (match pc with PWrite _ _ => False | _ => True end) -> CInv sm r (s_goto s pc)).
  { intros pc Hwr Hpc. constructor; cbn; rewrite ?Ht; try done.
    - by destruct pc.
    - intros j H1 H2. apply K5; [done|]. rewrite Hwr. unfold written in H2; cbn in H2. destruct pc; try done; lia. }
  destruct (s_pc s) as [|i m|m|lo i|] eqn:Epc.
  - assert (Hwr : written s = s_next s + 1) by (unfold written; by rewrite Epc).
    destruct (Z.ltb_spec (s_n vals) 1); [by apply Hdone|]. destruct (s_must_scan _ _ _ _); [by apply Hgoto|]. eapply cinv_claim; eauto. by rewrite Epc.
  - assert (Hwr : written s = s_next s + 1) by (unfold written; by rewrite Epc). destruct (s_gating s !! i); by apply Hgoto.
  - assert (Hwr : written s = s_next s + 1) by (unfold written; by rewrite Epc). destruct HP as (Hn & _). destruct b; destruct (m <? _).
    + by apply Hgoto.
    + eapply cinv_claim; eauto. by rewrite Epc.
    + by apply Hdone.
    + eapply cinv_claim; eauto. by rewrite Epc.
  - destruct HP as (H1 & H2 & H3 & H4).
    assert (Hwr : written s = lo + Z.of_nat i) by (unfold written; by rewrite Epc).
    destruct (vals !! i) as [[kd v]|] eqn:Ev.
    2:{ assert (Z.of_nat i = s_n vals) by (apply lookup_ge_None in Ev; unfold s_n in *; lia). destruct pub; [apply Hgoto; [lia|done]|apply Hdone; lia]. }
    assert (Hlt : (i < length vals)%nat) by (by eapply lookup_lt_Some).
    assert (Hv : s_vals s (lo + Z.of_nat i) = v) by (by apply (K2 i (kd, v))).
    assert (Hidx : forall j, 0 <= j -> s_next s - rsize (sr_k r) < j < lo + Z.of_nat i -> ring_index (sr_k r) j <> ring_index (sr_k r) (lo + Z.of_nat i)).
    { intros j Hj0 Hj E. rewrite !ring_index_mod in E by done. apply mod_window in E; [lia|by apply rsize_pos|]. unfold s_n in *. lia. }
    pose proof (ring_index_range (sr_k r) (lo + Z.of_nat i) Hk) as Hri.
    pose proof (elem_of_list_lookup_2 _ _ _ Ev) as Hin. rewrite Forall_forall in Hcl. destruct (Hcl _ Hin) as [Hsk Hfr]. cbn in Hsk, Hfr.
    destruct kd; [| |done].
    + constructor; cbn; try done.
      * intros a Ha. unfold fupd. destruct (a =? _); [lia|]. specialize (K3 a Ha). lia.
      * intros Hsm a b' Ha Hb. unfold fupd. pose proof (K3 a Ha). pose proof (K3 b' Hb). destruct (Z.eqb_spec a (ring_index (sr_k r) (lo + Z.of_nat i))); destruct (Z.eqb_spec b' (ring_index (sr_k r) (lo + Z.of_nat i))); intros E; try lia. by apply K4.
      * intros j Hj0 Hj. unfold written in Hj. cbn in Hj. destruct (decide (j = lo + Z.of_nat i)) as [->|Hne].
        -- rewrite (fupd_eq (s_slots s)) by done. rewrite fupd_eq by done. by rewrite Hv.
        -- rewrite (fupd_ne (s_slots s)) by (apply Hidx; lia). rewrite fupd_ne; [apply K5; lia|]. pose proof (K3 (ring_index (sr_k r) j) (ring_index_range _ j Hk)). lia.
    + assert (Hsm : sm = false) by (destruct sm; [specialize (Hfr eq_refl); done|done]).
      constructor; cbn; try done.
      intros j Hj0 Hj. unfold written in Hj. cbn in Hj. destruct (decide (j = lo + Z.of_nat i)) as [->|Hne].
      * rewrite fupd_eq by done. by rewrite Hv.
      * rewrite fupd_ne; [apply K5; lia|]. intros E. apply K4 in E; [|done|by apply ring_index_range|done]. by apply (Hidx j) in E; [|lia|lia].
  - constructor; cbn; try done.
    + by destruct todo as [|[] ?].
    + intros j G1 G2. apply K5; [done|]. unfold written in *. cbn in G2. rewrite Epc. lia.
Qed.
Lemma cinv_cons sm r s i th : 0 <= sr_k r -> SInv r s -> CInv sm r s -> CInv sm r (scons_step r s i th).
Proof.
  intros Hk I [K1 K2 K3 K4 K5 K6]. destruct (scons_frame r s i th) as (E1 & E2 & E3 & E4 & E5 & E6 & E7 & E8 & E9 & E10).
  constructor; unfold written; rewrite ?E2, ?E4, ?E5, ?E6, ?E7, ?E8, ?E10; try done.
  clear E1 E2 E3 E4 E5 E6 E7 E8 E9 E10. unfold scons_step. destruct (s_cons s !! i) as [c|] eqn:Hi; [|done].
  assert (Hset : forall c', Forall (fun d => e_val d = s_vals s (e_seq d)) (sc_log c') -> forall j d, <[i := c']> (s_cons s) !! j = Some d -> Forall (fun d => e_val d = s_vals s (e_seq d)) (sc_log d)).
  { intros c' Hc' j d Hj. apply list_lookup_insert_Some in Hj as [(-> & <- & _)|[Hne Hj]]; [done|by eapply K6]. }
  pose proof (K6 i c Hi) as Hlog. pose proof (v_cons _ _ I i c Hi) as Hok. unfold scons_ok in Hok.
  destruct (sc_pc c) as [|v| |nx avail|v] eqn:Epc; cbn.
  - by apply Hset.
  - by apply Hset.
  - destruct (_ <? _); [done|]. by apply Hset.
  - destruct (Z.ltb_spec avail nx); [by apply Hset|]. destruct Hok as (G & O1 & O2 & (O3 & O4 & O5) & _).
    assert (Hnew : forall th', Forall (fun d => e_val d = s_vals s (e_seq d)) (sc_log c ++ [SDel nx (s_slots s (ring_index (sr_k r) nx)) (s_heap s (s_slots s (ring_index (sr_k r) nx))) (nx =? avail) th'])).
    { intros th'. apply Forall_app. split; [done|]. constructor; [|done]. cbn. apply K5; [lia|].
      pose proof (v_gate _ _ I i G) as Hg. unfold scseq in Hg. rewrite Hi in Hg. pose proof (v_cur _ _ I). split; [lia|].
      unfold written. pose proof (v_prod _ _ I) as HP. unfold sprod_ok in HP. destruct (s_todo s) as [|[b vals pub|] todo]; [rewrite HP; lia| |rewrite HP; lia].
      destruct (s_pc s); lia. }
    destruct (_ && _); apply Hset, Hnew.
  - by apply Hset.
Qed.
Lemma cinv_new sm r nc prog : 0 <= sr_k r -> clean sm prog -> CInv sm r (sst_new sm (sr_k r) nc prog).
Proof.
  intros Hk Hc. pose proof (rsize_pos (sr_k r) Hk). constructor; cbn; try done.
  - by destruct prog as [|[] ?].
  - intros a Ha. destruct sm; lia.
  - intros ->. done.
  - intros i c Hi. apply elem_of_list_lookup_2, elem_of_list_In, repeat_spec in Hi as ->. constructor.
Qed.
(** The invariant of contents along a run all of whose prefixes satisfy the sequence invariant. *)
Lemma cinv_run sm r nc prog acts : 0 <= sr_k r -> clean sm prog ->
  (forall a1, a1 `prefix_of` acts -> SInv r (srun r (sst_new sm (sr_k r) nc prog) a1)) -> CInv sm r (srun r (sst_new sm (sr_k r) nc prog) acts).
Proof.
  intros Hk Hc. induction acts as [|a acts IH] using rev_ind; intros Hp; [by apply cinv_new|].
  assert (I : SInv r (srun r (sst_new sm (sr_k r) nc prog) acts)) by (apply Hp; by apply prefix_app_r).
  assert (C : CInv sm r (srun r (sst_new sm (sr_k r) nc prog) acts)) by (apply IH; intros a1 H; apply Hp; by apply prefix_app_r).
  rewrite srun_snoc. destruct a; cbn [sstep]; [by apply cinv_prod|by apply cinv_cons].
Qed.
Definition good_registrations (r : sring) (prog : list sop) (s : sst) (acts : list sact) : Prop :=
  calm_registrations r s acts \/ (publishes_each prog /\ atomic_registrations r s acts).
Lemma sinv_good sm r nc prog acts : 0 <= sr_k r -> good_registrations r prog (sst_new sm (sr_k r) nc prog) acts -> SInv r (srun r (sst_new sm (sr_k r) nc prog) acts).
Proof. intros Hk [H|[H1 H2]]; [by apply sinv_calm|by apply sinv_atomic]. Qed.
Lemma good_prefix r prog s acts a1 : a1 `prefix_of` acts -> good_registrations r prog s acts -> good_registrations r prog s a1.
Proof.
  intros [a2 ->] [H|[H1 H2]]; [left; exact (regs_prefix (fun s v => s_next s = v) r s a1 a2 H)|].
  right. split; [done|]. exact (regs_prefix (fun s v => s_cursor s = v) r s a1 a2 H2).
Qed.
Lemma cinv_good sm r nc prog acts : 0 <= sr_k r -> clean sm prog -> good_registrations r prog (sst_new sm (sr_k r) nc prog) acts -> CInv sm r (srun r (sst_new sm (sr_k r) nc prog) acts).
Proof. intros Hk Hc Hg. apply cinv_run; [done|done|]. intros a1 Ha. apply sinv_good; [done|]. by eapply good_prefix. Qed.

(** ** Objects never written again. *)
Record FInv (r : sring) (s : sst) : Prop := {
  f_fresh : only_fresh (s_todo s);
  f_obj : forall a, 0 <= a < rsize (sr_k r) -> s_slots s a < s_nobj s;
  f_log : forall i c, s_cons s !! i = Some c -> Forall (fun d => e_obj d < s_nobj s /\ s_heap s (e_obj d) = e_val d) (sc_log c)
}.
Lemma finv_step r s a : 0 <= sr_k r -> FInv r s -> FInv r (sstep r s a).
Proof.
  intros Hk [F1 F2 F3]. destruct a as [|i th]; cbn [sstep].
  - unfold sprod_step. destruct (s_todo s) as [|[b vals pub|] todo] eqn:Ht; [by constructor; rewrite ?Ht| |].
    2:{ apply Forall_cons in F1 as [_ F1]. by constructor. }
    pose proof F1 as F1'. apply Forall_cons in F1' as [Hcl F1t].
    destruct (s_pc s) as [|j m|m|lo j|].
    + destruct (_ <? _); [by constructor|]. destruct (s_must_scan _ _ _ _); constructor; cbn; rewrite ?Ht; done.
    + destruct (s_gating s !! j); constructor; cbn; rewrite ?Ht; done.
    + destruct b; destruct (m <? _); constructor; cbn; rewrite ?Ht; done.
    + destruct (vals !! j) as [[[] v]|] eqn:Ev.
      * constructor; cbn; rewrite ?Ht; [done| |].
        -- intros a Ha. unfold fupd. destruct (a =? _); [lia|]. specialize (F2 a Ha). lia.
        -- intros i c Hi. specialize (F3 i c Hi). rewrite Forall_forall in *. intros d Hd. destruct (F3 d Hd). split; [lia|]. rewrite fupd_ne; [done|lia].
      * exfalso. rewrite Forall_forall in Hcl. apply elem_of_list_lookup_2 in Ev. by specialize (Hcl _ Ev).
      * by constructor.
      * destruct pub; constructor; cbn; rewrite ?Ht; done.
    + by constructor.
  - destruct (scons_frame r s i th) as (E1 & E2 & E3 & E4 & E5 & E6 & E7 & E8 & E9 & E10). constructor; rewrite ?E4, ?E5, ?E6, ?E8; try done.
    clear E1 E2 E3 E4 E5 E6 E7 E8 E9 E10. unfold scons_step. destruct (s_cons s !! i) as [c|] eqn:Hi; [|done].
    set (P := fun d : sdel => e_obj d < s_nobj s /\ s_heap s (e_obj d) = e_val d).
    assert (Hset : forall c', Forall P (sc_log c') -> forall j d, <[i := c']> (s_cons s) !! j = Some d -> Forall P (sc_log d)).
    { intros c' Hc' j d Hj. apply list_lookup_insert_Some in Hj as [(-> & <- & _)|[Hne Hj]]; [done|by eapply F3]. }
    pose proof (F3 i c Hi) as Hlog. destruct (sc_pc c) as [|v| |nx avail|v]; cbn; try by apply Hset.
    + destruct (_ <? _); [done|]. by apply Hset.
    + destruct (_ <? _); [by apply Hset|].
      assert (Hnew : forall th', Forall P (sc_log c ++ [SDel nx (s_slots s (ring_index (sr_k r) nx)) (s_heap s (s_slots s (ring_index (sr_k r) nx))) (nx =? avail) th'])).
      { intros th'. apply Forall_app. split; [done|]. constructor; [|done]. split; [|done]. cbn. apply F2. by apply ring_index_range. }
      destruct (_ && _); apply Hset, Hnew.
Qed.
Lemma finv_run sm r nc prog acts : 0 <= sr_k r -> only_fresh prog -> FInv r (srun r (sst_new sm (sr_k r) nc prog) acts).
Proof.
  intros Hk Hf. induction acts as [|a acts IH] using rev_ind; [|rewrite srun_snoc; by apply finv_step].
  pose proof (rsize_pos (sr_k r) Hk). constructor; cbn; [done| |].
  - intros a Ha. destruct sm; lia.
  - intros i c Hi. apply elem_of_list_lookup_2, elem_of_list_In, repeat_spec in Hi as ->. constructor.
Qed.

(** ** Why a try_next is refused. *)
Definition swit (r : sring) (s0 : sst) (acts : list sact) (vals : list (wkind * Z)) (pub : bool) (rest : list sop) (nx m : Z) : Prop :=
  m = nx \/ exists a1, a1 `prefix_of` acts /\ s_in_call (srun r s0 a1) vals pub rest /\ s_next (srun r s0 a1) = nx /\
    exists g, g ∈ s_gating (srun r s0 a1) /\ scseq (s_cons (srun r s0 a1)) g <= m.
Lemma swit_snoc r s0 acts a vals pub rest nx m : swit r s0 acts vals pub rest nx m -> swit r s0 (acts ++ [a]) vals pub rest nx m.
Proof. intros [?|(a1 & H & ?)]; [by left|right]. exists a1. split; [by apply prefix_app_r|done]. Qed.
Lemma swhy_run sm r nc prog acts : let s0 := sst_new sm (sr_k r) nc prog in
  forall vals pub rest, s_todo (srun r s0 acts) = SClaim false vals pub :: rest ->
    match s_pc (srun r s0 acts) with PScan _ m | PCheck m => swit r s0 acts vals pub rest (s_next (srun r s0 acts)) m | _ => True end.
Proof.
  intros s0. induction acts as [|a acts IH] using rev_ind; [done|]. intros vals pub rest Ht. rewrite srun_snoc in *. set (s := srun r s0 acts) in *.
  destruct a as [|i th]; cbn [sstep] in *.
  2:{ destruct (scons_frame r s i th) as (E1 & E2 & E3 & E4 & E5 & E6 & E7 & E8 & E9 & E10). rewrite E8 in Ht. rewrite E7, E2. specialize (IH _ _ _ Ht).
      destruct (s_pc s); try done; by apply swit_snoc. }
  unfold sprod_step in *. destruct (s_todo s) as [|[b vals' pub'|] todo] eqn:Et; [by rewrite Et in Ht| |].
  2:{ cbn in *. done. }
  specialize (IH vals' pub' todo). 
  destruct (s_pc s) as [|j m|m|lo j|] eqn:Epc.
  - destruct (_ <? _); [done|]. destruct (s_must_scan _ _ _ _); [|done]. cbn in *. by left.
  - destruct (s_gating s !! j) as [g|] eqn:Eg; cbn in *; rewrite Et in Ht; injection Ht as -> -> -> ->; specialize (IH eq_refl).
    + destruct (Z.ltb_spec (scseq (s_cons s) g) m); [|by apply swit_snoc]. right. exists acts. split; [by apply prefix_app_r|]. fold s.
      split; [done|]. split; [done|]. exists g. split; [by eapply elem_of_list_lookup_2|lia].
    + by apply swit_snoc.
  - destruct b; destruct (m <? _); cbn in *; try done. by left.
  - destruct (vals' !! j) as [[[] v]|]; try done. destruct pub'; done.
  - done.
Qed.
Lemma srefused sm r nc prog acts : let s := srun r (sst_new sm (sr_k r) nc prog) acts in
  s_log (sstep r s SP) = s_log s ++ [SRefused] ->
  exists vals pub rest, s_in_call s vals pub rest /\
    (rsize (sr_k r) < s_n vals \/ exists a1, a1 `prefix_of` acts /\ s_in_call (srun r (sst_new sm (sr_k r) nc prog) a1) vals pub rest /\
       s_no_room r (srun r (sst_new sm (sr_k r) nc prog) a1) (s_n vals)).
Proof.
  intros s H. pose proof (swhy_run sm r nc prog acts) as Hw. cbv zeta in Hw. fold s in Hw. cbn [sstep] in H. unfold sprod_step in H.
  assert (Hno : forall l : list sres, l = l ++ [SRefused] -> False).
  { intros l E. apply (f_equal length) in E. rewrite app_length in E. cbn in E. lia. }
  destruct (s_todo s) as [|[b vals pub|] todo] eqn:Et; [by apply Hno in H| |cbn in H; by apply app_inv_head in H].
  destruct (s_pc s) as [|j m|m|lo j|] eqn:Epc.
  - destruct (_ <? _); [cbn in H; by apply app_inv_head in H|]. destruct (s_must_scan _ _ _ _); cbn in H; [by apply Hno in H|by apply app_inv_head in H].
  - destruct (s_gating s !! j); by apply Hno in H.
  - destruct b; destruct (Z.ltb_spec m (s_next s + s_n vals - rsize (sr_k r))); cbn in H; try (by apply Hno in H); try (by apply app_inv_head in H).
    exists vals, pub, todo. split; [done|]. specialize (Hw _ _ _ eq_refl). destruct Hw as [->|(a1 & Hp & Hc & En & g & Hg & Hle)]; [left; lia|].
    right. exists a1. split; [done|]. split; [done|]. exists g. split; [done|]. rewrite En. fold s. lia.
  - destruct (vals !! j) as [[[] v]|]; cbn in H; try (by apply Hno in H).
    + rewrite app_nil_r in H. by apply Hno in H.
    + destruct pub; cbn in H; rewrite ?app_nil_r in H; by apply Hno in H.
  - cbn in H. by apply app_inv_head in H.
Qed.
