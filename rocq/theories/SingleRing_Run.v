From stdpp Require Import prelude list_numbers.
From Coq Require Import ZArith Lia ZifyBool.
From Verif Require Import Base MultiRing_Model MultiRing_Proofs SingleRing_Model SingleRing_Spec SingleRing_Proofs.
Local Open Scope Z_scope.

Lemma srun_snoc r s acts a : srun r s (acts ++ [a]) = sstep r (srun r s acts) a.
Proof. unfold srun. by rewrite fold_left_app. Qed.
Lemma srun_app r s a b : srun r s (a ++ b) = srun r (srun r s a) b.
Proof. apply fold_left_app. Qed.
Lemma sinv_new sm r nc prog : 0 <= sr_k r -> SInv r (sst_new sm (sr_k r) nc prog).
Proof.
  intros Hk. pose proof (rsize_pos (sr_k r) Hk). constructor; cbn.
  - lia.
  - intros g Hg. by apply elem_of_nil in Hg.
  - split; [|lia]. intros g Hg. by apply elem_of_nil in Hg.
  - unfold sprod_ok. cbn. by destruct prog as [|[] ?].
  - intros g Hg. by apply elem_of_nil in Hg.
  - intros i c Hi. apply elem_of_list_lookup_2, elem_of_list_In, repeat_spec in Hi as ->. done.
Qed.
Definition regs_ok (P : sst -> Z -> Prop) (r : sring) (s : sst) (acts : list sact) : Prop :=
  forall a1 i th a2 c v, acts = a1 ++ SC i th :: a2 -> s_cons (srun r s a1) !! i = Some c -> sc_pc c = SReg v -> P (srun r s a1) v.
Lemma regs_prefix P r s acts acts2 : regs_ok P r s (acts ++ acts2) -> regs_ok P r s acts.
Proof. intros H a1 i th a2 c v -> Hc Hpc. eapply (H a1 i th (a2 ++ acts2)); eauto. by rewrite <-app_assoc. Qed.
Lemma regs_last P r s acts i th c v : regs_ok P r s (acts ++ [SC i th]) -> s_cons (srun r s acts) !! i = Some c -> sc_pc c = SReg v -> P (srun r s acts) v.
Proof. intros H. by apply (H acts i th []). Qed.
(** First way of registering safely. *)
Lemma sinv_calm sm r nc prog acts : 0 <= sr_k r -> calm_registrations r (sst_new sm (sr_k r) nc prog) acts -> SInv r (srun r (sst_new sm (sr_k r) nc prog) acts).
Proof.
  intros Hk. pose proof (rsize_pos (sr_k r) Hk). set (s0 := sst_new sm (sr_k r) nc prog). change (calm_registrations r s0 acts) with (regs_ok (fun s v => s_next s = v) r s0 acts).
  induction acts as [|a acts IH] using rev_ind; intros Hr; [by apply sinv_new|].
  specialize (IH (regs_prefix _ _ _ _ _ Hr)). rewrite srun_snoc. destruct a as [|i th]; cbn [sstep]; [by apply sprod_inv|].
  apply scons_inv; [done|done|]. intros c v Hc Hpc. pose proof (regs_last _ _ _ _ _ _ _ _ Hr Hc Hpc) as <-.
  split; [apply (v_cache _ _ IH)|]. split; [lia|]. pose proof (v_prod _ _ IH) as HP. unfold sprod_ok in HP.
  destruct (s_todo _) as [|[] ?]; destruct (s_pc _); try done; apply HP.
Qed.
(** Second way. *)
Record AInv (r : sring) (s : sst) : Prop := {
  a_prog : publishes_each (s_todo s);
  a_cached : s_cached s <= s_cursor s;
  a_win : s_next s - rsize (sr_k r) <= s_cursor s;
  a_pc : match s_pc s with PIdle | PScan _ _ | PCheck _ => s_next s = s_cursor s | _ => True end
}.
Lemma ainv_prod r s : 0 <= sr_k r -> SInv r s -> AInv r s -> AInv r (sprod_step r s).
Proof.
  intros Hk I [A1 A2 A3 A4]. pose proof (rsize_pos (sr_k r) Hk) as HN. pose proof (v_cur _ _ I) as Hcur. pose proof (v_cache _ _ I) as [_ Hca2]. pose proof (v_prod _ _ I) as HP.
  unfold sprod_step. unfold sprod_ok in HP. destruct (s_todo s) as [|[b vals pub|] todo] eqn:Ht; [by constructor; rewrite ?Ht| |].
  2:{ apply Forall_cons in A1 as [_ A1]. constructor; cbn; try done; lia. }
  pose proof A1 as A1'. apply Forall_cons in A1' as [[Hp Hs] A5].
  destruct (s_pc s) as [|i m|m|lo i|].
  - destruct (Z.ltb_spec (s_n vals) 1) as [|Hn]; [by constructor|]. unfold s_must_scan.
    destruct (Z.ltb_spec (s_cached s) (s_next s + s_n vals - rsize (sr_k r))) as [|Hge]; cbn.
    + constructor; cbn; rewrite ?Ht; try done; lia.
    + destruct (Z.ltb_spec (s_next s) (s_cached s)); [lia|]. constructor; cbn; rewrite ?Ht; try done; lia.
  - destruct HP as (H1 & H2 & H3). destruct (s_gating s !! i) as [g|]; constructor; cbn; rewrite ?Ht; done.
  - destruct HP as (H1 & H2 & H3). destruct b; destruct (Z.ltb_spec m (s_next s + s_n vals - rsize (sr_k r))); constructor; cbn; rewrite ?Ht; try done; lia.
  - destruct HP as (H1 & H2 & H3 & H4). destruct (vals !! i) as [[[] v]|] eqn:Ev.
    + constructor; cbn; rewrite ?Ht; try done.
    + constructor; cbn; rewrite ?Ht; try done.
    + exfalso. apply elem_of_list_lookup_2 in Ev. rewrite Forall_forall in Hs. by apply (Hs _ Ev).
    + subst pub. constructor; cbn; rewrite ?Ht; done.
  - constructor; cbn; try done; lia.
Qed.
Lemma scons_frame r s i th : s_cursor (scons_step r s i th) = s_cursor s /\ s_next (scons_step r s i th) = s_next s /\ s_cached (scons_step r s i th) = s_cached s /\
  s_slots (scons_step r s i th) = s_slots s /\ s_heap (scons_step r s i th) = s_heap s /\ s_nobj (scons_step r s i th) = s_nobj s /\
  s_pc (scons_step r s i th) = s_pc s /\ s_todo (scons_step r s i th) = s_todo s /\ s_log (scons_step r s i th) = s_log s /\ s_vals (scons_step r s i th) = s_vals s.
Proof.
  unfold scons_step. destruct (s_cons s !! i) as [c|]; [|done]. destruct (sc_pc c); cbn; try done.
  - by destruct (_ <? _).
  - destruct (_ <? _); [done|]. by destruct (_ && _).
Qed.
Lemma sinv_atomic sm r nc prog acts : 0 <= sr_k r -> publishes_each prog -> atomic_registrations r (sst_new sm (sr_k r) nc prog) acts ->
  SInv r (srun r (sst_new sm (sr_k r) nc prog) acts).
Proof.
  intros Hk Hprog. pose proof (rsize_pos (sr_k r) Hk). set (s0 := sst_new sm (sr_k r) nc prog). change (atomic_registrations r s0 acts) with (regs_ok (fun s v => s_cursor s = v) r s0 acts).
  intros Hr. enough (H' : SInv r (srun r s0 acts) /\ AInv r (srun r s0 acts)) by apply H'. revert Hr.
  induction acts as [|a acts IH] using rev_ind; intros Hr; [split; [by apply sinv_new|]; constructor; cbn; try done; lia|].
  specialize (IH (regs_prefix _ _ _ _ _ Hr)) as [I A]. rewrite srun_snoc. destruct a as [|i th]; cbn [sstep].
  - split; [by apply sprod_inv|by apply ainv_prod].
  - split.
    + apply scons_inv; [done|done|]. intros c v Hc Hpc. pose proof (regs_last _ _ _ _ _ _ _ _ Hr Hc Hpc) as <-. destruct A as [A1 A2 A3 A4].
      split; [done|]. split; [done|]. pose proof (v_prod _ _ I) as HP. unfold sprod_ok in HP.
      destruct (s_todo _) as [|[] ?]; destruct (s_pc _); try done; destruct HP as (_ & HP & _); lia.
    + destruct (scons_frame r (srun r s0 acts) i th) as (E1 & E2 & E3 & E4 & E5 & E6 & E7 & E8 & E9 & E10). destruct A. constructor; rewrite ?E1, ?E2, ?E3, ?E7, ?E8; done.
Qed.

(** ** The log. *)
Arguments s_contents : simpl never.
Arguments s_granted : simpl never.
Arguments outcomes : simpl never.
Definition pending (s : sst) : list (bool * list (wkind * Z)) := match s_pc s with PWrite _ _ | PPub => claims (tail (s_todo s)) | _ => claims (s_todo s) end.
Arguments pending : simpl never.
Record SL (prog : list sop) (s : sst) : Prop := {
  sl_next : -1 <= s_next s;
  sl_pc : match s_todo s with [] | SPublish :: _ => s_pc s = PIdle | _ => True end;
  sl_n : match s_todo s with SClaim _ vals _ :: _ => s_pc s = PIdle \/ 1 <= s_n vals | _ => True end;
  sl_cont : s_contiguous 0 (s_granted (s_log s)) = Some (s_next s + 1);
  sl_past : exists past, claims prog = past ++ pending s /\ Forall2 smatches past (outcomes (s_log s));
  sl_vals : Z.of_nat (length (s_contents (s_log s))) = s_next s + 1 /\ (forall j, 0 <= j <= s_next s -> s_contents (s_log s) !! Z.to_nat j = Some (s_vals s j))
}.
Lemma s_contiguous_snoc n l lo vals : s_contiguous n (l ++ [(lo, vals)]) =
  match s_contiguous n l with Some m => if (lo =? m) && negb (bool_decide (vals = [])) then Some (lo + Z.of_nat (length vals)) else None | None => None end.
Proof. revert n; induction l as [|[lo' vals'] l IH]; intros n; cbn; [done|]. destruct (_ && _); [apply IH|done]. Qed.
Lemma s_granted_app l x : s_granted (l ++ x) = s_granted l ++ s_granted x.
Proof. apply omap_app. Qed.
Lemma s_contents_app l x : s_contents (l ++ x) = s_contents l ++ s_contents x.
Proof. unfold s_contents. by rewrite s_granted_app, fmap_app, concat_app. Qed.
Lemma outcomes_app l x : outcomes (l ++ x) = outcomes l ++ outcomes x.
Proof. apply omap_app. Qed.
Lemma sl_claim prog s cached b vals pub todo : SL prog s -> s_todo s = SClaim b vals pub :: todo -> (match s_pc s with PWrite _ _ | PPub => False | _ => True end) -> 1 <= s_n vals ->
  SL prog (s_claim s cached vals).
Proof.
  intros [S1 S2 S2' S3 S4 S5] Ht Hpc Hn. constructor; cbn.
  - lia.
  - by rewrite Ht.
  - rewrite Ht. by right.
  - rewrite s_granted_app. change (s_granted [SClaimed (s_next s + 1) vals]) with [(s_next s + 1, vals)]. rewrite s_contiguous_snoc, S3, Z.eqb_refl. cbn [andb]. rewrite bool_decide_false; [cbn; f_equal; unfold s_n; lia|].
    intros ->. cbn in Hn. unfold s_n in Hn. cbn in Hn. lia.
  - destruct S4 as (past & E & F). exists (past ++ [(b, vals)]). split.
    + unfold pending in *. cbn. rewrite Ht in *. cbn [tail]. rewrite E, <-app_assoc. f_equal. by destruct (s_pc s).
    + rewrite outcomes_app. apply Forall2_app; [done|]. constructor; [done|constructor].
  - destruct S5 as [V1 V2]. rewrite s_contents_app. assert (Ec : s_contents [SClaimed (s_next s + 1) vals] = vals.*2) by (unfold s_contents, s_granted; cbn; by rewrite app_nil_r). rewrite Ec.
    split; [rewrite app_length, fmap_length; unfold s_n; lia|]. intros j Hj.
    destruct (Z.leb_spec (s_next s + 1) j); [destruct (Z.leb_spec j (s_next s + s_n vals)); [|lia]|]; cbn [andb].
    + rewrite lookup_app_r by lia. replace (Z.to_nat j - length (s_contents (s_log s)))%nat with (Z.to_nat (j - (s_next s + 1))) by lia.
      rewrite list_lookup_fmap. destruct (lookup_lt_is_Some_2 vals (Z.to_nat (j - (s_next s + 1)))) as [v Ev]; [unfold s_n in *; lia|]. rewrite Ev. cbn. f_equal. f_equal. symmetry. by apply nth_lookup_Some.
    + rewrite lookup_app_l by lia. apply V2. lia.
Qed.
Lemma sl_step r prog s a : SL prog s -> SL prog (sstep r s a).
Proof.
  intros H. destruct a as [|i th]; cbn [sstep].
  2:{ destruct (scons_frame r s i th) as (E1 & E2 & E3 & E4 & E5 & E6 & E7 & E8 & E9 & E10). destruct H. constructor; unfold pending; rewrite ?E1, ?E2, ?E3, ?E7, ?E8, ?E9, ?E10; done. }
  pose proof H as [S1 S2 S2' S3 S4 S5]. unfold sprod_step. destruct (s_todo s) as [|[b vals pub|] todo] eqn:Ht; [done| |].
  2:{ constructor; cbn; rewrite ?s_granted_app, ?s_contents_app, ?outcomes_app; unfold s_contents, outcomes, s_granted; cbn; rewrite ?app_nil_r; try done.
      - by destruct todo as [|[] ?].
      - destruct todo as [|[] ?]; auto.
      - unfold pending in *. cbn. rewrite S2, Ht in S4. done. }
  assert (Hgoto : forall pc, (match pc with PPub => (match s_pc s with PWrite _ _ => True | _ => False end) | PWrite _ _ => False | _ => (match s_pc s with PWrite _ _ | PPub => False | _ => True end) end) -> (pc = PIdle \/ 1 <= s_n vals) -> SL prog (s_goto s pc)).
  { intros pc Hpc Hn. constructor; cbn; rewrite ?Ht; try done. destruct S4 as (past & E & F). exists past. split; [|done]. rewrite E. f_equal.
    unfold pending. cbn. rewrite Ht. destruct pc, (s_pc s); done. }
  assert (Hdone : forall cached l, claims (SClaim b vals pub :: todo) = claims (SClaim b vals pub :: todo) -> 
     ((s_granted l = [] /\ (exists res, outcomes l = [res] /\ smatches (b, vals) res) /\ match s_pc s with PWrite _ _ | PPub => False | _ => True end) \/ (outcomes l = [] /\ s_granted l = [] /\ match s_pc s with PWrite _ _ | PPub => True | _ => False end)) ->
     SL prog (s_done s cached todo l)).
  { intros cached l _ Hl. assert (Hgl : s_granted l = []) by (destruct Hl as [(?&_)|(_&?&_)]; done).
    assert (Hcl : s_contents l = []) by (unfold s_contents; by rewrite Hgl).
    constructor; cbn; rewrite ?s_granted_app, ?s_contents_app, ?Hgl, ?Hcl, ?app_nil_r; try done.
    - by destruct todo as [|[] ?].
    - destruct todo as [|[] ?]; auto.
    - destruct S4 as (past & E & F). rewrite outcomes_app. destruct Hl as [(_ & (res & Eo & Hm) & Hpc)|(Eo & _ & Hpc)]; rewrite Eo.
      + exists (past ++ [(b, vals)]). split; [|apply Forall2_app; [done|by constructor]]. rewrite E, <-app_assoc. f_equal. unfold pending. cbn. rewrite Ht. by destruct (s_pc s).
      + exists past. rewrite app_nil_r. split; [|done]. rewrite E. f_equal. unfold pending. cbn. rewrite Ht. by destruct (s_pc s). }
  destruct (s_pc s) as [|i m|m|lo i|] eqn:Epc.
  - destruct (Z.ltb_spec (s_n vals) 1) as [Hz|Hn].
    + apply Hdone; [done|]. left. split; [done|]. split; [|done]. exists SBadArg. split; [done|]. cbn. unfold s_n in Hz. destruct vals; [done|cbn in Hz; lia].
    + destruct (s_must_scan _ _ _ _); [apply Hgoto; auto|]. eapply sl_claim; eauto. by rewrite Epc.
  - destruct S2' as [|Hn]; [done|]. destruct (s_gating s !! i); apply Hgoto; auto.
  - destruct S2' as [|Hn]; [done|]. destruct b; destruct (m <? _).
    + apply Hgoto; auto.
    + eapply sl_claim; eauto. by rewrite Epc.
    + apply Hdone; [done|]. left. split; [done|]. split; [|done]. exists SRefused. done.
    + eapply sl_claim; eauto. by rewrite Epc.
  - destruct S2' as [|Hn]; [done|].
    assert (Hw : forall sl hp nb, SL prog (Sst (s_cursor s) (s_next s) (s_cached s) sl hp nb (PWrite lo (S i)) (SClaim b vals pub :: todo) (s_gating s) (s_cons s) (s_log s) (s_vals s))).
    { intros. constructor; cbn; try done; [by right|]. destruct S4 as (past & E & F). exists past. split; [|done]. rewrite E. f_equal. unfold pending. cbn. by rewrite Epc, Ht. }
    destruct (vals !! i) as [[[] v]|]; [apply Hw|apply Hw| |].
    + apply Hdone; [done|]. right. done.
    + destruct pub; [apply Hgoto; auto|]. apply Hdone; [done|]. right. done.
  - constructor; cbn; rewrite ?s_granted_app, ?s_contents_app, ?outcomes_app; unfold s_contents, outcomes, s_granted; cbn; rewrite ?app_nil_r; try done.
    + by destruct todo as [|[] ?].
    + destruct todo as [|[] ?]; auto.
    + destruct S4 as (past & E & F). exists past. split; [|done]. rewrite E. f_equal. unfold pending. cbn. by rewrite Epc, Ht.
Qed.
Lemma sl_run sm r nc prog acts : SL prog (srun r (sst_new sm (sr_k r) nc prog) acts).
Proof.
  induction acts as [|a acts IH] using rev_ind; [|rewrite srun_snoc; by apply sl_step].
  constructor; cbn; try done.
  - by destruct prog as [|[] ?].
  - destruct prog as [|[] ?]; auto.
  - exists []. split; [done|constructor].
  - split; [done|]. lia.
Qed.
