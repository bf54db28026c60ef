(** * C58, C191: publications of the data multiplexer that fail (the process function throws, data_multiplexer_publisher.h 135-150: the exception leaves between try_next and publish).
    Every schedule, any number of consumers registering at any time, any handler exceptions. *)
From stdpp Require Import prelude list_numbers.
From Coq Require Import ZArith Lia ZifyBool.
From Verif Require Import Base MultiRing_Model MultiRing_Proofs SingleRing_Model SingleRing_Spec SingleRing_Proofs SingleRing_Run SingleRing_Content SingleRing_Props.
Local Open Scope Z_scope.
(** The calls of a data multiplexer's publisher: each tries to claim one slot, fills it and publishes it ([WSkip]: the process function throws). *)
Definition mux_calls (prog : list sop) : Prop := Forall (fun op => exists w v, op = SClaim false [(w, v)] true) prog.

(** What was made visible, for every program. *)
Definition cons_fine (l : list sres) (c : scons) : Prop :=
  -1 <= sc_seq c /\
  match sc_pc c with SNew | SWait => True | SReg v | SSet v => -1 <= v | SHandle nx avail => 0 <= nx /\ -1 <= avail /\ SPublished avail ∈ l end /\
  Forall (fun d => e_end d = true -> SPublished (e_seq d) ∈ l) (sc_log c).
Record FInv (s : sst) : Prop := {
  f_cur : s_cursor s = -1 \/ SPublished (s_cursor s) ∈ s_log s;
  f_low : -1 <= s_cursor s;
  f_next : -1 <= s_next s;
  f_cons : Forall (cons_fine (s_log s)) (s_cons s)
}.
Lemma cons_fine_mono l l' c : cons_fine l c -> cons_fine (l ++ l') c.
Proof.
  intros (H1 & H2 & H3). repeat split; [done| |].
  - destruct (sc_pc c); try done. destruct H2 as (? & ? & ?). split; [done|]. split; [done|]. apply elem_of_app. by left.
  - eapply Forall_impl; [exact H3|]. cbn. intros d Hd He. apply elem_of_app. left. by apply Hd.
Qed.
Lemma f_step r s a : FInv s -> FInv (sstep r s a).
Proof.
  intros [F1 F2 F3 F4]. destruct a as [|i th]; cbn [sstep].
  - assert (M : forall l', Forall (cons_fine (s_log s ++ l')) (s_cons s)) by (intros l'; eapply Forall_impl; [exact F4|]; intros c; apply cons_fine_mono).
    assert (C : forall l', s_cursor s = -1 \/ SPublished (s_cursor s) ∈ s_log s ++ l') by (intros l'; destruct F1; [by left|right; apply elem_of_app; by left]).
    assert (Hcl : forall cached vals, FInv (s_claim s cached vals)) by (intros cached vals; constructor; cbn; auto; unfold s_n; lia).
    assert (Hpu : forall todo, FInv (Sst (s_next s) (s_next s) (s_cached s) (s_slots s) (s_heap s) (s_nobj s) PIdle todo (s_gating s) (s_cons s) (s_log s ++ [SPublished (s_next s)]) (s_vals s))).
    { intros todo. constructor; cbn; auto. right. apply elem_of_app. right. by left. }
    unfold sprod_step. destruct (s_todo s) as [|[b vals pub|] todo]; [by constructor| |apply Hpu].
    destruct (s_pc s) as [|k m|m|lo k|].
    + destruct (_ <? 1); [constructor; cbn; auto|]. destruct (s_must_scan _ _ _ _); [constructor; cbn; auto|apply Hcl].
    + destruct (s_gating s !! k); constructor; cbn; auto.
    + destruct b; destruct (_ <? _); try apply Hcl; constructor; cbn; auto.
    + destruct (vals !! k) as [[[] v]|]; try (destruct pub); constructor; cbn; auto.
    + apply Hpu.
  - unfold scons_step. destruct (s_cons s !! i) as [c|] eqn:E; [|by constructor].
    assert (Hc : cons_fine (s_log s) c) by (eapply Forall_lookup_1; eauto). destruct Hc as (H1 & H2 & H3).
    destruct (sc_pc c) as [|v| |nx avail|v].
    + constructor; cbn; auto. apply Forall_insert; [done|]. (split; [|split]); cbn; auto; try lia.
    + constructor; cbn; auto. apply Forall_insert; [done|]. (split; [|split]); cbn; auto; try lia.
    + destruct (_ <? _) eqn:El; [by constructor|]. constructor; cbn; auto. apply Forall_insert; [done|]. (split; [|split]); cbn; auto; split; [lia|]. split; [done|].
      destruct F1; [lia|done].
    + destruct H2 as (H2 & H2a & H2'). destruct (_ <? _) eqn:El.
      * constructor; cbn; auto. apply Forall_insert; [done|]. (split; [|split]); cbn; auto; try lia.
      * assert (HL : forall o w t, Forall (fun d => e_end d = true -> SPublished (e_seq d) ∈ s_log s) (sc_log c ++ [SDel nx o w (nx =? avail) t])).
        { intros o w t. apply Forall_app. split; [done|]. constructor; [|constructor]. cbn. intros He. apply Z.eqb_eq in He as ->. done. }
        destruct (_ && _); constructor; cbn; auto; apply Forall_insert; try done; (split; [|split]); cbn; auto; try lia; (split; [lia|]; split; [lia|done]).
    + constructor; cbn; auto. apply Forall_insert; [done|]. (split; [|split]); cbn; auto.
Qed.
Lemma f_run sm r nc prog acts : FInv (srun r (sst_new sm (sr_k r) nc prog) acts).
Proof.
  induction acts as [|a acts IH] using rev_ind.
  - constructor; cbn; auto; try lia. apply Forall_forall. intros c Hc. apply elem_of_list_In, repeat_spec in Hc as ->. (split; [|split]); cbn; auto; try lia.
  - rewrite srun_snoc. by apply f_step.
Qed.

(** What was published, for the calls of a data multiplexer. *)
Definition granted_once (s : sst) : Prop :=
  Forall (fun p => p.1 <= s_next s) (s_granted (s_log s)) /\
  forall lo v1 v2, (lo, v1) ∈ s_granted (s_log s) -> (lo, v2) ∈ s_granted (s_log s) -> v1 = v2.
Definition filled (l : list sres) (hi : Z) : Prop := exists w v, w <> WSkip /\ (hi, [(w, v)]) ∈ s_granted l.
Record PInv (s : sst) : Prop := {
  p_todo : mux_calls (s_todo s);
  p_once : granted_once s;
  p_val : forall lo x, (lo, [x]) ∈ s_granted (s_log s) -> s_vals s lo = x.2;
  p_pub : forall hi, SPublished hi ∈ s_log s -> filled (s_log s) hi;
  p_pc : match s_pc s with
         | PWrite lo i => exists w v todo, s_todo s = SClaim false [(w, v)] true :: todo /\ s_next s = lo /\ (lo, [(w, v)]) ∈ s_granted (s_log s) /\ ((i = 0)%nat \/ (i = 1)%nat /\ w <> WSkip)
         | PPub => filled (s_log s) (s_next s)
         | _ => True
         end
}.
Lemma filled_mono l l' hi : filled l hi -> filled (l ++ l') hi.
Proof. intros (w & v & H1 & H2). exists w, v. split; [done|]. rewrite s_granted_app. apply elem_of_app. by left. Qed.
Lemma p_step r s a : PInv s -> PInv (sstep r s a).
Proof.
  intros [P1 [P2 P2'] PV P3 P4]. destruct a as [|i th]; cbn [sstep].
  2:{ destruct (scons_frame r s i th) as (_ & E1 & _ & _ & _ & _ & E2 & E3 & E4 & E5). constructor; unfold granted_once; rewrite ?E1, ?E2, ?E3, ?E4, ?E5; auto. }
  unfold sprod_step. destruct (s_todo s) as [|op todo] eqn:Et; [constructor; rewrite ?Et; try done; by rewrite Et in P4|].
  pose proof P1 as P1'. apply Forall_cons in P1' as [(w & v & ->) P1'].
  assert (N : forall res, (forall hi, res <> SPublished hi) -> (forall lo vs, res <> SClaimed lo vs) -> s_granted (s_log s ++ [res]) = s_granted (s_log s) /\ forall hi, SPublished hi ∈ s_log s ++ [res] -> filled (s_log s ++ [res]) hi).
  { intros res H1 H2. split.
    - rewrite s_granted_app. destruct res; try (by rewrite app_nil_r). by destruct (H2 lo vals).
    - intros hi Hin. apply elem_of_app in Hin as [Hin|Hin]; [apply filled_mono; auto|]. apply elem_of_list_singleton in Hin. by destruct (H1 hi). }
  assert (Hcl : forall cached, PInv (s_claim s cached [(w, v)])).
  { intros cached. assert (G : s_granted (s_log s ++ [SClaimed (s_next s + 1) [(w, v)]]) = s_granted (s_log s) ++ [(s_next s + 1, [(w, v)])]) by (by rewrite s_granted_app).
    constructor; cbn; rewrite ?Et; auto.
    - split; cbn; rewrite G.
      + apply Forall_app. split; [eapply Forall_impl; [exact P2|]; cbn; unfold s_n; cbn; intros; lia|]. constructor; [cbn; unfold s_n; cbn; lia|constructor].
      + intros lo v1 v2 H1 H2. apply elem_of_app in H1, H2. rewrite Forall_forall in P2.
        destruct H1 as [H1|H1], H2 as [H2|H2]; [by apply (P2' lo)| | |].
        * apply P2 in H1. cbn in H1. apply elem_of_list_singleton in H2. injection H2 as -> ->. lia.
        * apply P2 in H2. cbn in H2. apply elem_of_list_singleton in H1. injection H1 as -> ->. lia.
        * apply elem_of_list_singleton in H1, H2. congruence.
    - rewrite G. intros lo x Hin. apply elem_of_app in Hin as [Hin|Hin].
      + rewrite Forall_forall in P2. pose proof (P2 _ Hin) as Hle. cbn in Hle. destruct (Z.leb_spec (s_next s + 1) lo); [lia|]. cbn. by apply PV.
      + apply elem_of_list_singleton in Hin. injection Hin as -> ->. unfold s_n. cbn [length]. rewrite (proj2 (Z.leb_le (s_next s + 1) (s_next s + 1))), (proj2 (Z.leb_le (s_next s + 1) (s_next s + Z.of_nat 1))) by lia. cbn [andb]. by rewrite Z.sub_diag.
    - intros hi Hin. apply elem_of_app in Hin as [Hin|Hin]; [apply filled_mono; auto|]. apply elem_of_list_singleton in Hin. done.
    - exists w, v, todo. rewrite G. split; [done|]. split; [by unfold s_n; cbn|]. split; [apply elem_of_app; right; by left|by left]. }
  destruct (s_pc s) as [|k m|m|lo k|] eqn:Epc.
  - destruct (_ <? 1).
    + destruct (N SBadArg) as [N1 N2]; [done..|]. constructor; cbn; auto. all: rewrite ?N1; auto. split; cbn; rewrite N1; auto.
    + destruct (s_must_scan _ _ _ _); [constructor; cbn; rewrite ?Et; auto; (split; cbn; rewrite ?app_nil_r; auto)|apply Hcl].
  - destruct (s_gating s !! k); constructor; cbn; rewrite ?Et; auto; (split; cbn; rewrite ?app_nil_r; auto).
  - destruct (_ <? _); [|apply Hcl]. destruct (N SRefused) as [N1 N2]; [done..|]. constructor; cbn; auto. all: rewrite ?N1; auto. split; cbn; rewrite N1; auto.
  - destruct P4 as (w' & v' & todo' & E & Hn & Hg & Hk). injection E as <- <- <-. destruct Hk as [->|[-> Hw]]; cbn [lookup list_lookup].
    + destruct w; try (constructor; cbn; rewrite ?Et; auto; [(split; cbn; rewrite ?app_nil_r; auto)|]; exists WFresh, v, todo; auto 10; fail); try (constructor; cbn; rewrite ?Et; auto; [(split; cbn; rewrite ?app_nil_r; auto)|]; exists WInPlace, v, todo; auto 10; fail).
      constructor; cbn; rewrite ?app_nil_r; auto. (split; cbn; rewrite ?app_nil_r; auto).
    + constructor; cbn; rewrite ?Et; auto; [(split; cbn; rewrite ?app_nil_r; auto)|]. exists w, v. by rewrite Hn.
  - assert (Gn : s_granted (s_log s ++ [SPublished (s_next s)]) = s_granted (s_log s)) by (rewrite s_granted_app; by rewrite app_nil_r).
    constructor; cbn; rewrite ?Gn; auto; [split; cbn; rewrite Gn; auto|]. intros hi Hin. apply elem_of_app in Hin as [Hin|Hin]; [apply filled_mono; auto|]. apply elem_of_list_singleton in Hin as [= ->]. by apply filled_mono.
Qed.
Lemma p_run sm r nc prog acts : mux_calls prog -> PInv (srun r (sst_new sm (sr_k r) nc prog) acts).
Proof.
  intros Hm. induction acts as [|a acts IH] using rev_ind.
  - assert (E : s_granted [] = []) by done.
    constructor; unfold granted_once; cbn; rewrite ?E; auto; [split; [constructor|]|..]; intros; exfalso; by match goal with H : _ ∈ [] |- _ => apply elem_of_nil in H end.
  - rewrite srun_snoc. by apply p_step.
Qed.

(** ** C58: no listener is ever given an event for a publication that failed. Every event given to the callbacks is that of a publication whose process function returned. *)
Theorem C58_failed_never_delivered sm r nc prog acts i c d :
  mux_calls prog -> let s := srun r (sst_new sm (sr_k r) nc prog) acts in
  s_cons s !! i = Some c -> d ∈ mux_delivered c ->
  (exists w v, w <> WSkip /\ (e_seq d, [(w, v)]) ∈ s_granted (s_log s)) /\ (forall v, (e_seq d, [(WSkip, v)]) ∉ s_granted (s_log s)).
Proof.
  intros Hm s Hi Hd. pose proof (f_run sm r nc prog acts) as F. pose proof (p_run sm r nc prog acts Hm) as P. fold s in F, P.
  pose proof (Forall_lookup_1 _ _ _ _ (f_cons _ F) Hi) as (_ & _ & HL). unfold mux_delivered in Hd. apply elem_of_list_filter in Hd as [He Hd].
  rewrite Forall_forall in HL. destruct (p_pub _ P _ (HL _ Hd He)) as (w & v & Hw & Hin). split; [by exists w, v|].
  intros v' Hin'. destruct (p_once _ P) as [_ U]. pose proof (U _ _ _ Hin Hin') as E. injection E as -> _. done.
Qed.

(** *** The events given to the listeners have the content of their own publication, also between failed ones. *)
(** If the slots were built from one model event, every successful publication makes a new object. *)
Definition own_objects (shared_model : bool) (prog : list sop) : Prop :=
  Forall (fun op => match op with SClaim _ vals _ => Forall (fun x => shared_model = true -> x.1 <> WInPlace) vals | SPublish => True end) prog.
Definition skipped (s : sst) (j : Z) : Prop := exists v, (j, [(WSkip, v)]) ∈ s_granted (s_log s).
Record KInv (sm : bool) (r : sring) (s : sst) : Prop := {
  z_own : own_objects sm (s_todo s);
  z_pw : match s_todo s, s_pc s with SClaim _ vals _ :: _, PWrite lo i => forall j x, vals !! j = Some x -> s_vals s (lo + Z.of_nat j) = x.2 | _, _ => True end;
  z_obj : forall a, 0 <= a < rsize (sr_k r) -> s_slots s a < s_nobj s;
  z_inj : sm = false -> forall a b, 0 <= a < rsize (sr_k r) -> 0 <= b < rsize (sr_k r) -> s_slots s a = s_slots s b -> a = b;
  z_cont : forall j, 0 <= j -> ~ skipped s j -> s_next s - rsize (sr_k r) < j < written s -> s_heap s (s_slots s (ring_index (sr_k r) j)) = s_vals s j;
  z_log : forall i c, s_cons s !! i = Some c -> Forall (fun d => ~ skipped s (e_seq d) -> e_val d = s_vals s (e_seq d)) (sc_log c)
}.
Lemma kinv_claim sm r s cached b vals pub todo : SInv r s -> KInv sm r s -> s_todo s = SClaim b vals pub :: todo -> (match s_pc s with PWrite _ _ | PPub => False | _ => True end) -> 1 <= s_n vals ->
  KInv sm r (s_claim s cached vals).
Proof.
  intros I [K1 K2 K3 K4 K5 K6] Ht Hpc Hn. pose proof (v_cur _ _ I).
  assert (Ev : forall j, j <= s_next s -> (if (s_next s + 1 <=? j) && (j <=? s_next s + s_n vals) then (nth (Z.to_nat (j - (s_next s + 1))) vals (WSkip, 0)).2 else s_vals s j) = s_vals s j).
  { intros j Hj. destruct (Z.leb_spec (s_next s + 1) j); [lia|done]. }
  assert (Sk : forall j, skipped s j -> skipped (s_claim s cached vals) j).
  { intros j [v Hv]. exists v. cbn. rewrite s_granted_app. apply elem_of_app. by left. }
  constructor; cbn [s_claim s_todo s_pc s_slots s_nobj s_heap s_vals s_next s_cons]; rewrite ?Ht; try done.
  - by rewrite Ht in K1.
  - intros j x Hj. assert (Hlt : (j < length vals)%nat) by (by eapply lookup_lt_Some).
    destruct (Z.leb_spec (s_next s + 1) (s_next s + 1 + Z.of_nat j)); [|lia]. destruct (Z.leb_spec (s_next s + 1 + Z.of_nat j) (s_next s + s_n vals)); [|unfold s_n in *; lia]. cbn [andb].
    replace (Z.to_nat (s_next s + 1 + Z.of_nat j - (s_next s + 1))) with j by lia. f_equal. by apply nth_lookup_Some.
  - intros j Hj Hsk Hw. unfold written in Hw. cbn in Hw. rewrite Ev by lia. apply K5; [done|by intros ?; apply Hsk, Sk|]. unfold written. destruct (s_pc s); try done; lia.
  - intros i c Hi. specialize (K6 i c Hi). rewrite Forall_forall in *. intros d Hd Hsk. rewrite Ev; [apply K6; [done|by intros ?; apply Hsk, Sk]|]. pose proof (log_le r s i c d I Hi Hd). lia.
Qed.
Lemma kinv_prod sm r s : 0 <= sr_k r -> SInv r s -> PInv s -> KInv sm r s -> KInv sm r (sprod_step r s).
Proof.
  intros Hk I P C. pose proof C as [K1 K2 K3 K4 K5 K6]. pose proof (v_cur _ _ I) as Hcur. pose proof (v_prod _ _ I) as HP. unfold sprod_ok in HP.
  pose proof (p_pc _ P) as Ppc. pose proof (p_todo _ P) as Pt.
  unfold sprod_step. destruct (s_todo s) as [|op todo] eqn:Ht; [done|].
  apply Forall_cons in Pt as [(w & v & ->) Pt].
  pose proof K1 as K1'. apply Forall_cons in K1' as [Hcl K1t].
  assert (Sk : forall l, s_granted l = [] -> forall j, skipped s j <-> exists v, (j, [(WSkip, v)]) ∈ s_granted (s_log s ++ l)).
  { intros l Hl j. rewrite s_granted_app, Hl, app_nil_r. done. }
  assert (Hdone : forall cached x, s_granted x = [] -> (forall j, 0 <= j -> ~ skipped s j -> s_next s - rsize (sr_k r) < j < s_next s + 1 -> j < written s) -> KInv sm r (s_done s cached todo x)).
  { intros cached x Hx Hwr. constructor; cbn [s_done s_todo s_pc s_slots s_nobj s_heap s_vals s_next s_cons]; try done.
    - by destruct todo as [|[] ?].
    - intros j H1 H2 H3. rewrite <- (Sk x Hx j : _ <-> skipped (s_done s cached todo x) j) in H2. unfold written in H3; cbn in H3. apply K5; [done|done|]. split; [lia|]. apply Hwr; [done..|lia].
    - intros i c Hi. specialize (K6 i c Hi). rewrite Forall_forall in *. intros d Hd Hn. apply K6; [done|]. by rewrite (Sk x Hx (e_seq d)). }
  assert (Hgoto : forall pc, written s = s_next s + 1 -> (match pc with PWrite _ _ => False | _ => True end) -> KInv sm r (s_goto s pc)).
  { intros pc Hwr Hpc. constructor; cbn [s_goto s_todo s_pc s_slots s_nobj s_heap s_vals s_next s_cons]; rewrite ?Ht; try done.
    - by destruct pc.
    - intros j H1 H2 H3. apply K5; [done|done|]. rewrite Hwr. unfold written in H3; cbn in H3. destruct pc; try done; lia. }
  destruct (s_pc s) as [|i m|m|lo i|] eqn:Epc.
  - assert (Hwr : written s = s_next s + 1) by (unfold written; by rewrite Epc).
    destruct (Z.ltb_spec (s_n [(w, v)]) 1); [apply Hdone; [done|intros; lia]|]. destruct (s_must_scan _ _ _ _); [by apply Hgoto|]. eapply kinv_claim; eauto. by rewrite Epc.
  - assert (Hwr : written s = s_next s + 1) by (unfold written; by rewrite Epc). destruct (s_gating s !! i); by apply Hgoto.
  - assert (Hwr : written s = s_next s + 1) by (unfold written; by rewrite Epc). destruct HP as (Hn & _). destruct (m <? _).
    + apply Hdone; [done|intros; lia].
    + eapply kinv_claim; eauto. by rewrite Epc.
  - destruct HP as (H1 & H2 & H3 & H4). destruct Ppc as (w' & v' & todo' & E & Hnx & Hg & Hi). injection E as <- <- <-.
    assert (Hwr : written s = lo + Z.of_nat i) by (unfold written; by rewrite Epc).
    destruct Hi as [->|[-> Hw]].
    2:{ cbn [lookup list_lookup]. apply Hgoto; [lia|done]. }
    cbn [lookup list_lookup]. replace (lo + Z.of_nat 0) with lo in * by lia.
    assert (Hv : s_vals s lo = v) by (specialize (K2 0%nat (w, v) eq_refl); by rewrite Z.add_0_r in K2).
    assert (Hidx : forall j, 0 <= j -> s_next s - rsize (sr_k r) < j < lo -> ring_index (sr_k r) j <> ring_index (sr_k r) lo).
    { intros j Hj0 Hj E. rewrite !ring_index_mod in E by done. apply mod_window in E; [lia|by apply rsize_pos|]. unfold s_n in *. lia. }
    pose proof (ring_index_range (sr_k r) lo Hk) as Hri.
    apply Forall_cons in Hcl as [Hfr _]. cbn in Hfr.
    destruct w.
    + constructor; cbn; try done.
      * intros a Ha. unfold fupd. destruct (a =? _); [lia|]. specialize (K3 a Ha). lia.
      * intros Hsm a b' Ha Hb. unfold fupd. pose proof (K3 a Ha). pose proof (K3 b' Hb). destruct (Z.eqb_spec a (ring_index (sr_k r) lo)); destruct (Z.eqb_spec b' (ring_index (sr_k r) lo)); intros E; try lia. by apply K4.
      * intros j Hj0 Hsk Hj. unfold written in Hj. cbn in Hj. destruct (decide (j = lo)) as [->|Hne].
        -- rewrite (fupd_eq (s_slots s)) by done. rewrite fupd_eq by done. by rewrite Hv.
        -- rewrite (fupd_ne (s_slots s)) by (apply Hidx; lia). rewrite fupd_ne; [apply K5; [lia|done|lia]|]. pose proof (K3 (ring_index (sr_k r) j) (ring_index_range _ j Hk)). lia.
    + assert (Hsm : sm = false) by (destruct sm; [specialize (Hfr eq_refl); done|done]).
      constructor; cbn; try done.
      intros j Hj0 Hsk Hj. unfold written in Hj. cbn in Hj. destruct (decide (j = lo)) as [->|Hne].
      * rewrite fupd_eq by done. by rewrite Hv.
      * rewrite fupd_ne; [apply K5; [lia|done|lia]|]. intros E. apply K4 in E; [|done|by apply ring_index_range|done]. by apply (Hidx j) in E; [|lia|lia].
    + apply Hdone; [done|]. intros j Hj Hsk Hjj. destruct (decide (j = lo)) as [->|Hne]; [|lia]. exfalso. apply Hsk. by exists v.
  - constructor; cbn [s_todo s_pc s_slots s_nobj s_heap s_vals s_next s_cons]; try done.
    + by destruct todo as [|[] ?].
    + intros j G1 G2 G3. apply K5; [done| |unfold written in *; cbn in G3; rewrite Epc; lia]. intros [v' Hv']. apply G2. exists v'. cbn. rewrite s_granted_app. apply elem_of_app. by left.
    + intros i c Hi. specialize (K6 i c Hi). rewrite Forall_forall in *. intros d Hd Hn. apply K6; [done|]. intros [v' Hv']. apply Hn. exists v'. cbn. rewrite s_granted_app. apply elem_of_app. by left.
Qed.
Lemma kinv_cons sm r s i th : 0 <= sr_k r -> SInv r s -> KInv sm r s -> KInv sm r (scons_step r s i th).
Proof.
  intros Hk I [K1 K2 K3 K4 K5 K6]. destruct (scons_frame r s i th) as (E1 & E2 & E3 & E4 & E5 & E6 & E7 & E8 & E9 & E10).
  constructor; unfold written, skipped; rewrite ?E2, ?E4, ?E5, ?E6, ?E7, ?E8, ?E9, ?E10; try done.
  clear E1 E2 E3 E4 E5 E6 E7 E8 E9 E10. unfold scons_step. destruct (s_cons s !! i) as [c|] eqn:Hi; [|done].
  assert (Hset : forall c', Forall (fun d => ~ skipped s (e_seq d) -> e_val d = s_vals s (e_seq d)) (sc_log c') -> forall j d, <[i := c']> (s_cons s) !! j = Some d -> Forall (fun d => ~ skipped s (e_seq d) -> e_val d = s_vals s (e_seq d)) (sc_log d)).
  { intros c' Hc' j d Hj. apply list_lookup_insert_Some in Hj as [(-> & <- & _)|[Hne Hj]]; [done|by eapply K6]. }
  pose proof (K6 i c Hi) as Hlog. pose proof (v_cons _ _ I i c Hi) as Hok. unfold scons_ok in Hok.
  destruct (sc_pc c) as [|v| |nx avail|v] eqn:Epc; cbn.
  - by apply Hset.
  - by apply Hset.
  - destruct (_ <? _); [done|]. by apply Hset.
  - destruct (Z.ltb_spec avail nx); [by apply Hset|]. destruct Hok as (G & O1 & O2 & (O3 & O4 & O5) & _).
    assert (Hnew : forall th', Forall (fun d => ~ skipped s (e_seq d) -> e_val d = s_vals s (e_seq d)) (sc_log c ++ [SDel nx (s_slots s (ring_index (sr_k r) nx)) (s_heap s (s_slots s (ring_index (sr_k r) nx))) (nx =? avail) th'])).
    { intros th'. apply Forall_app. split; [done|]. constructor; [|done]. cbn. intros Hsk. apply K5; [lia|done|].
      pose proof (v_gate _ _ I i G) as Hg. unfold scseq in Hg. rewrite Hi in Hg. pose proof (v_cur _ _ I). split; [lia|].
      unfold written. pose proof (v_prod _ _ I) as HP. unfold sprod_ok in HP. destruct (s_todo s) as [|[b vals pub|] todo]; [rewrite HP; lia| |rewrite HP; lia].
      destruct (s_pc s); lia. }
    destruct (_ && _); apply Hset, Hnew.
  - by apply Hset.
Qed.
Lemma kinv_run sm r nc prog acts : 0 <= sr_k r -> mux_calls prog -> own_objects sm prog -> good_registrations r prog (sst_new sm (sr_k r) nc prog) acts -> KInv sm r (srun r (sst_new sm (sr_k r) nc prog) acts).
Proof.
  intros Hk Hm Hc. induction acts as [|a acts IH] using rev_ind; intros Hg.
  - pose proof (rsize_pos (sr_k r) Hk). constructor; cbn; try done.
    + by destruct prog as [|[] ?].
    + intros a Ha. destruct sm; lia.
    + intros ->. done.
    + intros i c Hi. apply elem_of_list_lookup_2, elem_of_list_In, repeat_spec in Hi as ->. constructor.
  - assert (Hg' : good_registrations r prog (sst_new sm (sr_k r) nc prog) acts) by (eapply good_prefix; [|exact Hg]; by apply prefix_app_r).
    rewrite srun_snoc. pose proof (sinv_good sm r nc prog acts Hk Hg'). destruct a; cbn [sstep]; [apply kinv_prod; auto; by apply p_run|apply kinv_cons; auto].
Qed.
Theorem C58_content sm r nc prog acts i c d :
  0 <= sr_k r -> mux_calls prog -> own_objects sm prog -> let s0 := sst_new sm (sr_k r) nc prog in let s := srun r s0 acts in
  good_registrations r prog s0 acts -> s_cons s !! i = Some c -> d ∈ mux_delivered c ->
  exists w, (e_seq d, [(w, e_val d)]) ∈ s_granted (s_log s) /\ w <> WSkip.
Proof.
  intros Hk Hm Ho s0 s Hg Hi Hd. destruct (C58_failed_never_delivered sm r nc prog acts i c d Hm Hi Hd) as [(w & v & Hw & Hin) Hn]. fold s0 in Hin, Hn. fold s in Hin, Hn.
  pose proof (kinv_run sm r nc prog acts Hk Hm Ho Hg) as K. fold s0 in K. fold s in K. pose proof (sinv_good sm r nc prog acts Hk Hg) as I. fold s0 in I. fold s in I.
  pose proof (p_run sm r nc prog acts Hm) as P. fold s0 in P. fold s in P.
  unfold mux_delivered in Hd. apply elem_of_list_filter in Hd as [_ Hd]. pose proof (log_le r s i c d I Hi Hd) as Hle. pose proof (v_cur _ _ I) as Hcur.
  pose proof (z_log _ _ _ K i c Hi) as Hl. rewrite Forall_forall in Hl. specialize (Hl d Hd). rewrite Hl; [|intros [v' Hv']; by apply (Hn v')].
  exists w. split; [|done]. by rewrite (p_val _ P _ _ Hin).
Qed.

(** ** C191: before the next publication nobody notices; then every listener counts the failed one as a discarded event. *)
(** No consumer is handed (or counts as discarded) anything from a claim on, as long as nothing has been published after the claim. Any program. *)
Record QInv (s : sst) : Prop := {
  q_le : s_cursor s <= s_next s;
  q_cl : forall pre lo vals post, s_log s = pre ++ SClaimed lo vals :: post -> (forall hi, SPublished hi ∉ post) -> s_cursor s < lo;
  q_cons : Forall (fun c => Forall (fun d => e_seq d <= s_cursor s) (sc_log c) /\ match sc_pc c with SHandle _ avail => avail <= s_cursor s | _ => True end) (s_cons s)
}.
Lemma q_snoc s x : x <> SPublished (s_next s) -> (forall hi, x <> SPublished hi) -> (forall lo vals, x = SClaimed lo vals -> s_cursor s < lo) ->
  (forall pre lo vals post, s_log s = pre ++ SClaimed lo vals :: post -> (forall hi, SPublished hi ∉ post) -> s_cursor s < lo) ->
  forall pre lo vals post, s_log s ++ [x] = pre ++ SClaimed lo vals :: post -> (forall hi, SPublished hi ∉ post) -> s_cursor s < lo.
Proof.
  intros _ _ Hx H pre lo vals post E Hn. destruct post as [|y post _] using rev_ind.
  - apply app_inj_tail in E as [_ ->]. by apply (Hx lo vals).
  - rewrite app_comm_cons, app_assoc in E. apply app_inj_tail in E as [E _]. apply (H pre lo vals post E). intros hi Hin. apply (Hn hi). apply elem_of_app. by left.
Qed.
Lemma q_step r s a : QInv s -> QInv (sstep r s a).
Proof.
  intros [Q1 Q2 Q3]. destruct a as [|i th]; cbn [sstep].
  - assert (Hcl : forall cached vals, QInv (s_claim s cached vals)).
    { intros cached vals. constructor; cbn; [unfold s_n; lia| |done]. apply q_snoc; try done. intros lo vs [= <- <-]. lia. }
    assert (Hpu : forall todo, QInv (Sst (s_next s) (s_next s) (s_cached s) (s_slots s) (s_heap s) (s_nobj s) PIdle todo (s_gating s) (s_cons s) (s_log s ++ [SPublished (s_next s)]) (s_vals s))).
    { intros todo. constructor; cbn; [lia| |].
      - intros pre lo vals post E Hn. exfalso. destruct post as [|y post _] using rev_ind; [by apply app_inj_tail in E as [_ [=]]|].
        rewrite app_comm_cons, app_assoc in E. apply app_inj_tail in E as [_ <-]. apply (Hn (s_next s)). apply elem_of_app. right. by left.
      - eapply Forall_impl; [exact Q3|]. cbn. intros c [H1 H2]. split; [eapply Forall_impl; [exact H1|]; cbn; intros; lia|]. destruct (sc_pc c); try done. lia. }
    assert (Hres : forall x, (forall hi, x <> SPublished hi) -> (forall lo vals, x <> SClaimed lo vals) ->
      forall pre lo vals post, s_log s ++ [x] = pre ++ SClaimed lo vals :: post -> (forall hi, SPublished hi ∉ post) -> s_cursor s < lo).
    { intros x Hx Hc. apply q_snoc; try done. intros lo vals ->. by destruct (Hc lo vals). }
    unfold sprod_step. destruct (s_todo s) as [|[b vals pub|] todo]; [by constructor| |apply Hpu].
    destruct (s_pc s) as [|k m|m|lo k|].
    + destruct (_ <? 1); [constructor; cbn; auto; by apply Hres|]. destruct (s_must_scan _ _ _ _); [by constructor|apply Hcl].
    + destruct (s_gating s !! k); by constructor.
    + destruct b; destruct (_ <? _); try apply Hcl; try (by constructor). constructor; cbn; auto. by apply Hres.
    + destruct (vals !! k) as [[[] v]|]; try (destruct pub); constructor; cbn; rewrite ?app_nil_r; auto.
    + apply Hpu.
  - unfold scons_step. destruct (s_cons s !! i) as [c|] eqn:E; [|by constructor].
    pose proof (Forall_lookup_1 _ _ _ _ Q3 E) as (H1 & H2).
    destruct (sc_pc c) as [|v| |nx avail|v].
    + constructor; cbn; auto. apply Forall_insert; [done|]. (split; cbn; auto).
    + constructor; cbn; auto. apply Forall_insert; [done|]. (split; cbn; auto).
    + destruct (_ <? _) eqn:El; [by constructor|]. constructor; cbn; auto. apply Forall_insert; [done|]. split; cbn; auto; lia.
    + destruct (_ <? _) eqn:El.
      * constructor; cbn; auto. apply Forall_insert; [done|]. (split; cbn; auto).
      * assert (HL : forall o w t, Forall (fun d => e_seq d <= s_cursor s) (sc_log c ++ [SDel nx o w (nx =? avail) t])).
        { intros o w t. apply Forall_app. split; [done|]. constructor; [cbn; lia|constructor]. }
        destruct (_ && _); constructor; cbn; auto; apply Forall_insert; try done; split; cbn; auto.
    + constructor; cbn; auto. apply Forall_insert; [done|]. (split; cbn; auto).
Qed.
Lemma q_run sm r nc prog acts : QInv (srun r (sst_new sm (sr_k r) nc prog) acts).
Proof.
  induction acts as [|a acts IH] using rev_ind.
  - constructor; cbn; [lia| |].
    + intros pre lo vals post E. by destruct pre.
    + apply Forall_forall. intros c Hc. apply elem_of_list_In, repeat_spec in Hc as ->. (split; cbn; auto).
  - rewrite srun_snoc. by apply q_step.
Qed.
Theorem C191_nothing_before_publication sm r nc prog acts pre lo vals post :
  let s := srun r (sst_new sm (sr_k r) nc prog) acts in
  s_log s = pre ++ SClaimed lo vals :: post -> (forall hi, SPublished hi ∉ post) ->
  forall i c d, s_cons s !! i = Some c -> d ∈ sc_log c -> e_seq d < lo.
Proof.
  intros s El Hn i c d Hi Hd. pose proof (q_run sm r nc prog acts) as Q. fold s in Q. pose proof (q_cl _ Q _ _ _ _ El Hn).
  pose proof (Forall_lookup_1 _ _ _ _ (q_cons _ Q) Hi) as [HL _]. rewrite Forall_forall in HL. apply HL in Hd. lia.
Qed.
(** A failed publication is not without effect: at the next publication every listener counts one more discarded event, although nobody reported a discard to the publisher;
    and until then it takes a place in the ring: here the only free slot, so that the next publication is refused. *)
Definition fail_mux : sring := SRing 1 true.
Definition fail_prog : list sop := [SClaim false [(WInPlace, 10)] true; SClaim false [(WSkip, 0)] true; SClaim false [(WInPlace, 12)] true].
Theorem C191_failed_counted_refuted :
  mux_calls fail_prog /\
  (let s := srun fail_mux (sst_new false 1 1 fail_prog) (repeat (SC 0%nat false) 2 ++ repeat SP 4 ++ repeat (SC 0%nat false) 5 ++ repeat SP 20 ++ repeat (SC 0%nat false) 6) in
   s_log s = [SClaimed 0 [(WInPlace, 10)]; SPublished 0; SClaimed 1 [(WSkip, 0)]; SClaimed 2 [(WInPlace, 12)]; SPublished 2] /\
   ((fun c => (e_val <$> mux_delivered c, mux_discarded c)) <$> s_cons s) = [([10; 12], 1%nat)]) /\
  (let s := srun fail_mux (sst_new false 1 1 fail_prog) (repeat (SC 0%nat false) 2 ++ repeat SP 40) in
   s_log s = [SClaimed 0 [(WInPlace, 10)]; SPublished 0; SClaimed 1 [(WSkip, 0)]; SRefused] /\ s_cursor s = 0).
Proof.
  split; [repeat constructor; eauto|]. split; vm_compute; done.
Qed.
(** A run that meets the hypotheses of both theorems: a failed publication between two others, two listeners. *)
Example C58_case :
  mux_calls fail_prog /\
  let acts := repeat (SC 0%nat false) 2 ++ repeat (SC 1%nat false) 2 ++ repeat SP 4 ++ repeat (SC 0%nat false) 5 ++ repeat (SC 1%nat false) 5 ++ repeat SP 7 in
  let s := srun fail_mux (sst_new false 1 2 fail_prog) acts in
  s_log s = [SClaimed 0 [(WInPlace, 10)]; SPublished 0] ++ SClaimed 1 [(WSkip, 0)] :: [] ++ [SClaimed 2 [(WInPlace, 12)]] /\
  ((fun c => e_seq <$> mux_delivered c) <$> s_cons s) = [[0]; [0]].
Proof. split; [repeat constructor; eauto|]. vm_compute. done. Qed.
(** The registrations of the first run of [C191_failed_counted_refuted] are calm, so [C58_content] applies to it: the listener was given 10 and 12, the published contents. *)
Example C58_content_case :
  own_objects false fail_prog /\
  good_registrations fail_mux fail_prog (sst_new false 1 1 fail_prog) (repeat (SC 0%nat false) 2 ++ repeat SP 4 ++ repeat (SC 0%nat false) 5 ++ repeat SP 20 ++ repeat (SC 0%nat false) 6).
Proof. split; [repeat constructor; done|]. left. apply calm_check. by vm_compute. Qed.
Print Assumptions C58_failed_never_delivered.
Print Assumptions C58_content.
Print Assumptions C191_nothing_before_publication.
Print Assumptions C191_failed_counted_refuted.
