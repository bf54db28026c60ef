(** * Properties of the single-producer ring and of the data multiplexer: C23, C30, C31 (C58: SingleRing_Fail).
    2^k slots ([sr_k r = k]), any producer program, any number of consumers, any schedule, any handler exceptions.
    [good_registrations]: either no consumer's registration overlaps events claimed beyond the cursor it saw (calm), or the producer publishes every
    claim before the next one and no publication falls between the two steps of a registration (atomic). *)
From stdpp Require Import prelude list_numbers.
From Coq Require Import ZArith Lia ZifyBool.
From Verif Require Import Base MultiRing_Model MultiRing_Proofs SingleRing_Model SingleRing_Spec SingleRing_Proofs SingleRing_Run SingleRing_Content.
Local Open Scope Z_scope.

(** ** C23. *)
(** Granted claims are consecutive non-empty intervals starting at 0; the results answer the producer's calls in order, with the requested events. *)
Theorem C23_contiguous : forall sm r nc prog acts, let s := srun r (sst_new sm (sr_k r) nc prog) acts in
  s_contiguous 0 (s_granted (s_log s)) = Some (s_next s + 1) /\
  exists past rest, claims prog = past ++ rest /\ Forall2 smatches past (outcomes (s_log s)).
Proof.
  intros sm r nc prog acts s. pose proof (sl_run sm r nc prog acts) as L. fold s in L. split; [apply L|].
  destruct (sl_past _ _ L) as (past & H1 & H2). eauto.
Qed.
Print Assumptions C23_contiguous.
(** No claim covers a slot with an event that a registered consumer has not finished with. *)
Theorem C23_no_overrun : forall sm r nc prog acts, 0 <= sr_k r -> let s0 := sst_new sm (sr_k r) nc prog in let s := srun r s0 acts in
  good_registrations r prog s0 acts ->
  forall i c j j', s_cons s !! i = Some c -> registered c -> sc_seq c < j -> j < j' <= s_next s -> ring_index (sr_k r) j <> ring_index (sr_k r) j'.
Proof.
  intros sm r nc prog acts Hk s0 s Hg i c j j' Hi Hr Hj Hj' E. pose proof (sinv_good sm r nc prog acts Hk Hg) as I. fold s0 in I. fold s in I.
  pose proof (rsize_pos (sr_k r) Hk). pose proof (v_cons _ _ I i c Hi) as Hok. unfold scons_ok in Hok. unfold registered in Hr.
  assert (Hw : s_next s - rsize (sr_k r) <= sc_seq c).
  { assert (Hin : i ∈ s_gating s) by (destruct (sc_pc c); try done; apply Hok). pose proof (v_gate _ _ I i Hin) as Hg'. unfold scseq in Hg'. by rewrite Hi in Hg'. }
  rewrite !ring_index_mod in E by lia. apply mod_window in E; lia.
Qed.
Print Assumptions C23_no_overrun.
(** A try_next is refused only if it asks for more than the ring has, or if at some moment during the call there was not room for it. *)
Theorem C23_refusal_justified : forall sm r nc prog acts, let s0 := sst_new sm (sr_k r) nc prog in let s := srun r s0 acts in
  s_log (sstep r s SP) = s_log s ++ [SRefused] ->
  exists vals pub rest, s_in_call s vals pub rest /\
    (rsize (sr_k r) < s_n vals \/
     exists acts1, acts1 `prefix_of` acts /\ s_in_call (srun r s0 acts1) vals pub rest /\ s_no_room r (srun r s0 acts1) (s_n vals)).
Proof. exact srefused. Qed.
Print Assumptions C23_refusal_justified.
(** Nothing larger than the ring is ever granted, with or without consumers (so next(n) with such n never returns). *)
Lemma m_le r s0 acts : (match s_pc s0 with PScan _ m | PCheck m => m <= s_next s0 | _ => True end) ->
  match s_pc (srun r s0 acts) with PScan _ m | PCheck m => m <= s_next (srun r s0 acts) | _ => True end.
Proof.
  intros H0. induction acts as [|a acts IH] using rev_ind; [done|]. rewrite srun_snoc. set (s := srun r s0 acts) in *. clearbody s. destruct a as [|i th]; cbn [sstep].
  2:{ destruct (scons_frame r s i th) as (E1 & E2 & E3 & E4 & E5 & E6 & E7 & _). by rewrite E7, E2. }
  unfold sprod_step. destruct (s_todo s) as [|[b vals pub|] todo] eqn:Et; [done| |done].
  destruct (s_pc s) as [|j m|m|lo j|] eqn:Epc; try done.
  - destruct (_ <? _); [done|]. destruct (s_must_scan _ _ _ _); [|done]. cbn. lia.
  - destruct (s_gating s !! j); cbn; [|done]. destruct (Z.ltb_spec (scseq (s_cons s) n) m); lia.
  - destruct b; destruct (_ <? _); cbn; try done; lia.
  - destruct (vals !! j) as [[[] v]|]; try done. by destruct pub.
Qed.
Theorem C23_claim_fits : forall sm r nc prog acts, 0 <= sr_k r -> let s := srun r (sst_new sm (sr_k r) nc prog) acts in
  Forall (fun p => Z.of_nat (length p.2) <= rsize (sr_k r)) (s_granted (s_log s)).
Proof.
  intros sm r nc prog acts Hk. cbv zeta. induction acts as [|a acts IH] using rev_ind; [constructor|].
  pose proof (m_le r (sst_new sm (sr_k r) nc prog) acts I) as Hm. rewrite srun_snoc. set (s := srun r (sst_new sm (sr_k r) nc prog) acts) in *. clearbody s.
  destruct a as [|i th]; cbn [sstep].
  2:{ destruct (scons_frame r s i th) as (_ & _ & _ & _ & _ & _ & _ & _ & -> & _). done. }
  assert (Hcl : forall cached vals, s_n vals <= rsize (sr_k r) -> Forall (fun p => Z.of_nat (length p.2) <= rsize (sr_k r)) (s_granted (s_log (s_claim s cached vals)))).
  { intros cached vals Hn. cbn. rewrite s_granted_app. apply Forall_app. split; [done|]. by constructor. }
  assert (Hd : forall x, s_granted x = [] -> Forall (fun p => Z.of_nat (length p.2) <= rsize (sr_k r)) (s_granted (s_log s ++ x))).
  { intros x Hx. rewrite s_granted_app, Hx. by rewrite app_nil_r. }
  unfold sprod_step. destruct (s_todo s) as [|[b vals pub|] todo] eqn:Et; [done| |by apply Hd].
  destruct (s_pc s) as [|j m|m|lo j|] eqn:Epc.
  - destruct (_ <? _); [by apply Hd|]. destruct (s_must_scan _ _ _ _) eqn:Em; [done|]. apply Hcl. unfold s_must_scan in Em. lia.
  - by destruct (s_gating s !! j).
  - destruct b; destruct (Z.ltb_spec m (s_next s + s_n vals - rsize (sr_k r))); try done; try (by apply Hd); apply Hcl; lia.
  - destruct (vals !! j) as [[[] v]|]; try done; [by apply Hd|]. destruct pub; [done|by apply Hd].
  - by apply Hd.
Qed.
Print Assumptions C23_claim_fits.
(** Each registered consumer is given, from its registration on, every sequence once and in order, only published ones, with the content published for it.
    Registrations as above; no process function throws; a model-event ring only with publications that make new objects. *)
Theorem C23_content : forall sm r nc prog acts, 0 <= sr_k r -> clean sm prog -> let s0 := sst_new sm (sr_k r) nc prog in let s := srun r s0 acts in
  good_registrations r prog s0 acts ->
  forall i c, s_cons s !! i = Some c -> registered c ->
    e_seq <$> sc_log c = seqZ (sc_start c + 1) (Z.of_nat (length (sc_log c))) /\ -1 <= sc_start c /\
    Forall (fun d => e_seq d <= s_cursor s /\ s_contents (s_log s) !! Z.to_nat (e_seq d) = Some (e_val d)) (sc_log c).
Proof.
  intros sm r nc prog acts Hk Hcl s0 s Hg i c Hi Hr. pose proof (sinv_good sm r nc prog acts Hk Hg) as I. fold s0 in I. fold s in I.
  pose proof (cinv_good sm r nc prog acts Hk Hcl Hg) as C. fold s0 in C. fold s in C. pose proof (sl_run sm r nc prog acts) as L. fold s0 in L. fold s in L.
  pose proof (v_cons _ _ I i c Hi) as Hok. unfold scons_ok in Hok. unfold registered in Hr.
  assert (H : -1 <= sc_start c /\ sc_start c <= spos c /\ e_seq <$> sc_log c = seqZ (sc_start c + 1) (spos c - sc_start c)).
  { unfold spos in *. destruct (sc_pc c); try done; destruct Hok as (_ & ? & ? & ? & E & _); (split; [lia|]); (split; [lia|done]). }
  destruct H as (H1 & H2 & H3).
  assert (Hlen : Z.of_nat (length (sc_log c)) = spos c - sc_start c).
  { apply (f_equal length) in H3. rewrite fmap_length, seqZ_length in H3. lia. }
  split; [by rewrite Hlen|]. split; [done|]. apply Forall_forall. intros d Hd.
  pose proof (log_le r s i c d I Hi Hd). split; [lia|]. pose proof (k_log _ _ _ C i c Hi) as Hl. rewrite Forall_forall in Hl. rewrite (Hl d Hd).
  apply (sl_vals _ _ L). pose proof (v_cur _ _ I). lia.
Qed.
Print Assumptions C23_content.
(** Without the condition on registrations the claims are false, and each half of the condition is needed. *)
(** A decision procedure for the condition on the registrations of a concrete schedule. *)
Fixpoint regs_check (P : sst -> Z -> bool) (r : sring) (s : sst) (acts : list sact) : bool :=
  match acts with
  | [] => true
  | a :: acts => match a with
                 | SC i _ => match s_cons s !! i with Some c => match sc_pc c with SReg v => P s v | _ => true end | None => true end
                 | SP => true
                 end && regs_check P r (sstep r s a) acts
  end.
Lemma regs_check_ok P r s acts : regs_check P r s acts = true ->
  forall a1 i th a2 c v, acts = a1 ++ SC i th :: a2 -> s_cons (srun r s a1) !! i = Some c -> sc_pc c = SReg v -> P (srun r s a1) v = true.
Proof.
  revert s. induction acts as [|a acts IH]; intros s H a1 i th a2 c v E Hc Hpc; [by destruct a1|].
  cbn in H. apply andb_true_iff in H as [H1 H2]. destruct a1 as [|b a1]; cbn in E; injection E as -> ->.
  - cbn in Hc. by rewrite Hc, Hpc in H1.
  - by apply (IH (sstep r s b) H2 a1 i th a2 c v).
Qed.
Lemma calm_check r s acts : regs_check (fun s v => s_next s =? v) r s acts = true -> calm_registrations r s acts.
Proof. intros H a1 i th a2 c v E Hc Hpc. pose proof (regs_check_ok _ _ _ _ H _ _ _ _ _ _ E Hc Hpc). lia. Qed.
Lemma atomic_check r s acts : regs_check (fun s v => s_cursor s =? v) r s acts = true -> atomic_registrations r s acts.
Proof. intros H a1 i th a2 c v E Hc Hpc. pose proof (regs_check_ok _ _ _ _ H _ _ _ _ _ _ E Hc Hpc). lia. Qed.
Definition v_ (x : Z) : wkind * Z := (WFresh, x).
Definition ring2 : sring := SRing 1 false.
(** Three events claimed by two calls, a consumer registering then, the publication: it is given event 12 as sequence 0, which was published as event 10. *)
Definition lazy_prog : list sop := [SClaim true [v_ 10; v_ 11] false; SClaim true [v_ 12] false; SPublish].
Definition lazy_acts : list sact := repeat SP 9 ++ [SC 0 false; SC 0 false; SP] ++ repeat (SC 0 false) 5.
Theorem C23_lazy_publish_refuted : clean false lazy_prog /\ atomic_registrations ring2 (sst_new false 1 1 lazy_prog) lazy_acts /\
  exists c d, let s := srun ring2 (sst_new false 1 1 lazy_prog) lazy_acts in
    s_cons s !! 0%nat = Some c /\ d ∈ sc_log c /\ e_seq d <= s_cursor s /\ s_contents (s_log s) !! Z.to_nat (e_seq d) <> Some (e_val d).
Proof.
  split; [repeat constructor; done|]. split; [apply atomic_check; by vm_compute|]. eexists _, (SDel 0 4 12 false false). cbv zeta.
  split; [vm_compute; reflexivity|]. split; [left|]. by vm_compute.
Qed.
Print Assumptions C23_lazy_publish_refuted.
(** Each event published at once, but the registration reads the cursor before three publications and takes effect after them: the consumer is given
    event 12 as sequence 0, published as event 10. *)
Definition late_prog : list sop := [SClaim true [v_ 10] true; SClaim true [v_ 11] true; SClaim true [v_ 12] true].
Definition late_acts : list sact := [SC 0 false] ++ repeat SP 30 ++ repeat (SC 0 false) 7.
Theorem C23_late_registration_refuted : clean false late_prog /\ publishes_each late_prog /\
  exists c d, let s := srun ring2 (sst_new false 1 1 late_prog) late_acts in
    s_cons s !! 0%nat = Some c /\ d ∈ sc_log c /\ e_seq d <= s_cursor s /\ s_contents (s_log s) !! Z.to_nat (e_seq d) <> Some (e_val d).
Proof.
  split; [repeat constructor; done|]. split; [repeat constructor; done|]. eexists _, (SDel 0 4 12 false false). cbv zeta.
  split; [vm_compute; reflexivity|]. split; [left|]. by vm_compute.
Qed.
Print Assumptions C23_late_registration_refuted.
(** The hypotheses are met: two consumers, one of them registering after events were published, a refused try_next, a claim of several events, a handler exception. *)
Definition demo_prog : list sop := [SClaim false [v_ 10; (WInPlace, 11)] true; SClaim false [v_ 12] true; SClaim true [(WInPlace, 13)] true; SClaim false [] true; SClaim false [v_ 14] true].
Definition demo_acts : list sact := repeat (SC 0 false) 2 ++ repeat SP 8 ++ repeat SP 3 ++ repeat (SC 0 true) 12 ++ repeat (SC 1 false) 2 ++ repeat SP 15 ++ repeat (SC 0 false) 12 ++ repeat (SC 1 false) 12 ++ repeat SP 20 ++ repeat (SC 1 false) 12.
Example C23_met : let s0 := sst_new false 1 2 demo_prog in let s := srun ring2 s0 demo_acts in
  clean false demo_prog /\ good_registrations ring2 demo_prog s0 demo_acts /\ SRefused ∈ s_log s /\ SBadArg ∈ s_log s /\
  ((fun c => e_val <$> sc_log c) <$> s_cons s) = [[10; 11; 13; 14]; [13; 14]].
Proof.
  cbv zeta. split; [repeat constructor; done|]. split; [left; apply calm_check; by vm_compute|].
  assert (E : s_log (srun ring2 (sst_new false 1 2 demo_prog) demo_acts) = [SClaimed 0 [(WFresh, 10); (WInPlace, 11)]; SPublished 1; SRefused; SClaimed 2 [(WInPlace, 13)]; SPublished 2; SBadArg; SClaimed 3 [(WFresh, 14)]; SPublished 3]) by by vm_compute.
  rewrite E. split; [do 2 right; left|]. split; [do 5 right; left|]. by vm_compute.
Qed.

(** ** C30: the data multiplexer ([sr_end_only r = true]: listeners are called only with the last event of a batch). *)
(** For each listener: events given to it and events counted as discarded add up to the events consumed; the events given are a subsequence, in order and
    without repetition, of those published since it registered; and when it has consumed all that is published, the last event was given to it. *)
Theorem C30_newest : forall sm r nc prog acts, 0 <= sr_k r -> sr_end_only r = true -> let s0 := sst_new sm (sr_k r) nc prog in let s := srun r s0 acts in
  good_registrations r prog s0 acts ->
  forall i c, s_cons s !! i = Some c -> registered c ->
    (length (mux_delivered c) + mux_discarded c = length (sc_log c))%nat /\
    (e_seq <$> mux_delivered c) `sublist_of` seqZ (sc_start c + 1) (Z.of_nat (length (sc_log c))) /\
    (sc_pc c = SWait -> sc_seq c = sc_start c + Z.of_nat (length (sc_log c))) /\
    (sc_pc c = SWait -> sc_seq c = s_cursor s -> sc_start c < s_cursor s -> exists d, last (mux_delivered c) = Some d /\ e_seq d = s_cursor s).
Proof.
  intros sm r nc prog acts Hk He s0 s Hg i c Hi Hr. pose proof (sinv_good sm r nc prog acts Hk Hg) as I. fold s0 in I. fold s in I.
  pose proof (v_cons _ _ I i c Hi) as Hok. unfold scons_ok in Hok. unfold registered in Hr.
  assert (H : sc_start c <= spos c /\ e_seq <$> sc_log c = seqZ (sc_start c + 1) (spos c - sc_start c) /\ sbatch_end r c).
  { unfold spos in *. destruct (sc_pc c); try done; destruct Hok as (_ & ? & ? & ? & E & E2); (split; [lia|]); done. }
  destruct H as (H2 & H3 & H4).
  assert (Hlen : Z.of_nat (length (sc_log c)) = spos c - sc_start c).
  { pose proof (f_equal length H3) as E. rewrite fmap_length, seqZ_length in E. lia. }
  split.
  { unfold mux_delivered, mux_discarded. clear. induction (sc_log c) as [|d l IH]; [done|]. rewrite !filter_cons. destruct (e_end d) eqn:E.
    - rewrite decide_True by done. rewrite decide_False by done. cbn. lia.
    - rewrite decide_False by done. rewrite decide_True by done. cbn. lia. }
  split. { rewrite Hlen, <-H3. apply fmap_sublist. unfold mux_delivered. clear. induction (sc_log c) as [|d l IH]; [done|]. rewrite filter_cons. destruct (decide _); [by apply sublist_skip|by apply sublist_cons]. }
  assert (Hpos : sc_pc c = SWait -> spos c = sc_seq c) by (unfold spos; by intros ->).
  split. { intros Ew. rewrite Hlen, Hpos by done. lia. }
  intros Ew Eq Hst. specialize (Hpos Ew). destruct H4 as [H4 H5].
  destruct (last (sc_log c)) as [d|] eqn:El.
  2:{ apply last_None in El. rewrite El in Hlen. cbn in Hlen. lia. }
  rewrite Ew in H4. exists d. apply last_Some in El as [l El].
  assert (Hend : e_end d = true).
  { destruct H4 as [|Ht]; [done|]. rewrite Forall_forall in H5. apply (H5 d); [rewrite El; set_solver|done|done]. }
  unfold mux_delivered. rewrite El, filter_app, filter_cons, decide_True by done. change (filter (fun d0 => e_end d0 = true) []) with (@nil sdel). split; [by rewrite last_snoc|].
  rewrite El, fmap_app in H3. assert (Hx : spos c - sc_start c = (spos c - sc_start c - 1) + 1) by lia. rewrite Hx, seqZ_snoc2 in H3 by lia.
  apply app_inj_2 in H3 as [_ H3]; [|done]. cbn in H3. injection H3 as H3. rewrite H3. lia.
Qed.
Print Assumptions C30_newest.
Lemma mux_snoc a b c l d : mux_delivered (SCons a b c (l ++ [d])) = mux_delivered (SCons a b c l) ++ (if e_end d then [d] else []) /\
  mux_discarded (SCons a b c (l ++ [d])) = (mux_discarded (SCons a b c l) + if e_end d then 0 else 1)%nat.
Proof.
  unfold mux_delivered, mux_discarded. cbn [sc_log]. rewrite !filter_app, !app_length, !filter_cons. destruct (e_end d).
  - rewrite decide_True by done. rewrite decide_False by done. done.
  - rewrite decide_False by done. rewrite decide_True by done. done.
Qed.
(** Every event before the last of its batch is skipped, and only those: a listener is called with an event exactly when, at the start of the batch, it was the newest published. *)
Theorem C30_batch : forall r s i th c nx avail, s_cons s !! i = Some c -> sc_pc c = SHandle nx avail -> nx <= avail ->
  forall c', s_cons (sstep r s (SC i th)) !! i = Some c' -> mux_delivered c' = mux_delivered c ++ (if decide (nx = avail) then [SDel nx (s_slots s (ring_index (sr_k r) nx)) (s_heap s (s_slots s (ring_index (sr_k r) nx))) true (th && (negb (sr_end_only r) || true))] else []) /\
    mux_discarded c' = (mux_discarded c + if decide (nx = avail) then 0 else 1)%nat.
Proof.
  intros r s i th c nx avail Hi Hpc Hle c' Hc'. cbn [sstep] in Hc'. unfold scons_step in Hc'. rewrite Hi, Hpc in Hc'.
  destruct (Z.ltb_spec avail nx); [lia|]. assert (Hlt : (i < length (s_cons s))%nat) by (by eapply lookup_lt_Some).
  destruct (decide (nx = avail)) as [->|Hne].
  - rewrite Z.eqb_refl in Hc'. destruct (th && (negb (sr_end_only r) || true)) eqn:Eth; cbn [s_cons] in Hc'; rewrite list_lookup_insert in Hc' by done; injection Hc' as <-; apply mux_snoc.
  - replace (nx =? avail) with false in Hc' by lia.
    destruct (th && (negb (sr_end_only r) || false)) eqn:Eth; cbn [s_cons] in Hc'; rewrite list_lookup_insert in Hc' by done; injection Hc' as <-; apply mux_snoc.
Qed.
Print Assumptions C30_batch.
(** Met: a listener in two batches, the first of two events, and a refused publication. *)
Definition mux2 : sring := SRing 1 true.
Example C30_met : let s0 := sst_new false 1 2 demo_prog in let s := srun mux2 s0 demo_acts in
  good_registrations mux2 demo_prog s0 demo_acts /\ s_cursor s = 3 /\
  ((fun c => (e_val <$> mux_delivered c, mux_discarded c, sc_seq c)) <$> s_cons s) = [([11; 14], 2%nat, 3); ([14], 1%nat, 3)].
Proof. cbv zeta. split; [left; apply calm_check; by vm_compute|]. by vm_compute. Qed.

(** ** C31. *)
(** If every publication puts a new object in its slot (publish of a value, no cloner given), no listener ever sees an event it has been given change. *)
Theorem C31_held : forall sm r nc prog acts, 0 <= sr_k r -> only_fresh prog -> let s := srun r (sst_new sm (sr_k r) nc prog) acts in
  forall i c d, s_cons s !! i = Some c -> d ∈ sc_log c -> s_heap s (e_obj d) = e_val d.
Proof.
  intros sm r nc prog acts Hk Hf s i c d Hi Hd. pose proof (finv_run sm r nc prog acts Hk Hf) as F. fold s in F.
  pose proof (f_log _ _ F i c Hi) as H. rewrite Forall_forall in H. by destruct (H d Hd).
Qed.
Print Assumptions C31_held.
(** With any mixture of publications, an event not yet consumed by a registered listener keeps the content it was published with, provided the
    slots were built with distinct objects or only new objects are used. *)
Theorem C31_unconsumed : forall sm r nc prog acts, 0 <= sr_k r -> clean sm prog -> let s0 := sst_new sm (sr_k r) nc prog in let s := srun r s0 acts in
  good_registrations r prog s0 acts ->
  forall i c j, s_cons s !! i = Some c -> registered c -> sc_seq c < j <= s_cursor s ->
    s_contents (s_log s) !! Z.to_nat j = Some (s_heap s (s_slots s (ring_index (sr_k r) j))).
Proof.
  intros sm r nc prog acts Hk Hcl s0 s Hg i c j Hi Hr Hj. pose proof (sinv_good sm r nc prog acts Hk Hg) as I. fold s0 in I. fold s in I.
  pose proof (cinv_good sm r nc prog acts Hk Hcl Hg) as C. fold s0 in C. fold s in C. pose proof (sl_run sm r nc prog acts) as L. fold s0 in L. fold s in L.
  pose proof (v_cons _ _ I i c Hi) as Hok. unfold scons_ok in Hok. unfold registered in Hr. pose proof (v_cur _ _ I).
  assert (Hin : i ∈ s_gating s /\ -1 <= sc_seq c) by (destruct (sc_pc c); try done; destruct Hok as (? & ? & _); (split; [done|lia])). destruct Hin as [Hin Hm].
  pose proof (v_gate _ _ I i Hin) as Hg'. unfold scseq in Hg'. rewrite Hi in Hg'.
  rewrite (k_cont _ _ _ C j); [apply (sl_vals _ _ L); lia|lia|]. split; [lia|].
  unfold written. pose proof (v_prod _ _ I) as HP. unfold sprod_ok in HP. destruct (s_todo s) as [|[b vals pub|] todo]; [rewrite HP; lia| |rewrite HP; lia].
  destruct (s_pc s); lia.
Qed.
Print Assumptions C31_unconsumed.
(** A listener that keeps an event (a shared_ptr) sees it change when the slot is reused by a publication that assigns in place. *)
Definition inplace_prog : list sop := [SClaim false [(WInPlace, 10)] true; SClaim false [(WInPlace, 11)] true; SClaim false [(WInPlace, 12)] true].
Definition inplace_acts : list sact := repeat (SC 0 false) 2 ++ repeat SP 4 ++ repeat (SC 0 false) 4 ++ repeat SP 20.
Theorem C31_held_refuted : clean false inplace_prog /\ calm_registrations mux2 (sst_new false 1 1 inplace_prog) inplace_acts /\
  exists c d, let s := srun mux2 (sst_new false 1 1 inplace_prog) inplace_acts in
    s_cons s !! 0%nat = Some c /\ d ∈ mux_delivered c /\ e_val d = 10 /\ s_heap s (e_obj d) = 12.
Proof.
  split; [repeat constructor; done|]. split; [apply calm_check; by vm_compute|]. eexists _, (SDel 0 0 10 true false). cbv zeta.
  split; [vm_compute; reflexivity|]. split; [left|]. by vm_compute.
Qed.
Print Assumptions C31_held_refuted.
(** A provider built from a model event: all slots share one object, and a listener is given an event with the content of a later one, although the ring is not full. *)
Definition model_prog : list sop := [SClaim false [(WInPlace, 10)] true; SClaim false [(WInPlace, 11)] true].
Definition model_acts : list sact := repeat (SC 0 false) 2 ++ repeat SP 4 ++ [SC 0 false] ++ repeat SP 20 ++ repeat (SC 0 false) 6.
Theorem C31_model_event_refuted : calm_registrations mux2 (sst_new true 1 1 model_prog) model_acts /\ publishes_each model_prog /\
  exists c d, let s := srun mux2 (sst_new true 1 1 model_prog) model_acts in
    s_cons s !! 0%nat = Some c /\ d ∈ mux_delivered c /\ e_seq d = 0 /\ s_contents (s_log s) !! 0%nat = Some 10 /\ e_val d = 11.
Proof.
  split; [apply calm_check; by vm_compute|]. split; [repeat constructor; done|]. eexists _, (SDel 0 0 11 true false). cbv zeta.
  split; [vm_compute; reflexivity|]. split; [left|]. by vm_compute.
Qed.
Print Assumptions C31_model_event_refuted.
Example C31_met : let s0 := sst_new true 1 1 [SClaim false [v_ 10] true; SClaim false [v_ 11] true; SClaim false [v_ 12] true] in
  let s := srun mux2 s0 inplace_acts in only_fresh (s_todo s0) /\ ((fun c => e_obj <$> mux_delivered c) <$> s_cons s) = [[2]] /\ s_heap s 2 = 10 /\ s_next s = 2.
Proof. cbv zeta. split; [repeat constructor|]. by vm_compute. Qed.

