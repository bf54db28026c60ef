(** * Properties of the multi-producer ring and its consumers: C24, C25, C26, C49.
    [wf_ring r nc]: 2 to 2^30 slots; every consumer holds back the producers, directly (it is a gating sequence) or through one that depends on it.
    Everything below holds for any number of producers, consumers, claims and any schedule. *)
From stdpp Require Import prelude list_numbers.
From Coq Require Import ZArith Lia ZifyBool.
From Verif Require Import Base MultiRing_Model MultiRing_Spec MultiRing_Proofs MultiRing_Log MultiRing_Wrap MultiRing_Live.
Local Open Scope Z_scope.

(** ** C24. *)
(** Granted claims are consecutive intervals, in the order of granting, starting at 0: no overlap, no gap; each thread's results
    answer its calls in order, with the requested length. *)
Theorem C24_unique : forall r nc progs acts, let s := mrun r (mst_new nc progs) acts in
  contiguous 0 (granted (m_log s)) = Some (m_cursor s + 1) /\
  (forall t prog, progs !! t = Some prog -> exists past rest, prog = past ++ rest /\ Forall2 matches past (results_of t (m_log s))).
Proof.
  intros r nc progs acts s. pose proof (linv_run r nc progs acts) as L. fold s in L. split; [apply L|]. intros t prog Hprog.
  destruct (m_prods s !! t) as [p|] eqn:Hp.
  2:{ apply lookup_ge_None in Hp. rewrite (l_len _ _ L) in Hp. apply lookup_lt_Some in Hprog. lia. }
  destruct (l_prog _ _ L t p prog Hp Hprog) as (past & E & H). destruct (writing (pr_pc p)).
  - destruct H as (c & todo & E2 & H). exists (past ++ [c]), todo. split; [by rewrite <-app_assoc, E, E2|done].
  - eauto.
Qed.
Print Assumptions C24_unique.
(** No claim covers a slot with an event some consumer has not finished with. Partial: while fewer than 2^31 sequences have been
    claimed, or for ever if only next() is used. *)
Theorem C93_no_overrun : forall r nc progs acts, wf_ring r nc -> let s := mrun r (mst_new nc progs) acts in
  (m_cursor s < 2^31 \/ only_next progs) ->
  forall i c j j', m_cons s !! i = Some c -> co_seq c < j -> j < j' <= m_cursor s -> ring_index (rg_k r) j <> ring_index (rg_k r) j'.
Proof.
  intros r nc progs acts W s Hb i c j j' Hi Hj Hj' E. pose proof (minv_run r nc progs acts W Hb) as I. fold s in I.
  pose proof (wf_k _ _ W) as Hk. pose proof (rsize_pos (rg_k r) ltac:(lia)).
  assert (Hw : m_cursor s - rsize (rg_k r) <= co_seq c).
  { pose proof (prot_window r nc s W I i) as Hw. unfold cseq in Hw. rewrite Hi in Hw. apply Hw. apply (wf_prot _ _ W). rewrite <-(i_nc _ _ _ I). by eapply lookup_lt_Some. }
  rewrite !ring_index_mod in E by lia. apply mod_window in E; lia.
Qed.
Print Assumptions C93_no_overrun.
(** A try_next is refused only if it asks for more than the ring has, or if at some moment during the call there was not room. *)
Theorem C24_refusal_justified : forall r nc progs acts t ok, let s := mrun r (mst_new nc progs) acts in
  m_log (mstep r s (AProd t ok)) = m_log s ++ [(t, RRefused)] ->
  exists c todo, in_call s t c todo /\
    (rsize (rg_k r) < cl_n c \/
     exists acts1, acts1 `prefix_of` acts /\ in_call (mrun r (mst_new nc progs) acts1) t c todo /\ no_room r (mrun r (mst_new nc progs) acts1) (cl_n c)).
Proof. exact refused_why. Qed.
Print Assumptions C24_refusal_justified.
(** Nothing larger than the ring is ever granted (next(n) with such n never returns). *)
Theorem C93_claim_fits : forall r nc progs acts, wf_ring r nc -> let s := mrun r (mst_new nc progs) acts in
  (m_cursor s < 2^31 \/ only_next progs) -> Forall (fun p => Z.of_nat (length p.2) <= rsize (rg_k r)) (granted (m_log s)).
Proof.
  intros r nc progs acts W. induction acts as [|a acts IH] using rev_ind; cbv zeta in *; intros Hb; [constructor|].
  pose proof (minv_run r nc progs (acts ++ [a]) W Hb) as I'. rewrite mrun_snoc in *. set (s := mrun r (mst_new nc progs) acts) in *.
  assert (Hb0 : m_cursor s < 2^31 \/ only_next progs). { destruct Hb as [Hb|]; [|by right]. left. pose proof (step_cursor r s a). lia. }
  pose proof (minv_run r nc progs acts W Hb0) as I. fold s in I. specialize (IH Hb0).
  destruct a as [t ok|i th]; cbn [mstep] in *.
  2:{ destruct (cons_log r s i th) as (-> & _). done. }
  pose proof (prod_cons r s t ok) as Econs.
  destruct (prod_shape r s t ok) as [|s' p p' c todo Ht Hp Hw Ha Hl Hv Hc|s' lo i c todo Ht Hp Hl Hv Hc|s' p c todo res Ht Hw Hp Hl Hr Hv Hc|s' cur c todo Ht Hcur Hp Hl Hv Hc]; rewrite ?Hl; try done.
  - rewrite granted_snoc. destruct Hr as [[-> _]|[-> _]]; by rewrite app_nil_r.
  - rewrite granted_snoc. apply Forall_app. split; [done|]. constructor; [|done]. cbn [snd].
    destruct (gate_ex r nc s W I) as (g & cg & Hg & Ec). pose proof (i_gate _ _ _ I' g Hg) as H1. rewrite Econs in H1. unfold cseq in H1. rewrite Ec in H1.
    destruct (i_cons _ _ _ I g cg Ec) as (_ & (H & _) & _). fold (cl_n c). lia.
Qed.
Print Assumptions C93_claim_fits.
(** Without the bound the claim is false, for every ring size: has_available_capacity takes the 64-bit cursor as int.
    After 2^31 + 1 events, try_next grants slots that the consumer has not read: it is given another event than the one published
    (no undefined behaviour is involved in this execution). *)
Theorem C93_no_overrun_refuted : forall k, 1 <= k <= 30 -> wf_ring (ring1 k) 1 /\
  exists progs acts c d, let s := mrun (ring1 k) (mst_new 1 progs) acts in
    m_ub s = false /\ m_cons s !! 0%nat = Some c /\ d ∈ co_log c /\ granted_events (m_log s) !! Z.to_nat (d_seq d) <> Some (d_val d).
Proof.
  intros k Hk. split.
  - constructor; cbn; try done.
    + intros i Hi. apply elem_of_list_singleton in Hi as ->. lia.
    + intros i d Hd. unfold deps_of in Hd. destruct (rg_deps (ring1 k) !! i) as [l|] eqn:E; [|by apply elem_of_nil in Hd].
      apply elem_of_list_lookup_2 in E. cbn in E. apply elem_of_list_singleton in E as ->. by apply elem_of_nil in Hd.
    + intros i Hi. apply prot_gate. cbn. replace i with 0%nat by lia. set_solver.
  - destruct (wrap_overwrites k Hk) as (acts & c & d & H1 & H2 & H3 & H4 & H5). exists [wrap_prog k], acts, c, d. cbv zeta.
    split; [done|]. split; [done|]. split; [done|]. rewrite H5, H4. done.
Qed.
Print Assumptions C93_no_overrun_refuted.
(** And the call made when exactly 2^31 sequences have been claimed has undefined behaviour (int overflow). *)
Theorem C93_overflow_refuted : forall k, 1 <= k -> exists progs acts, m_ub (mrun (ring1 k) (mst_new 1 progs) acts) = true.
Proof. intros k Hk. destruct (wrap_overflows k Hk) as [acts H]. eauto. Qed.
Print Assumptions C93_overflow_refuted.

(** ** C25. *)
(** A slot that its producer has claimed and not yet published is not in any batch given to a consumer, nor was it ever handled. *)
Theorem C25_only_published : forall r nc progs acts, wf_ring r nc -> let s := mrun r (mst_new nc progs) acts in
  (m_cursor s < 2^31 \/ only_next progs) ->
  forall t lo i cl todo j, m_prods s !! t = Some (Prod (MWrite lo i) (cl :: todo)) \/ m_prods s !! t = Some (Prod (MFlag lo i) (cl :: todo)) ->
    (match m_prods s !! t with Some (Prod (MFlag _ _) _) => lo + Z.of_nat i | _ => lo end) <= j < lo + cl_n cl ->
    forall n c, m_cons s !! n = Some c -> Forall (fun d => d_seq d < j) (co_log c) /\ (forall nx avail, co_pc c = CHandle nx avail -> avail < j).
Proof.
  intros r nc progs acts W s Hb t lo i cl todo j Ht Hj n c Hc. pose proof (minv_run r nc progs acts W Hb) as I. fold s in I.
  assert (Hown : exists p, m_prods s !! t = Some p /\ owns p j).
  { destruct Ht as [Ht|Ht]; rewrite Ht in *; eexists; (split; [done|]); cbn; lia. }
  destruct Hown as (p & Hp & Hown). destruct (owns_facts r s p j (i_prod _ _ _ I t p Hp) Hown) as [H1 H2].
  destruct (i_cons _ _ _ I n c Hc) as (A & B & D & E & F & G & K).
  assert (Hpub : forall v, (forall x, 0 <= x <= v -> m_pub s x = true) -> v < j).
  { intros v Hv. destruct (Z.lt_ge_cases v j); [done|]. rewrite (Hv j) in H2 by lia. done. }
  assert (Hpos : pos c < j).
  { unfold pos. destruct (co_pc c); try by apply Hpub.
    - destruct E as (E1 & _ & E2). apply Hpub in E2. lia.
    - destruct E as (E1 & _ & E2). by apply Hpub in E2. }
  split.
  - apply Forall_forall. intros d Hd. assert (d_seq d ∈ seqZ 0 (pos c + 1)) as Hin by (rewrite <-F; by apply elem_of_list_fmap_1).
    apply elem_of_seqZ in Hin. lia.
  - intros nx avail Epc. rewrite Epc in E. apply Hpub, E.
Qed.
Print Assumptions C25_only_published.
(** So what a consumer is given is exactly what was published, in the order of the sequences. *)
Theorem C25_content : forall r nc progs acts, wf_ring r nc -> let s := mrun r (mst_new nc progs) acts in
  (m_cursor s < 2^31 \/ only_next progs) ->
  forall n c, m_cons s !! n = Some c -> d_val <$> co_log c = take (length (co_log c)) (granted_events (m_log s)).
Proof.
  intros r nc progs acts W s Hb n c Hc. pose proof (minv_run r nc progs acts W Hb) as I. fold s in I.
  pose proof (linv_run r nc progs acts) as L. fold s in L. destruct (l_vals _ _ L) as [V1 V2].
  destruct (i_cons _ _ _ I n c Hc) as (A & (B & _) & D & E & F & G & K).
  assert (Hlen : Z.of_nat (length (co_log c)) = pos c + 1 /\ pos c <= m_cursor s).
  { pose proof (f_equal length F) as Hl. rewrite fmap_length, seqZ_length in Hl. unfold pos in *.
    destruct (co_pc c); try lia; destruct E as (E1 & (E2 & _) & _); lia. }
  apply list_eq. intros x. rewrite list_lookup_fmap. destruct (decide (x < length (co_log c))%nat) as [Hx|Hx].
  - rewrite lookup_take by done. destruct (lookup_lt_is_Some_2 _ _ Hx) as [d Hd]. rewrite Hd. cbn.
    pose proof (f_equal (fun l => l !! x) F) as Hq. cbn in Hq. rewrite list_lookup_fmap, Hd in Hq. cbn in Hq.
    symmetry in Hq. apply lookup_seqZ in Hq as [Hq Hlt].
    rewrite Forall_forall in G. rewrite (G d) by (by eapply elem_of_list_lookup_2). rewrite Hq.
    replace x with (Z.to_nat (0 + Z.of_nat x)) at 2 by lia. symmetry. apply V2. lia.
  - rewrite lookup_take_ge by lia. rewrite lookup_ge_None_2 by lia. done.
Qed.
Print Assumptions C25_content.
(** is_available tells exactly whether the sequence has been published. *)
Theorem C25_is_available : forall r nc progs acts, wf_ring r nc -> let s := mrun r (mst_new nc progs) acts in
  (m_cursor s < 2^31 \/ only_next progs) ->
  forall j, 0 <= j -> m_cursor s - rsize (rg_k r) < j <= m_cursor s ->
    (m_flags s (flag_index (rg_k r) j) = avail_flag (rg_k r) j <-> m_pub s j = true).
Proof.
  intros r nc progs acts W s Hb j H0 Hj. pose proof (minv_run r nc progs acts W Hb) as I. fold s in I.
  pose proof (flag_pub r nc s j W I H0 Hj). destruct (m_pub s j); [apply Z.eqb_eq in H|apply Z.eqb_neq in H]; split; done.
Qed.
Print Assumptions C25_is_available.
Theorem C25_all_published : forall r nc progs acts, wf_ring r nc -> let s := mrun r (mst_new nc progs) acts in
  (m_cursor s < 2^31 \/ only_next progs) -> producers_idle s -> forall j, 0 <= j <= m_cursor s -> m_pub s j = true.
Proof.
  intros r nc progs acts W s Hb Hidle j Hj. pose proof (minv_run r nc progs acts W Hb) as I. fold s in I.
  destruct (i_own _ _ _ I j Hj) as [|(t & p & Hp & Hown)]; [done|]. specialize (Hidle t p Hp). destruct p as [pc l]. cbn in Hidle. by subst.
Qed.
Print Assumptions C25_all_published.

(** Every published prefix becomes visible: under every fair schedule (the schedule is cut in rounds, in each of which the consumer
    takes a step, together with any number of steps of anybody), once the consumers it depends on have passed T, a consumer has
    passed T after at most (T + 1) * (2 * size + 2 * dependencies + 12) rounds. *)
Theorem C25_becomes_visible : forall r nc progs acts rounds n T, wf_ring r nc -> (n < nc)%nat ->
  let s := mrun r (mst_new nc progs) acts in let s' := mrun r (mst_new nc progs) (acts ++ concat rounds) in
  (m_cursor s' < 2^31 \/ only_next progs) ->
  (forall j, 0 <= j <= T -> m_pub s j = true) ->
  (forall d cd, d ∈ deps_of r n -> m_cons s !! d = Some cd -> T <= co_seq cd) ->
  Forall (fun round => exists throws, ACons n throws ∈ round) rounds ->
  (T + 1) * (2 * rsize (rg_k r) + 2 * Z.of_nat (length (deps_of r n)) + 12) <= Z.of_nat (length rounds) ->
  forall c, m_cons s' !! n = Some c -> T < Z.of_nat (length (co_log c)).
Proof.
  intros r nc progs acts rounds n T W Hn s s' Hb Hpub Hdeps Hr Hlen c Hc.
  assert (Hlive : T <= cseq (m_cons s') n).
  { apply (live_consumer r nc progs acts rounds n T W Hn Hb Hpub); [|done|done]. intros d Hd. fold s. unfold cseq.
    destruct (m_cons s !! d) as [cd|] eqn:E; [by eapply Hdeps|]. exfalso. apply lookup_ge_None in E.
    assert (Hb0 : m_cursor s < 2^31 \/ only_next progs).
    { destruct Hb as [Hb|]; [|by right]. left. unfold s' in Hb. rewrite mrun_app in Hb. fold s in Hb. pose proof (run_cursor r s (concat rounds)). lia. }
    pose proof (minv_run r nc progs acts W Hb0) as M. fold s in M. rewrite (i_nc _ _ _ M) in E. pose proof (wf_deps_in _ _ W n d Hd). lia. }
  unfold cseq in Hlive. rewrite Hc in Hlive. pose proof (minv_run r nc progs _ W Hb) as M.
  destruct (i_cons _ _ _ M n c Hc) as (A & (B & _) & D & E & F & G & Kk).
  pose proof (f_equal length F) as Hl. rewrite fmap_length, seqZ_length in Hl. unfold pos in *. destruct (co_pc c); try lia; destruct E; lia.
Qed.
Print Assumptions C25_becomes_visible.

(** ** C26. *)
Theorem C26_exactly_once : forall r nc progs acts, wf_ring r nc -> let s := mrun r (mst_new nc progs) acts in
  (m_cursor s < 2^31 \/ only_next progs) ->
  forall n c, m_cons s !! n = Some c -> d_seq <$> co_log c = seqZ 0 (Z.of_nat (length (co_log c))) /\ co_seq c < Z.of_nat (length (co_log c)).
Proof.
  intros r nc progs acts W s Hb n c Hc. pose proof (minv_run r nc progs acts W Hb) as I. fold s in I.
  destruct (i_cons _ _ _ I n c Hc) as (A & (B & _) & D & E & F & G & K).
  assert (Hl : Z.of_nat (length (co_log c)) = pos c + 1 /\ co_seq c <= pos c).
  { pose proof (f_equal length F) as Hl. rewrite fmap_length, seqZ_length in Hl. unfold pos in *. destruct (co_pc c); try lia; destruct E; lia. }
  destruct Hl as [-> Hl]. split; [done|lia].
Qed.
Print Assumptions C26_exactly_once.
(** End-of-batch marks: between batches the last event handled carried the mark (or its handler threw); inside a batch it carries it
    exactly when no event of the batch is left. *)
Theorem C26_end_of_batch : forall r nc progs acts, wf_ring r nc -> let s := mrun r (mst_new nc progs) acts in
  (m_cursor s < 2^31 \/ only_next progs) ->
  forall n c d, m_cons s !! n = Some c -> last (co_log c) = Some d ->
    (co_pc c = CWait -> d_end d = true \/ d_threw d = true) /\
    (forall nx avail, co_pc c = CHandle nx avail -> co_seq c + 1 < nx -> d_threw d = false /\ d_end d = (nx - 1 =? avail)).
Proof.
  intros r nc progs acts W s Hb n c d Hc Hd. pose proof (minv_run r nc progs acts W Hb) as I. fold s in I.
  destruct (i_cons _ _ _ I n c Hc) as (A & (B & _) & D & E & F & G & K). unfold batch_end in K. rewrite Hd in K. split.
  - intros Epc. by rewrite Epc in K.
  - intros nx avail Epc Hlt. rewrite Epc in K. rewrite decide_False in K by lia. done.
Qed.
Print Assumptions C26_end_of_batch.

(** ** C49. *)
Theorem C49_after_dependencies : forall r nc progs acts, wf_ring r nc -> let s := mrun r (mst_new nc progs) acts in
  (m_cursor s < 2^31 \/ only_next progs) ->
  forall n c d cd, m_cons s !! n = Some c -> d ∈ deps_of r n -> m_cons s !! d = Some cd ->
    Z.of_nat (length (co_log c)) <= co_seq cd + 1 /\ (length (co_log c) <= length (co_log cd))%nat.
Proof.
  intros r nc progs acts W s Hb n c d cd Hc Hd Hcd. pose proof (minv_run r nc progs acts W Hb) as I. fold s in I.
  destruct (C26_exactly_once r nc progs acts W Hb d cd Hcd) as [_ H2].
  destruct (i_cons _ _ _ I n c Hc) as (A & (B & B2) & D & E & F & G & K).
  assert (Hle : Z.of_nat (length (co_log c)) <= co_seq cd + 1).
  { pose proof (f_equal length F) as Hl. rewrite fmap_length, seqZ_length in Hl. unfold pos in *.
    specialize (B2 d Hd). unfold cseq in B2. rewrite Hcd in B2.
    destruct (co_pc c); try lia; destruct E as (E1 & (E2 & E3) & _); specialize (E3 d Hd); unfold cseq in E3; rewrite Hcd in E3; lia. }
  split; [done|]. lia.
Qed.
Print Assumptions C49_after_dependencies.

(** ** A case: 4 slots, two producers, a chain of two consumers (the second depends on the first; only the second gates), one exception. *)
Definition ring_ex : ring := Ring 2 [1%nat] [[]; [0%nat]].
Lemma ring_ex_wf : wf_ring ring_ex 2.
Proof.
  constructor; cbn; try done.
  - intros i Hi. apply elem_of_list_singleton in Hi as ->. lia.
  - intros i d Hd. unfold deps_of in Hd. destruct (rg_deps ring_ex !! i) as [l|] eqn:E; [|by apply elem_of_nil in Hd].
    apply elem_of_list_lookup_2 in E. cbn in E. apply elem_of_cons in E as [->|E]; [by apply elem_of_nil in Hd|].
    apply elem_of_list_singleton in E as ->. apply elem_of_list_singleton in Hd as ->. lia.
  - assert (H1 : prot ring_ex 1) by (apply prot_gate; cbn; set_solver).
    intros [|[|i]] Hi; [apply (prot_dep _ 0 1); [done|cbn; set_solver]|done|lia].
Qed.
Definition rep (n : nat) (a : mact) : list mact := repeat a n.
Definition acts_ex : list mact :=
  rep 12 (AProd 0 true) ++ rep 5 (AProd 1 true) ++ rep 9 (ACons 0 true) ++ rep 9 (ACons 0 false) ++ rep 6 (AProd 1 true) ++ rep 20 (ACons 1 false) ++ rep 30 (AProd 0 true) ++ rep 12 (ACons 0 false).
Example multi_case :
  let s := mrun ring_ex (mst_new 2 [[Claim true [10; 11]; Claim false [14; 15]; Claim false [16]]; [Claim false [12; 13]; Claim false []]]) acts_ex in
  m_cursor s < 2^31 /\
  m_log s = [(0%nat, RClaimed 0 [10; 11]); (1%nat, RClaimed 2 [12; 13]); (1%nat, RBadArg); (0%nat, RClaimed 4 [14; 15]); (0%nat, RRefused)] /\
  (co_log <$> m_cons s) =
    [[Delivery 0 10 false true; Delivery 1 11 true false; Delivery 2 12 false false; Delivery 3 13 false false; Delivery 4 14 false false; Delivery 5 15 true false];
     [Delivery 0 10 false false; Delivery 1 11 true false]].
Proof. vm_compute. done. Qed.
(** Meeting the hypotheses of C25_only_published: a producer in the middle of writing, a consumer in a batch. *)
Example multi_case2 :
  let s := mrun ring_ex (mst_new 2 [[Claim true [10; 11]]; [Claim false [12; 13]]]) (rep 14 (AProd 0 true) ++ rep 5 (AProd 1 true) ++ rep 4 (ACons 0 false)) in
  m_cursor s < 2^31 /\ (exists p q, m_prods s = [p; Prod (MWrite 2 1) q]) /\ exists c d, m_cons s = [c; d] /\ co_pc c = CHandle 0 1.
Proof. vm_compute. split; [done|]. split; eauto. Qed.
