From stdpp Require Import prelude list_numbers.
From Coq Require Import ZArith Lia ZifyBool.
From Verif Require Import Base MultiRing_Model.
Local Open Scope Z_scope.

(** ** Arithmetic of the ring. *)
Lemma wrap32_id z : - 2^31 <= z < 2^31 -> wrap32 z = z.
Proof. intros H. unfold wrap32. rewrite Z.mod_small; lia. Qed.
Lemma wrap32_le z : - 2^31 <= z -> wrap32 z <= z.
Proof. intros H. unfold wrap32. pose proof (Z.mod_le (z + 2^31) (2^32) ltac:(lia) ltac:(lia)). lia. Qed.
Lemma wrap32_ge z : - 2^31 <= wrap32 z.
Proof. unfold wrap32. pose proof (Z.mod_pos_bound (z + 2^31) (2^32) ltac:(lia)). lia. Qed.
Lemma wrap32_eqm z : exists q, wrap32 z = z + q * 2^32.
Proof. unfold wrap32. exists (- ((z + 2^31) / 2^32)). pose proof (Z.div_mod (z + 2^31) (2^32) ltac:(lia)). lia. Qed.
Lemma wrap32_neq z d : 0 < d < 2^32 -> wrap32 (z - d) <> wrap32 z.
Proof. intros H. destruct (wrap32_eqm (z - d)) as [q ->], (wrap32_eqm z) as [q' ->]. lia. Qed.
Lemma rsize_pos k : 0 <= k -> 0 < rsize k.
Proof. intros. unfold rsize. apply Z.pow_pos_nonneg; lia. Qed.
Lemma ring_index_mod k seq : 0 <= k -> ring_index k seq = seq mod rsize k.
Proof. intros H. unfold ring_index, rsize. rewrite <-Z.land_ones by done. f_equal. rewrite Z.ones_equiv. lia. Qed.
Lemma flag_index_mod k seq : 0 <= k <= 32 -> flag_index k seq = seq mod rsize k.
Proof.
  intros H. unfold flag_index. fold (ring_index k (wrap32 seq)). rewrite ring_index_mod by lia.
  destruct (wrap32_eqm seq) as [q ->]. unfold rsize.
  replace (2^32) with (2^(32 - k) * 2^k) by (rewrite <-Z.pow_add_r by lia; f_equal; lia).
  rewrite Z.mul_assoc. apply Z.mod_add. pose proof (Z.pow_pos_nonneg 2 k). lia.
Qed.
Lemma mod_window N a b : 0 < N -> a mod N = b mod N -> - N < a - b < N -> a = b.
Proof.
  intros HN He Hd. pose proof (Z.div_mod a N ltac:(lia)). pose proof (Z.div_mod b N ltac:(lia)).
  assert (a - b = N * (a / N - b / N)) by lia. assert (a / N - b / N = 0) by nia. lia.
Qed.
Lemma avail_flag_prev k seq : 0 <= k <= 30 -> rsize k <= seq -> avail_flag k (seq - rsize k) <> avail_flag k seq.
Proof.
  intros Hk Hs. unfold avail_flag, rsize in *. rewrite !Z.shiftr_div_pow2 by lia.
  replace ((seq - 2^k) / 2^k) with (seq / 2^k - 1).
  - apply wrap32_neq. lia.
  - replace (seq - 2^k) with (seq + (-1) * 2^k) by lia. rewrite Z.div_add; [lia|]. pose proof (Z.pow_pos_nonneg 2 k). lia.
Qed.
Lemma avail_flag_first k seq : 0 <= k <= 30 -> 0 <= seq < rsize k -> avail_flag k seq = 0.
Proof. intros Hk Hs. unfold avail_flag, rsize in *. rewrite Z.shiftr_div_pow2 by lia. rewrite Z.div_small by lia. done. Qed.

Lemma fupd_eq {A} (f : Z -> A) i v j : j = i -> fupd f i v j = v.
Proof. intros ->. unfold fupd. by rewrite Z.eqb_refl. Qed.
Lemma fupd_ne {A} (f : Z -> A) i v j : j <> i -> fupd f i v j = f j.
Proof. intros H. unfold fupd. destruct (Z.eqb_spec j i); done. Qed.

(** ** Well-formed configurations: every consumer holds back the producers, directly or through a
    consumer that depends on it. *)
Inductive prot (r : ring) : nat -> Prop :=
| prot_gate i : i ∈ rg_gating r -> prot r i
| prot_dep i j : prot r j -> i ∈ deps_of r j -> prot r i.
Record wf_ring (r : ring) (nc : nat) : Prop := {
  wf_k : 1 <= rg_k r <= 30;
  wf_gate : rg_gating r <> [];
  wf_gate_in : forall i, i ∈ rg_gating r -> (i < nc)%nat;
  wf_deps_in : forall i d, d ∈ deps_of r i -> (d < nc)%nat;
  wf_prot : forall i, (i < nc)%nat -> prot r i
}.

Definition gle (r : ring) (s : mst) (x : Z) : Prop := forall g, g ∈ rg_gating r -> x <= cseq (m_cons s) g.
Definition good (c : claim) (cur : Z) : Prop := cl_blocking c = true \/ cur + cl_n c < 2^31.

Definition owns (p : prod) (seq : Z) : Prop :=
  match p with
  | Prod (MWrite lo i) (c :: _) => lo <= seq < lo + cl_n c
  | Prod (MFlag lo i) (c :: _) => lo + Z.of_nat i <= seq < lo + cl_n c
  | _ => False
  end.
Definition slot (r : ring) (s : mst) (seq : Z) : Z := m_slots s (ring_index (rg_k r) seq).
Definition prod_ok (r : ring) (s : mst) (p : prod) : Prop :=
  match p with
  | Prod pc [] => pc = MIdle
  | Prod pc (c :: _) =>
      (pc <> MIdle -> 1 <= cl_n c) /\
      match pc with
      | MIdle | MStart => True
      | MCap cur => -1 <= cur <= m_cursor s
      | MScan cur i m => -1 <= cur <= m_cursor s /\ m <= cur /\ (forall g, g ∈ take i (rg_gating r) -> m <= cseq (m_cons s) g)
      | MCheck cur m => -1 <= cur <= m_cursor s /\ m <= cur /\ gle r s m
      | MCas cur => -1 <= cur <= m_cursor s /\ (good c cur -> gle r s (cur + cl_n c - rsize (rg_k r)))
      | MWrite lo i => 0 <= lo /\ lo + cl_n c - 1 <= m_cursor s /\
          (forall j v, cl_vals c !! j = Some v -> m_vals s (lo + Z.of_nat j) = v /\ m_pub s (lo + Z.of_nat j) = false) /\
          (forall j, (j < i)%nat -> Z.of_nat j < cl_n c -> slot r s (lo + Z.of_nat j) = m_vals s (lo + Z.of_nat j))
      | MFlag lo i => 0 <= lo /\ lo + cl_n c - 1 <= m_cursor s /\
          (forall j, (i <= j)%nat -> Z.of_nat j < cl_n c -> slot r s (lo + Z.of_nat j) = m_vals s (lo + Z.of_nat j) /\ m_pub s (lo + Z.of_nat j) = false)
      end
  end.
(** Last sequence handed to the handler. *)
Definition pos (c : cons) : Z := match co_pc c with CHandle nx _ => nx - 1 | CSet v => v | _ => co_seq c end.
Definition batch_end (c : cons) : Prop :=
  match last (co_log c) with
  | None => match co_pc c with CHandle nx avail => nx = co_seq c + 1 | _ => True end
  | Some d => match co_pc c with
              | CHandle nx avail => if decide (nx = co_seq c + 1) then d_end d = true \/ d_threw d = true
                                    else d_threw d = false /\ d_end d = (nx - 1 =? avail)
              | _ => d_end d = true \/ d_threw d = true
              end
  end.
Definition cons_ok (r : ring) (s : mst) (i : nat) (c : cons) : Prop :=
  let below v := v <= m_cursor s /\ (forall d, d ∈ deps_of r i -> v <= cseq (m_cons s) d) in
  let published v := forall j, 0 <= j <= v -> m_pub s j = true in
  -1 <= co_seq c /\ below (co_seq c) /\ published (co_seq c) /\
  match co_pc c with
  | CWait => True
  | CDeps j m => (1 <= j)%nat /\ deps_of r i <> [] /\ m <= m_cursor s /\ (forall d, d ∈ take j (deps_of r i) -> m <= cseq (m_cons s) d)
  | CAvail seq avail => co_seq c + 1 <= seq <= avail + 1 /\ below avail /\ published (seq - 1)
  | CHandle nx avail => co_seq c + 1 <= nx <= avail + 1 /\ below avail /\ published avail
  | CSet v => co_seq c <= v /\ below v /\ published v
  end /\
  d_seq <$> co_log c = seqZ 0 (pos c + 1) /\ Forall (fun d => d_val d = m_vals s (d_seq d)) (co_log c) /\ batch_end c.

Record MInv (r : ring) (nc : nat) (s : mst) : Prop := {
  i_nc : length (m_cons s) = nc;
  i_cur : -1 <= m_cursor s;
  i_gate : gle r s (m_cursor s - rsize (rg_k r));
  i_cache : gle r s (m_cache s) /\ m_cache s <= m_cursor s;
  i_prod : forall t p, m_prods s !! t = Some p -> prod_ok r s p;
  i_cons : forall i c, m_cons s !! i = Some c -> cons_ok r s i c;
  i_disj : forall t u p q seq, t <> u -> m_prods s !! t = Some p -> m_prods s !! u = Some q -> owns p seq -> owns q seq -> False;
  i_own : forall seq, 0 <= seq <= m_cursor s -> m_pub s seq = true \/ exists t p, m_prods s !! t = Some p /\ owns p seq;
  i_pub : forall seq, m_pub s seq = true -> 0 <= seq <= m_cursor s;
  i_flags : forall seq, 0 <= seq -> m_cursor s - rsize (rg_k r) < seq <= m_cursor s ->
     m_flags s (flag_index (rg_k r) seq) =
       (if m_pub s seq then avail_flag (rg_k r) seq else if seq <? rsize (rg_k r) then -1 else avail_flag (rg_k r) (seq - rsize (rg_k r)));
  i_init : forall seq, m_cursor s < seq < rsize (rg_k r) -> m_flags s (flag_index (rg_k r) seq) = -1;
  i_slots : forall seq, m_cursor s - rsize (rg_k r) < seq <= m_cursor s -> m_pub s seq = true -> slot r s seq = m_vals s seq
}.

(** ** What only grows. *)
Record mle (s s' : mst) : Prop := {
  le_cur : m_cursor s <= m_cursor s';
  le_seq : forall i, cseq (m_cons s) i <= cseq (m_cons s') i;
  le_vals : forall j, j <= m_cursor s -> m_vals s' j = m_vals s j;
  le_pub : forall j, m_pub s j = true -> m_pub s' j = true
}.
Lemma gle_mono r s s' x : mle s s' -> gle r s x -> gle r s' x.
Proof. intros [_ H _ _] Hg g Hin. specialize (Hg g Hin). specialize (H g). lia. Qed.
Lemma cons_ok_mono r s s' i c : mle s s' -> cons_ok r s i c -> cons_ok r s' i c.
Proof.
  intros [H1 H2 H3 H4] (A & (B1 & B2) & C & D & E & F & G).
  assert (Hd : forall v, (forall d, d ∈ deps_of r i -> v <= cseq (m_cons s) d) -> forall d, d ∈ deps_of r i -> v <= cseq (m_cons s') d).
  { intros v Hv d Hd. specialize (Hv d Hd). specialize (H2 d). lia. }
  assert (Hp : forall v, (forall j, 0 <= j <= v -> m_pub s j = true) -> forall j, 0 <= j <= v -> m_pub s' j = true) by auto.
  split; [done|]. split; [split; [lia|auto]|]. split; [auto|]. split; [|split; [done|split; [|done]]].
  - destruct (co_pc c) as [|j m|seq avail|nx avail|v]; [done|..].
    + destruct D as (D1 & D2 & D3 & D4). split; [done|]. split; [done|]. split; [lia|]. intros d Hin. specialize (D4 d Hin). specialize (H2 d). lia.
    + destruct D as (D1 & (D2 & D3) & D4). split; [done|]. split; [split; [lia|auto]|auto].
    + destruct D as (D1 & (D2 & D3) & D4). split; [done|]. split; [split; [lia|auto]|auto].
    + destruct D as (D1 & (D2 & D3) & D4). split; [done|]. split; [split; [lia|auto]|auto].
  - rewrite Forall_forall in F. apply Forall_forall. intros d Hd'. rewrite (F d Hd'). symmetry. apply H3.
    assert (d_seq d ∈ seqZ 0 (pos c + 1)) as Hin by (rewrite <-E; by apply elem_of_list_fmap_1).
    apply elem_of_seqZ in Hin. unfold pos in Hin.
    destruct (co_pc c) as [|j m|seq avail|nx avail|v]; lia.
Qed.
(** A producer not in the write phase. *)
Definition quiet (p : prod) : Prop := forall seq, ~ owns p seq.
Lemma prod_ok_frame r s s' p : mle s s' ->
  (forall seq, owns p seq -> m_pub s' seq = m_pub s seq /\ slot r s' seq = slot r s seq) ->
  prod_ok r s p -> prod_ok r s' p.
Proof.
  intros L Hf H. pose proof L as [H1 H2 H3 H4]. destruct p as [pc [|c todo]]; [done|]. destruct H as [Hn H]. split; [done|].
  destruct pc as [| |cur|cur i m|cur m|cur|lo i|lo i]; [done|done|..]; cbn [owns] in Hf.
  - lia.
  - destruct H as (A & B & C). split; [lia|]. split; [done|]. intros g Hg. specialize (C g Hg). specialize (H2 g). lia.
  - destruct H as (A & B & C). split; [lia|]. split; [done|]. by eapply gle_mono.
  - destruct H as (A & B). split; [lia|]. intros Hg. eapply gle_mono; eauto.
  - destruct H as (A & B & C & D). split; [done|]. split; [lia|]. split.
    + intros j v Hj. destruct (C j v Hj) as [C1 C2]. assert (Z.of_nat j < cl_n c) by (unfold cl_n; apply lookup_lt_Some in Hj; lia).
      rewrite H3 by lia. destruct (Hf (lo + Z.of_nat j)) as [-> _]; [lia|done].
    + intros j Hj Hlt. rewrite H3 by lia. destruct (Hf (lo + Z.of_nat j)) as [_ ->]; [lia|auto].
  - destruct H as (A & B & C). split; [done|]. split; [lia|]. intros j Hj Hlt. destruct (C j Hj Hlt) as [C1 C2].
    rewrite H3 by lia. destruct (Hf (lo + Z.of_nat j)) as [-> ->]; [lia|done].
Qed.
Lemma gle_pub r nc s seq : wf_ring r nc -> MInv r nc s -> 0 <= seq -> gle r s seq -> m_pub s seq = true.
Proof.
  intros W I H0 Hg. destruct (rg_gating r) as [|g l] eqn:Eg; [by apply wf_gate in W|].
  assert (g ∈ rg_gating r) as Hin by (rewrite Eg; left). specialize (Hg g Hin).
  assert ((g < length (m_cons s))%nat) as Hlt by (rewrite (i_nc _ _ _ I); by eapply wf_gate_in).
  destruct (lookup_lt_is_Some_2 _ _ Hlt) as [c Hc]. unfold cseq in Hg. rewrite Hc in Hg.
  destruct (i_cons _ _ _ I g c Hc) as (_ & _ & H & _). apply H. lia.
Qed.
Lemma gate_ex r nc s : wf_ring r nc -> MInv r nc s -> exists g c, g ∈ rg_gating r /\ m_cons s !! g = Some c.
Proof.
  intros W I. destruct (rg_gating r) as [|g l] eqn:Eg; [by apply wf_gate in W|].
  assert (g ∈ rg_gating r) as Hin by (rewrite Eg; left).
  assert ((g < length (m_cons s))%nat) as Hlt by (rewrite (i_nc _ _ _ I); by eapply wf_gate_in).
  destruct (lookup_lt_is_Some_2 _ _ Hlt) as [c Hc]. exists g, c. split; [left|done].
Qed.
(** An unpublished claim is inside the window. *)
Lemma unpub_window r nc s seq : wf_ring r nc -> MInv r nc s -> 0 <= seq -> m_pub s seq = false -> m_cursor s - rsize (rg_k r) < seq.
Proof.
  intros W I H0 Hp. destruct (decide (m_cursor s - rsize (rg_k r) < seq)) as [|Hn]; [done|].
  assert (gle r s seq) as Hg. { intros g Hg. pose proof (i_gate _ _ _ I g Hg). lia. }
  pose proof (gle_pub r nc s seq W I H0 Hg). congruence.
Qed.
Lemma owns_facts r s p seq : prod_ok r s p -> owns p seq -> 0 <= seq <= m_cursor s /\ m_pub s seq = false.
Proof.
  destruct p as [pc [|c todo]]; [by destruct pc|]. intros [Hn H] Ho. destruct pc as [| |cur|cur i m|cur m|cur|lo i|lo i]; try done; cbn [owns] in Ho.
  - destruct H as (A & B & C & D). split; [lia|]. assert (Z.to_nat (seq - lo) < length (cl_vals c))%nat as Hlt by (unfold cl_n in *; lia).
    destruct (lookup_lt_is_Some_2 _ _ Hlt) as [v Hv]. destruct (C _ _ Hv) as [_ Hp]. rewrite Z2Nat.id in Hp by lia. by replace (lo + (seq - lo)) with seq in Hp by lia.
  - destruct H as (A & B & C). split; [lia|]. destruct (C (Z.to_nat (seq - lo))) as [_ Hp]; [lia|lia|]. rewrite Z2Nat.id in Hp by lia. by replace (lo + (seq - lo)) with seq in Hp by lia.
Qed.
Lemma ring_index_inj r nc s a b : wf_ring r nc -> m_cursor s - rsize (rg_k r) < a <= m_cursor s -> m_cursor s - rsize (rg_k r) < b <= m_cursor s ->
  ring_index (rg_k r) a = ring_index (rg_k r) b -> a = b.
Proof.
  intros W Ha Hb. pose proof (wf_k _ _ W). rewrite !ring_index_mod by lia. intros E. eapply mod_window; [|exact E|lia].
  apply rsize_pos. lia.
Qed.
Lemma flag_index_eq r nc a b : wf_ring r nc -> flag_index (rg_k r) a = flag_index (rg_k r) b <-> ring_index (rg_k r) a = ring_index (rg_k r) b.
Proof. intros W. pose proof (wf_k _ _ W). by rewrite !flag_index_mod, !ring_index_mod by lia. Qed.

Lemma step_local r nc s t p p' cache' ub' log' : MInv r nc s -> m_prods s !! t = Some p ->
  (forall seq, owns p' seq <-> owns p seq) -> prod_ok r s p' -> gle r s cache' -> cache' <= m_cursor s ->
  MInv r nc (Mst (m_cursor s) cache' (m_flags s) (m_slots s) (<[t := p']> (m_prods s)) (m_cons s) ub' log' (m_vals s) (m_pub s)).
Proof.
  intros I Ht Ho Hp Hc1 Hc2. set (s' := Mst _ _ _ _ _ _ _ _ _ _).
  assert (L : mle s s') by (constructor; done).
  constructor; try apply I.
  - done.
  - intros u q Hu. cbn [m_prods s'] in Hu. apply list_lookup_insert_Some in Hu as [(-> & <- & _)|[Hne Hu]].
    + eapply prod_ok_frame; [exact L| |done]. done.
    + eapply prod_ok_frame; [exact L| |by eapply i_prod]. done.
  - intros u v q1 q2 seq Hne Hu Hv. cbn [m_prods s'] in Hu, Hv. 
    apply list_lookup_insert_Some in Hu as [(-> & <- & _)|[Hne1 Hu]]; apply list_lookup_insert_Some in Hv as [(E & <- & _)|[Hne2 Hv]]; try done.
    + rewrite Ho. intros H1 H2. eapply (i_disj _ _ _ I); eauto.
    + rewrite Ho. subst v. intros H1 H2. eapply (i_disj _ _ _ I u t); eauto.
    + intros H1 H2. eapply (i_disj _ _ _ I u v); eauto.
  - intros seq Hs. destruct (i_own _ _ _ I seq Hs) as [H|(u & q & Hu & Hq)]; [by left|]. right.
    destruct (decide (u = t)) as [->|Hne].
    + exists t, p'. cbn [m_prods s']. split; [by rewrite list_lookup_insert by (by eapply lookup_lt_Some)|]. apply Ho. congruence.
    + exists u, q. cbn [m_prods s']. by rewrite list_lookup_insert_ne.
Qed.

(** A successful claim. *)
Lemma step_claim r nc s t cur c todo log' : wf_ring r nc -> MInv r nc s -> m_prods s !! t = Some (Prod (MCas cur) (c :: todo)) ->
  m_cursor s = cur -> good c cur ->
  MInv r nc (Mst (cur + cl_n c) (m_cache s) (m_flags s) (m_slots s) (<[t := Prod (MWrite (cur + 1) 0) (c :: todo)]> (m_prods s)) (m_cons s) (m_ub s) log'
    (fun j => if (cur + 1 <=? j) && (j <=? cur + cl_n c) then nth (Z.to_nat (j - (cur + 1))) (cl_vals c) 0 else m_vals s j) (m_pub s)).
Proof.
  intros W I Ht Ecur Hgood. set (s' := Mst _ _ _ _ _ _ _ _ _ _).
  pose proof (i_prod _ _ _ I t _ Ht) as [Hn [_ Hg]]. specialize (Hn ltac:(done)). specialize (Hg Hgood).
  pose proof (wf_k _ _ W) as Hk. pose proof (rsize_pos (rg_k r) ltac:(lia)) as HN.
  assert (HnN : cl_n c <= rsize (rg_k r)).
  { destruct (gate_ex r nc s W I) as (g & d & Hgin & Hd). specialize (Hg g Hgin). unfold cseq in Hg. rewrite Hd in Hg.
    destruct (i_cons _ _ _ I g d Hd) as (_ & (H & _) & _). lia. }
  assert (L : mle s s').
  { constructor; cbn [s' m_cursor m_cons m_vals m_pub]; try done; [lia|]. intros j Hj.
    destruct (Z.leb_spec (cur + 1) j); [lia|]. done. }
  constructor; cbn [s' m_cursor m_cache m_flags m_slots m_prods m_cons m_vals m_pub].
  - apply I.
  - pose proof (i_cur _ _ _ I). lia.
  - exact Hg.
  - destruct (i_cache _ _ _ I). split; [done|lia].
  - intros u q Hu. apply list_lookup_insert_Some in Hu as [(-> & <- & _)|[Hne Hu]].
    + split; [done|]. cbn [m_cursor]. split; [pose proof (i_cur _ _ _ I); lia|]. split; [cbn; lia|]. split; [|intros j Hj; lia].
      intros j v Hj. assert (Z.of_nat j < cl_n c) by (unfold cl_n; apply lookup_lt_Some in Hj; lia). cbn [m_vals m_pub s'].
      split.
      * destruct (Z.leb_spec (cur + 1) (cur + 1 + Z.of_nat j)); [|lia]. destruct (Z.leb_spec (cur + 1 + Z.of_nat j) (cur + cl_n c)); [|lia].
        cbn [andb]. replace (Z.to_nat (cur + 1 + Z.of_nat j - (cur + 1))) with j by lia. by apply nth_lookup_Some.
      * destruct (m_pub s (cur + 1 + Z.of_nat j)) eqn:Ep; [|done]. apply (i_pub _ _ _ I) in Ep. lia.
    + eapply prod_ok_frame; [exact L| |by eapply i_prod]. done.
  - intros i d Hi. eapply cons_ok_mono; [exact L|]. by eapply i_cons.
  - assert (Hnew : forall u q seq, m_prods s !! u = Some q -> owns q seq -> seq <= cur).
    { intros u q seq Hu Hq. destruct (owns_facts r s q seq) as [? _]; [by eapply i_prod|done|lia]. }
    intros u v q1 q2 seq Hne Hu Hv. 
    apply list_lookup_insert_Some in Hu as [(-> & <- & _)|[Hne1 Hu]]; apply list_lookup_insert_Some in Hv as [(E & <- & _)|[Hne2 Hv]]; try done.
    + cbn [owns]. intros H1 H2. pose proof (Hnew _ _ _ Hv H2). lia.
    + cbn [owns]. intros H1 H2. pose proof (Hnew _ _ _ Hu H1). lia.
    + intros H1 H2. eapply (i_disj _ _ _ I); [exact Hne|..]; eauto.
  - intros seq Hs. destruct (decide (seq <= cur)) as [Hle|Hgt].
    + destruct (i_own _ _ _ I seq ltac:(lia)) as [H|(u & q & Hu & Hq)]; [by left|]. right.
      destruct (decide (u = t)) as [->|Hne]; [by rewrite Ht in Hu; injection Hu as <-|].
      exists u, q. by rewrite list_lookup_insert_ne.
    + right. exists t, (Prod (MWrite (cur + 1) 0) (c :: todo)). split; [by rewrite list_lookup_insert by (by eapply lookup_lt_Some)|]. cbn [owns]. lia.
  - intros seq Hs. apply (i_pub _ _ _ I) in Hs. lia.
  - intros seq H0 Hs. destruct (decide (seq <= cur)) as [Hle|Hgt]; [apply (i_flags _ _ _ I); lia|].
    assert (m_pub s seq = false) as Hp. { destruct (m_pub s seq) eqn:Ep; [|done]. apply (i_pub _ _ _ I) in Ep. lia. }
    rewrite Hp. destruct (Z.ltb_spec seq (rsize (rg_k r))) as [Hlt|Hge]; [apply (i_init _ _ _ I); lia|].
    assert (flag_index (rg_k r) seq = flag_index (rg_k r) (seq - rsize (rg_k r))) as ->.
    { rewrite !flag_index_mod by lia. replace (seq - rsize (rg_k r)) with (seq + (-1) * rsize (rg_k r)) by lia. by rewrite Z.mod_add by lia. }
    rewrite (i_flags _ _ _ I) by lia.
    assert (m_pub s (seq - rsize (rg_k r)) = true) as ->; [|done].
    eapply gle_pub; [done..|lia|]. intros g Hgg. specialize (Hg g Hgg). lia.
  - intros seq Hs. apply (i_init _ _ _ I). lia.
  - intros seq Hs Hp. pose proof (i_pub _ _ _ I seq Hp). destruct (Z.leb_spec (cur + 1) seq); [lia|]. cbn [andb].
    change (slot r s seq = m_vals s seq). apply (i_slots _ _ _ I); [lia|done].
Qed.

(** Writing an event. *)
Lemma step_write r nc s t lo i c todo v : wf_ring r nc -> MInv r nc s -> m_prods s !! t = Some (Prod (MWrite lo i) (c :: todo)) ->
  cl_vals c !! i = Some v ->
  MInv r nc (Mst (m_cursor s) (m_cache s) (m_flags s) (fupd (m_slots s) (ring_index (rg_k r) (lo + Z.of_nat i)) v)
                 (<[t := Prod (MWrite lo (S i)) (c :: todo)]> (m_prods s)) (m_cons s) (m_ub s) (m_log s) (m_vals s) (m_pub s)).
Proof.
  intros W I Ht Hv. set (s' := Mst _ _ _ _ _ _ _ _ _ _). set (w := lo + Z.of_nat i) in *.
  pose proof (i_prod _ _ _ I t _ Ht) as Hok. pose proof Hok as [Hn (A & B & C & D)].
  assert (Hi : Z.of_nat i < cl_n c) by (unfold cl_n; apply lookup_lt_Some in Hv; lia).
  assert (L : mle s s') by (constructor; done).
  assert (Hown : owns (Prod (MWrite lo i) (c :: todo)) w) by (cbn [owns]; lia).
  destruct (owns_facts _ _ _ _ Hok Hown) as [Hw Hpw]. pose proof (unpub_window r nc s w W I ltac:(lia) Hpw) as Hww.
  assert (Hslot : forall seq, m_cursor s - rsize (rg_k r) < seq <= m_cursor s -> seq <> w -> slot r s' seq = slot r s seq).
  { intros seq Hs Hne. unfold slot. cbn [s' m_slots]. apply fupd_ne. intros E. apply Hne. apply (ring_index_inj r nc s); [done|lia|lia|done]. }
  constructor; try apply I.
  - intros u q Hu. cbn [m_prods s'] in Hu. apply list_lookup_insert_Some in Hu as [(-> & <- & _)|[Hne Hu]].
    + split; [intros _; lia|]. split; [done|]. split; [done|]. split; [done|]. cbn [m_vals s'].
      intros j Hj Hlt. destruct (decide (j = i)) as [->|Hji].
      * unfold slot. cbn [m_slots s']. rewrite fupd_eq by done. by destruct (C i v Hv).
      * destruct (lookup_lt_is_Some_2 (cl_vals c) j) as [v' Hv']; [unfold cl_n in *; lia|]. destruct (C j v' Hv') as [_ Hpj].
        rewrite Hslot; [apply D; lia| |lia]. split; [|lia]. eapply unpub_window; eauto. lia.
    + eapply prod_ok_frame; [exact L| |by eapply i_prod]. intros seq Hq. split; [done|].
      destruct (owns_facts r s q seq ltac:(by eapply i_prod) Hq) as [? Hp]. apply Hslot.
      * split; [|lia]. eapply unpub_window; eauto. lia.
      * intros ->. eapply (i_disj _ _ _ I t u); eauto.
  - intros u x q1 q2 seq Hne Hu Hx. cbn [m_prods s'] in Hu, Hx. 
    apply list_lookup_insert_Some in Hu as [(-> & <- & _)|[Hne1 Hu]]; apply list_lookup_insert_Some in Hx as [(E & <- & _)|[Hne2 Hx]]; try done.
    + by apply (i_disj _ _ _ I u x _ q2 seq Hne Ht Hx).
    + subst x. by apply (i_disj _ _ _ I u t q1 _ seq Hne Hu Ht).
    + intros H1 H2. eapply (i_disj _ _ _ I); [exact Hne|..]; eauto.
  - intros seq Hs. destruct (i_own _ _ _ I seq Hs) as [H|(u & q & Hu & Hq)]; [by left|]. right.
    destruct (decide (u = t)) as [->|Hne].
    + exists t, (Prod (MWrite lo (S i)) (c :: todo)). cbn [m_prods s']. split; [by rewrite list_lookup_insert by (by eapply lookup_lt_Some)|]. rewrite Ht in Hu. by injection Hu as <-.
    + exists u, q. cbn [m_prods s']. by rewrite list_lookup_insert_ne.
  - intros seq Hs Hp. cbn [m_cursor m_pub m_vals s'] in *. rewrite Hslot; [by apply (i_slots _ _ _ I)|done|congruence].
Qed.

(** Publishing an event. *)
Lemma step_flag r nc s t lo i c todo v : wf_ring r nc -> MInv r nc s -> m_prods s !! t = Some (Prod (MFlag lo i) (c :: todo)) ->
  cl_vals c !! i = Some v -> let seq := lo + Z.of_nat i in
  MInv r nc (Mst (m_cursor s) (m_cache s) (fupd (m_flags s) (flag_index (rg_k r) seq) (avail_flag (rg_k r) seq)) (m_slots s)
                 (<[t := Prod (MFlag lo (S i)) (c :: todo)]> (m_prods s)) (m_cons s) (m_ub s) (m_log s) (m_vals s) (fupd (m_pub s) seq true)).
Proof.
  intros W I Ht Hv w. set (s' := Mst _ _ _ _ _ _ _ _ _ _).
  pose proof (i_prod _ _ _ I t _ Ht) as Hok. pose proof Hok as [Hn (A & B & C)].
  assert (Hi : Z.of_nat i < cl_n c) by (unfold cl_n; apply lookup_lt_Some in Hv; lia).
  assert (L : mle s s').
  { constructor; try done. intros j Hj. cbn [s' m_pub]. destruct (decide (j = w)) as [->|]; [by rewrite fupd_eq|by rewrite fupd_ne]. }
  assert (Hown : owns (Prod (MFlag lo i) (c :: todo)) w) by (cbn [owns]; lia).
  destruct (owns_facts _ _ _ _ Hok Hown) as [Hw Hpw]. pose proof (unpub_window r nc s w W I ltac:(lia) Hpw) as Hww.
  assert (Howns : forall seq, owns (Prod (MFlag lo (S i)) (c :: todo)) seq <-> owns (Prod (MFlag lo i) (c :: todo)) seq /\ seq <> w).
  { intros seq. cbn [owns]. lia. }
  constructor; try apply I.
  - intros u q Hu. cbn [m_prods s'] in Hu. apply list_lookup_insert_Some in Hu as [(-> & <- & _)|[Hne Hu]].
    + split; [intros _; lia|]. split; [done|]. split; [done|]. cbn [m_vals m_pub s']. intros j Hj Hlt. rewrite fupd_ne by lia. apply C; lia.
    + eapply prod_ok_frame; [exact L| |by eapply i_prod]. intros seq Hq. split; [|done]. cbn [s' m_pub]. apply fupd_ne.
      intros ->. eapply (i_disj _ _ _ I t u); eauto.
  - intros j d Hj. eapply cons_ok_mono; [exact L|]. by eapply i_cons.
  - intros u x q1 q2 seq Hne Hu Hx. cbn [m_prods s'] in Hu, Hx. 
    apply list_lookup_insert_Some in Hu as [(-> & <- & _)|[Hne1 Hu]]; apply list_lookup_insert_Some in Hx as [(E & <- & _)|[Hne2 Hx]]; try done.
    + rewrite Howns. intros [H1 _] H2. eapply (i_disj _ _ _ I u x); eauto.
    + subst x. rewrite Howns. intros H2 [H1 _]. eapply (i_disj _ _ _ I u t); eauto.
    + intros H1 H2. eapply (i_disj _ _ _ I); [exact Hne|..]; eauto.
  - intros seq Hs. cbn [m_pub s']. destruct (decide (seq = w)) as [->|Hnw]; [left; by rewrite fupd_eq|]. rewrite fupd_ne by done.
    destruct (i_own _ _ _ I seq Hs) as [H|(u & q & Hu & Hq)]; [by left|]. right.
    destruct (decide (u = t)) as [->|Hne].
    + exists t, (Prod (MFlag lo (S i)) (c :: todo)). cbn [m_prods s']. split; [by rewrite list_lookup_insert by (by eapply lookup_lt_Some)|]. rewrite Ht in Hu. injection Hu as <-. by apply Howns.
    + exists u, q. cbn [m_prods s']. by rewrite list_lookup_insert_ne.
  - intros seq. cbn [m_pub s']. destruct (decide (seq = w)) as [->|Hnw]; [done|]. rewrite fupd_ne by done. apply (i_pub _ _ _ I).
  - intros seq H0 Hs. cbn [m_flags m_pub m_cursor s'] in *. destruct (decide (seq = w)) as [->|Hnw]; [by rewrite !fupd_eq by done|].
    rewrite (fupd_ne (m_pub s)) by done. rewrite fupd_ne; [by apply (i_flags _ _ _ I)|].
    intros E. apply Hnw. apply (proj1 (flag_index_eq r nc _ _ W)) in E. apply (ring_index_inj r nc s); [done|lia|lia|done].
  - intros seq Hs. cbn [m_flags s' m_cursor] in *. rewrite fupd_ne; [by apply (i_init _ _ _ I)|]. intros E. apply (proj1 (flag_index_eq r nc _ _ W)) in E.
    pose proof (wf_k _ _ W). rewrite !ring_index_mod in E by lia. rewrite !Z.mod_small in E by lia. lia.
  - intros seq Hs. cbn [m_pub m_vals m_cursor s'] in *. destruct (decide (seq = w)) as [->|Hnw].
    + intros _. destruct (C i ltac:(lia) Hi) as [E _]. exact E.
    + rewrite fupd_ne by done. apply (i_slots _ _ _ I). done.
Qed.

Definition all_blocking (s : mst) : Prop := forall t p, m_prods s !! t = Some p -> Forall (fun c => cl_blocking c = true) (pr_todo p).
Lemma seen_le c cur : -1 <= cur -> seen_cursor c cur <= cur.
Proof. intros H. unfold seen_cursor. destruct (cl_blocking c); [lia|]. apply wrap32_le. lia. Qed.
Lemma wrap_good r c cur : -1 <= cur -> 1 <= cl_n c -> good c cur -> seen_cursor c cur = cur /\ wrap_point r c cur = cur + cl_n c - rsize (rg_k r).
Proof.
  intros H0 Hn Hg. unfold seen_cursor, wrap_point. destruct (cl_blocking c) eqn:Eb; [done|].
  destruct Hg as [|Hg]; [congruence|]. rewrite (wrap32_id cur) by lia. rewrite wrap32_id by lia. done.
Qed.
Lemma prod_step_inv r nc s t ok : wf_ring r nc -> MInv r nc s -> (m_cursor (prod_step r s t ok) < 2^31 \/ all_blocking s) ->
  MInv r nc (prod_step r s t ok).
Proof.
  intros W I Hb. unfold prod_step in *. destruct (m_prods s !! t) as [[pc [|c todo]]|] eqn:Ht; [done| |done].
  pose proof (i_prod _ _ _ I t _ Ht) as Hok. pose proof Hok as [Hn H]. destruct (i_cache _ _ _ I) as [Hc1 Hc2].
  assert (Hgo : forall pc' ub', (forall seq, owns (Prod pc' (c :: todo)) seq <-> owns (Prod pc (c :: todo)) seq) ->
     prod_ok r s (Prod pc' (c :: todo)) -> 
     MInv r nc (Mst (m_cursor s) (m_cache s) (m_flags s) (m_slots s) (<[t := Prod pc' (c :: todo)]> (m_prods s)) (m_cons s) ub' (m_log s) (m_vals s) (m_pub s))).
  { intros pc' ub' Ho Hp. by eapply step_local. }
  destruct pc as [| |cur|cur i m|cur m|cur|lo i|lo i].
  - destruct (Z.ltb_spec (cl_n c) 1) as [Hlt|Hge].
    + eapply step_local; eauto; by destruct todo.
    + by apply Hgo.
  - specialize (Hn ltac:(done)). apply Hgo; [done|]. split; [done|]. pose proof (i_cur _ _ _ I). lia.
  - specialize (Hn ltac:(done)). apply Hgo; [by destruct (_ || _)|].
    destruct ((m_cache s <? wrap_point r c cur) || (seen_cursor c cur <? m_cache s)) eqn:Ec.
    + split; [done|]. split; [done|]. split; [apply seen_le; lia|]. intros g Hg. by rewrite take_0, elem_of_nil in Hg.
    + apply orb_false_iff in Ec as [E1 E2]. split; [done|]. split; [done|]. intros Hgood. destruct (wrap_good r c cur) as [E3 E4]; [lia|done|done|].
      intros g Hg. specialize (Hc1 g Hg). lia.
  - specialize (Hn ltac:(done)). destruct H as (A & B & C). destruct (rg_gating r !! i) as [g|] eqn:Eg.
    + apply Hgo; [done|]. split; [done|]. split; [done|].
      assert ((if cseq (m_cons s) g <? m then cseq (m_cons s) g else m) <= m /\ (if cseq (m_cons s) g <? m then cseq (m_cons s) g else m) <= cseq (m_cons s) g) as [M1 M2].
      { destruct (Z.ltb_spec (cseq (m_cons s) g) m); lia. }
      split; [lia|]. intros g' Hg'. rewrite (take_S_r _ _ _ Eg) in Hg'. apply elem_of_app in Hg' as [Hg'|Hg'].
      * specialize (C g' Hg'). lia.
      * apply elem_of_list_singleton in Hg' as ->. lia.
    + apply Hgo; [done|]. split; [done|]. split; [done|]. split; [done|]. intros g Hg. apply C. rewrite take_ge; [done|]. by apply lookup_ge_None.
  - specialize (Hn ltac:(done)). destruct H as (A & B & C). destruct (cl_blocking c) eqn:Eb.
    + destruct (Z.ltb_spec m (wrap_point r c cur)); [by apply Hgo|]. eapply step_local; eauto; try done; lia.
    + destruct (Z.ltb_spec m (wrap_point r c cur)) as [Hlt|Hge]; cbn [fst snd].
      * eapply step_local; eauto; first [lia|by destruct todo].
      * eapply step_local; [exact I|exact Ht|done| |done|lia]. split; [done|]. split; [done|]. intros Hgood. destruct (wrap_good r c cur) as [E3 E4]; [lia|done|done|].
        intros g Hg. specialize (C g Hg). lia.
  - specialize (Hn ltac:(done)). destruct (bool_decide (m_cursor s = cur) && ok) eqn:Ec; [|by apply Hgo].
    apply andb_true_iff in Ec as [Ec _]. apply bool_decide_eq_true in Ec.
    apply step_claim; [done|done|done|done|]. destruct Hb as [Hb|Hb]; [right; cbn [m_cursor] in Hb; lia|left].
    specialize (Hb t _ Ht). by apply Forall_cons in Hb as [Hb _].
  - specialize (Hn ltac:(done)). destruct (cl_vals c !! i) as [v|] eqn:Ev; [by apply step_write|].
    destruct H as (A & B & C & D). apply lookup_ge_None in Ev. apply Hgo.
    + intros seq. cbn [owns]. lia.
    + split; [done|]. split; [done|]. split; [done|]. intros j Hj Hlt. destruct (lookup_lt_is_Some_2 (cl_vals c) j) as [v Hv]; [unfold cl_n in *; lia|].
      destruct (C j v Hv) as [_ Hp]. split; [|done]. apply D; [unfold cl_n in *; lia|done].
  - specialize (Hn ltac:(done)). destruct (cl_vals c !! i) as [v|] eqn:Ev; [by eapply step_flag|].
    apply lookup_ge_None in Ev. eapply step_local; [exact I|exact Ht| | |done|done].
    + intros seq. destruct todo; cbn [owns]; unfold cl_n; lia.
    + by destruct todo.
Qed.

Lemma cseq_insert cs i c c' j : cs !! i = Some c -> cseq (<[i := c']> cs) j = if decide (j = i) then co_seq c' else cseq cs j.
Proof.
  intros H. unfold cseq. destruct (decide (j = i)) as [->|Hne].
  - by rewrite list_lookup_insert by (by eapply lookup_lt_Some).
  - by rewrite list_lookup_insert_ne.
Qed.
Lemma step_cons r nc s i c c' : MInv r nc s -> m_cons s !! i = Some c -> co_seq c <= co_seq c' -> cons_ok r s i c' ->
  MInv r nc (Mst (m_cursor s) (m_cache s) (m_flags s) (m_slots s) (m_prods s) (<[i := c']> (m_cons s)) (m_ub s) (m_log s) (m_vals s) (m_pub s)).
Proof.
  intros I Hi Hle Hok. set (s' := Mst _ _ _ _ _ _ _ _ _ _).
  assert (L : mle s s').
  { constructor; try done. intros j. cbn [s' m_cons]. rewrite (cseq_insert _ _ _ _ _ Hi). destruct (decide (j = i)) as [->|]; [|lia].
    unfold cseq. by rewrite Hi. }
  constructor; try apply I.
  - cbn [s' m_cons]. rewrite insert_length. apply I.
  - eapply gle_mono; [exact L|]. apply I.
  - destruct (i_cache _ _ _ I). split; [|done]. eapply gle_mono; [exact L|]. done.
  - intros t p Ht. eapply prod_ok_frame; [exact L| |by eapply i_prod]. done.
  - intros j d Hj. cbn [s' m_cons] in Hj. apply list_lookup_insert_Some in Hj as [(-> & <- & _)|[Hne Hj]].
    + by eapply cons_ok_mono.
    + eapply cons_ok_mono; [exact L|]. by eapply i_cons.
Qed.
(** Every consumer is inside the window. *)
Lemma prot_window r nc s : wf_ring r nc -> MInv r nc s -> forall i, prot r i -> m_cursor s - rsize (rg_k r) <= cseq (m_cons s) i.
Proof.
  intros W I i Hp. induction Hp as [i Hi|i j Hj IH Hin]; [by apply I|].
  destruct (m_cons s !! j) as [c|] eqn:Ec.
  - destruct (i_cons _ _ _ I j c Ec) as (_ & (_ & H) & _). specialize (H i Hin). unfold cseq in IH at 1. rewrite Ec in IH. lia.
  - exfalso. apply lookup_ge_None in Ec. rewrite (i_nc _ _ _ I) in Ec.
    assert (forall j, prot r j -> (j < nc)%nat) as Hlt.
    { intros x Hx. destruct Hx; [by eapply wf_gate_in|by eapply wf_deps_in]. }
    specialize (Hlt j Hj). lia.
Qed.
Lemma flag_pub r nc s seq : wf_ring r nc -> MInv r nc s -> 0 <= seq -> m_cursor s - rsize (rg_k r) < seq <= m_cursor s ->
  (m_flags s (flag_index (rg_k r) seq) =? avail_flag (rg_k r) seq) = m_pub s seq.
Proof.
  intros W I H0 Hw. pose proof (wf_k _ _ W) as Hk. rewrite (i_flags _ _ _ I) by done. destruct (m_pub s seq); [by rewrite Z.eqb_refl|].
  apply Z.eqb_neq. destruct (Z.ltb_spec seq (rsize (rg_k r))).
  - rewrite avail_flag_first by lia. done.
  - apply avail_flag_prev; lia.
Qed.
Lemma seqZ_snoc n : 0 <= n -> seqZ 0 (n + 1) = seqZ 0 n ++ [n].
Proof. intros H. rewrite seqZ_app by lia. f_equal. Qed.
Lemma cons_step_inv r nc s i th : wf_ring r nc -> MInv r nc s -> MInv r nc (cons_step r s i th).
Proof.
  intros W I. unfold cons_step. destruct (m_cons s !! i) as [c|] eqn:Hi; [|done].
  pose proof (i_cons _ _ _ I i c Hi) as Hok. pose proof Hok as (A & (B1 & B2) & C & D & E & F & G).
  assert (Hwin : m_cursor s - rsize (rg_k r) <= co_seq c).
  { pose proof (prot_window r nc s W I i) as H. unfold cseq in H. rewrite Hi in H. apply H. apply (wf_prot _ _ W).
    rewrite <-(i_nc _ _ _ I). by eapply lookup_lt_Some. }
  assert (Hcs : forall j, cseq (m_cons s) j <= m_cursor s).
  { intros j. unfold cseq. destruct (m_cons s !! j) as [d|] eqn:Ed; [|pose proof (i_cur _ _ _ I); lia].
    by destruct (i_cons _ _ _ I j d Ed) as (_ & (? & _) & _). }
  unfold pos, batch_end in *.
  destruct (co_pc c) as [|j m|seq avail|nx avail|v] eqn:Epc.
  - destruct (deps_of r i) as [|d ds] eqn:Ed.
    + destruct (Z.ltb_spec (m_cursor s) (co_seq c + 1)); [done|].
      eapply step_cons; eauto; [done|]. unfold cons_ok, pos, batch_end. cbn [co_seq co_pc co_log]. rewrite Ed.
      repeat (split; [done|]). split; [|done]. split; [lia|]. split; [split; [lia|intros ? ?; set_solver]|]. intros j Hj. apply C. lia.
    + eapply step_cons; eauto; [done|]. unfold cons_ok, pos, batch_end. cbn [co_seq co_pc co_log]. rewrite Ed.
      repeat (split; [done|]). split; [|done]. split; [lia|]. split; [done|]. split; [apply Hcs|]. intros d' Hd'. cbn [take] in Hd'.
      apply elem_of_list_singleton in Hd' as ->. lia.
  - destruct D as (D1 & D2 & D3 & D4). destruct (deps_of r i !! j) as [d|] eqn:Ed.
    + eapply step_cons; eauto; [done|]. unfold cons_ok, pos, batch_end. cbn [co_seq co_pc co_log].
      repeat (split; [done|]). split; [|done]. split; [lia|]. split; [done|].
      assert ((if cseq (m_cons s) d <? m then cseq (m_cons s) d else m) <= m /\ (if cseq (m_cons s) d <? m then cseq (m_cons s) d else m) <= cseq (m_cons s) d) as [M1 M2].
      { destruct (Z.ltb_spec (cseq (m_cons s) d) m); lia. }
      split; [lia|]. intros d' Hd'. rewrite (take_S_r _ _ _ Ed) in Hd'. apply elem_of_app in Hd' as [Hd'|Hd'].
      * specialize (D4 d' Hd'). lia.
      * apply elem_of_list_singleton in Hd' as ->. lia.
    + assert (forall d, d ∈ deps_of r i -> m <= cseq (m_cons s) d) as Hall.
      { intros d Hd. apply D4. rewrite take_ge; [done|]. by apply lookup_ge_None. }
      destruct (Z.ltb_spec m (co_seq c + 1)); (eapply step_cons; eauto; [done|]); unfold cons_ok, pos, batch_end; cbn [co_seq co_pc co_log].
      * repeat (split; [done|]). done.
      * repeat (split; [done|]). split; [|done]. split; [lia|]. split; [done|]. intros j' Hj. apply C. lia.
  - destruct D as (D1 & (D2 & D3) & D4). destruct (Z.ltb_spec avail seq) as [Hlt|Hge].
    + eapply step_cons; eauto; [done|]. unfold cons_ok, pos, batch_end. cbn [co_seq co_pc co_log].
      repeat (split; [done|]). split; [split; [lia|]; split; [done|]; intros j Hj; apply D4; lia|].
      split; [by replace (co_seq c + 1 - 1 + 1) with (co_seq c + 1) by lia|]. split; [done|]. destruct (last (co_log c)); [|done]. by rewrite decide_True by done.
    + rewrite (flag_pub r nc) by (try done; lia). destruct (m_pub s seq) eqn:Ep.
      * eapply step_cons; eauto; [done|]. unfold cons_ok, pos, batch_end. cbn [co_seq co_pc co_log].
        repeat (split; [done|]). split; [|done]. split; [lia|]. split; [done|]. intros j Hj. destruct (decide (j = seq)) as [->|]; [done|]. apply D4. lia.
      * eapply step_cons; eauto; [done|]. unfold cons_ok, pos, batch_end. cbn [co_seq co_pc co_log].
        repeat (split; [done|]). split; [split; [lia|]; split; [split; [lia|]|done]|].
        { intros d Hd. specialize (D3 d Hd). lia. }
        split; [by replace (co_seq c + 1 - 1 + 1) with (co_seq c + 1) by lia|]. split; [done|]. destruct (last (co_log c)); [|done]. by rewrite decide_True by done.
  - destruct D as (D1 & (D2 & D3) & D4). destruct (Z.ltb_spec avail nx) as [Hlt|Hge].
    + eapply step_cons; eauto; [done|]. unfold cons_ok, pos, batch_end. cbn [co_seq co_pc co_log].
      assert (avail = nx - 1) as -> by lia.
      repeat (split; [done|]). split; [split; [lia|done]|]. split; [done|]. split; [done|].
      destruct (last (co_log c)) as [d|]; [|done]. destruct (decide (nx = co_seq c + 1)); [done|]. left. destruct G as [_ ->]. lia.
    + assert (Hval : m_slots s (ring_index (rg_k r) nx) = m_vals s nx).
      { apply (i_slots _ _ _ I); [lia|]. apply D4. lia. }
      assert (Hseq : d_seq <$> co_log c ++ [Delivery nx (m_slots s (ring_index (rg_k r) nx)) (nx =? avail) th] = seqZ 0 (nx + 1)).
      { rewrite fmap_app, E. cbn. replace (nx - 1 + 1) with nx by lia. by rewrite seqZ_snoc by lia. }
      assert (Hvals : Forall (fun d => d_val d = m_vals s (d_seq d)) (co_log c ++ [Delivery nx (m_slots s (ring_index (rg_k r) nx)) (nx =? avail) th])).
      { apply Forall_app. split; [done|]. by constructor. }
      destruct th.
      * eapply step_cons; eauto; [done|]. unfold cons_ok, pos, batch_end. cbn [co_seq co_pc co_log].
        repeat (split; [done|]). split; [split; [lia|]; split; [split; [lia|]|]|].
        { intros d Hd. specialize (D3 d Hd). lia. }
        { intros j Hj. apply D4. lia. }
        split; [done|]. split; [done|]. rewrite last_snoc. by right.
      * eapply step_cons; eauto; [done|]. unfold cons_ok, pos, batch_end. cbn [co_seq co_pc co_log].
        repeat (split; [done|]). split; [split; [lia|done]|]. split; [by replace (nx + 1 - 1 + 1) with (nx + 1) by lia|]. split; [done|].
        rewrite last_snoc. cbn [d_threw d_end]. rewrite decide_False by lia. split; [done|]. by replace (nx + 1 - 1) with nx by lia.
  - destruct D as (D1 & (D2 & D3) & D4). eapply step_cons; [exact I|exact Hi|cbn; lia|]. unfold cons_ok, pos, batch_end. cbn [co_seq co_pc co_log].
    split; [lia|]. split; [done|]. split; [done|]. split; [done|]. done.
Qed.

(** ** Runs. *)
Lemma prod_cursor r s t ok : m_cursor s <= m_cursor (prod_step r s t ok).
Proof.
  unfold prod_step. destruct (m_prods s !! t) as [[pc [|c todo]]|] eqn:Ht; [lia| |lia].
  destruct pc as [| |cur|cur i m|cur m|cur|lo i|lo i]; cbn [m_cursor]; try lia.
  - destruct (cl_n c <? 1); cbn; lia.
  - destruct (rg_gating r !! i); cbn; lia.
  - destruct (cl_blocking c); [destruct (m <? _)|]; cbn; lia.
  - destruct (bool_decide (m_cursor s = cur) && ok) eqn:E; [|cbn; lia]. apply andb_true_iff in E as [E _]. apply bool_decide_eq_true in E. cbn [m_cursor].
    unfold cl_n. lia.
  - destruct (cl_vals c !! i); cbn; lia.
  - destruct (cl_vals c !! i); cbn; lia.
Qed.
Lemma cons_cursor r s i th : m_cursor (cons_step r s i th) = m_cursor s.
Proof.
  unfold cons_step. destruct (m_cons s !! i) as [c|]; [|done]. destruct (co_pc c); cbn; try done.
  - destruct (deps_of r i); [|done]. by destruct (_ <? _).
  - destruct (deps_of r i !! _); [done|]. by destruct (_ <? _).
  - destruct (_ <? _); [done|]. by destruct (_ =? _).
  - destruct (_ <? _); [done|]. by destruct th.
Qed.
Lemma step_cursor r s a : m_cursor s <= m_cursor (mstep r s a).
Proof. destruct a as [t ok|i th]; cbn [mstep]; [apply prod_cursor|rewrite cons_cursor; lia]. Qed.
Lemma prod_todo r s a t p : m_prods (mstep r s a) !! t = Some p -> exists q, m_prods s !! t = Some q /\ pr_todo p `suffix_of` pr_todo q.
Proof.
  assert (Hsame : forall s', m_prods s' = m_prods s -> m_prods s' !! t = Some p -> exists q, m_prods s !! t = Some q /\ pr_todo p `suffix_of` pr_todo q).
  { intros s' -> H. eauto. }
  destruct a as [u ok|i th]; cbn [mstep].
  - unfold prod_step. destruct (m_prods s !! u) as [[pc [|c todo]]|] eqn:Hu; [by apply Hsame| |by apply Hsame].
    assert (Hins : forall p', pr_todo p' `suffix_of` (c :: todo) -> <[u := p']> (m_prods s) !! t = Some p -> exists q, m_prods s !! t = Some q /\ pr_todo p `suffix_of` pr_todo q).
    { intros p' Hs H. apply list_lookup_insert_Some in H as [(-> & <- & _)|[_ H]]; [eauto|]. eauto. }
    assert (S1 : todo `suffix_of` c :: todo) by (by exists [c]).
    destruct pc as [| |cur|cur i m|cur m|cur|lo i|lo i].
    + destruct (cl_n c <? 1); by apply Hins.
    + by apply Hins.
    + by apply Hins.
    + destruct (rg_gating r !! i); by apply Hins.
    + destruct (cl_blocking c); [destruct (m <? _)|]; try (by apply Hins). destruct (m <? _); by apply Hins.
    + destruct (_ && _); by apply Hins.
    + destruct (cl_vals c !! i); by apply Hins.
    + destruct (cl_vals c !! i); by apply Hins.
  - unfold cons_step. destruct (m_cons s !! i) as [c|]; [|by apply Hsame]. destruct (co_pc c); try by apply Hsame.
    + destruct (deps_of r i); [|by apply Hsame]. destruct (_ <? _); by apply Hsame.
    + destruct (deps_of r i !! _); [by apply Hsame|]. destruct (_ <? _); by apply Hsame.
    + destruct (_ <? _); [by apply Hsame|]. destruct (_ =? _); by apply Hsame.
    + destruct (_ <? _); [by apply Hsame|]. destruct th; by apply Hsame.
Qed.
Definition progs_blocking (progs : list (list claim)) : Prop := Forall (Forall (fun c => cl_blocking c = true)) progs.
Lemma mrun_snoc r s acts a : mrun r s (acts ++ [a]) = mstep r (mrun r s acts) a.
Proof. unfold mrun. by rewrite fold_left_app. Qed.
Lemma todo_run r nc progs acts t p : m_prods (mrun r (mst_new nc progs) acts) !! t = Some p -> exists prog, progs !! t = Some prog /\ pr_todo p `suffix_of` prog.
Proof.
  revert p. induction acts as [|a acts IH] using rev_ind; intros p.
  - cbn. rewrite list_lookup_fmap. intros H. destruct (progs !! t) as [l|]; [|done]. injection H as <-. eauto.
  - rewrite mrun_snoc. intros H. apply prod_todo in H as (q & Hq & Hs). destruct (IH q Hq) as (prog & H1 & H2). exists prog. split; [done|]. by etrans.
Qed.
Lemma blocking_run r nc progs acts : progs_blocking progs -> all_blocking (mrun r (mst_new nc progs) acts).
Proof.
  intros H t p Hp. destruct (todo_run _ _ _ _ _ _ Hp) as (prog & H1 & [k Hk]). unfold progs_blocking in H. rewrite Forall_lookup in H.
  specialize (H t prog H1). rewrite Hk in H. by apply Forall_app in H as [_ H].
Qed.
Lemma minv_new r nc progs : wf_ring r nc -> MInv r nc (mst_new nc progs).
Proof.
  intros W. pose proof (wf_k _ _ W) as Hk. pose proof (rsize_pos (rg_k r) ltac:(lia)) as HN.
  assert (Hc : forall g, cseq (repeat (Cons (-1) CWait []) nc) g = -1).
  { intros g. unfold cseq. destruct (repeat _ nc !! g) as [c|] eqn:E; [|done]. apply elem_of_list_lookup_2, elem_of_list_In, repeat_spec in E. by subst. }
  assert (Hp : forall t p, m_prods (mst_new nc progs) !! t = Some p -> exists l, p = Prod MIdle l).
  { intros t p H. cbn in H. rewrite list_lookup_fmap in H. destruct (progs !! t) as [l|]; [|done]. injection H as <-. eauto. }
  constructor; cbn [mst_new m_cursor m_cache m_flags m_slots m_cons m_vals m_pub].
  - by rewrite repeat_length.
  - lia.
  - intros g Hg. cbn [m_cons mst_new]. rewrite Hc. lia.
  - split; [|lia]. intros g Hg. cbn [m_cons mst_new]. rewrite Hc. lia.
  - intros t p H. destruct (Hp t p H) as [[|c l] ->]; done.
  - intros i c H. apply elem_of_list_lookup_2, elem_of_list_In, repeat_spec in H as ->. unfold cons_ok. cbn. repeat split; try done; try lia.
    intros d Hd. rewrite Hc. lia.
  - intros t u p q seq _ H. destruct (Hp t p H) as [l ->]. done.
  - intros seq Hs. lia.
  - done.
  - intros seq H0 Hs. lia.
  - done.
  - intros seq Hs Hpub. done.
Qed.
Lemma minv_run r nc progs acts : wf_ring r nc -> (m_cursor (mrun r (mst_new nc progs) acts) < 2^31 \/ progs_blocking progs) ->
  MInv r nc (mrun r (mst_new nc progs) acts).
Proof.
  intros W. induction acts as [|a acts IH] using rev_ind; intros Hb; [by apply minv_new|].
  rewrite mrun_snoc in *. set (s := mrun r (mst_new nc progs) acts) in *.
  assert (I : MInv r nc s).
  { apply IH. destruct Hb as [Hb|]; [|by right]. left.
    pose proof (step_cursor r s a). lia. }
  destruct a as [t ok|i th]; cbn [mstep].
  - apply prod_step_inv; [done|done|]. destruct Hb as [Hb|Hb]; [by left|right; by apply blocking_run].
  - by apply cons_step_inv.
Qed.
