(** Proofs about the lock-free stack model. *)
From stdpp Require Import prelude list_numbers.
From Coq Require Import Lia ZArith.
From Verif Require Import LockFreeStack_Model LockFreeStack_Spec.
Local Open Scope Z_scope.

Section Proofs.
Context {T : Type}.
Implicit Types (s : cfg T) (p : pc T) (o : op T).

Fixpoint chain (nx : list Z) (i : Z) (l : list Z) : Prop :=
  match l with
  | [] => i = UNDEF
  | j :: l' => i = j /\ 0 <= j < Z.of_nat (length nx) /\ exists n, nx !! Z.to_nat j = Some n /\ chain nx n l'
  end.

Definition owned p : list Z :=
  match p with
  | Move _ i | PushLoad _ i _ | PushSet _ i _ _ | PushCas _ i _ _ => [i]
  | _ => []
  end.
Definition owned_all (ps : list (pc T)) : list Z := concat (owned <$> ps).

Definition idx_ok (cap : Z) (h : head_t) : Prop := idx h = UNDEF \/ 0 <= idx h < cap.
Definition orig_ok (cap : Z) (h orig : head_t) : Prop :=
  cnt orig <= cnt h /\ aba orig = u16 (cnt orig) /\ idx_ok cap orig /\ (cnt orig = cnt h -> idx orig = idx h).

Definition res_ok o (r : result T) : Prop :=
  match o with OPush _ => r = RPushed | OPop => exists v, r = RPopped v end.

Definition mine s o (i : Z) : Prop :=
  match o with OPush v => data s !! Z.to_nat i = Some v | OPop => True end.

Definition thr_ok s p : Prop :=
  let cap := Z.of_nat (length (nexts s)) in
  match p with
  | Idle | PopLoad _ | Move _ _ => True
  | PopRead o orig => orig_ok cap (src o s) orig
  | PopCas o orig n => orig_ok cap (src o s) orig /\ idx orig <> UNDEF /\
        (cnt orig = cnt (src o s) -> nexts s !! Z.to_nat (idx orig) = Some n)
  | PushLoad o i r => res_ok o r /\ mine s o i
  | PushSet o i r orig => res_ok o r /\ mine s o i
  | PushCas o i r orig => (res_ok o r /\ mine s o i) /\ nexts s !! Z.to_nat i = Some (idx orig)
  | Ub => False
  end.

Definition st_of (d : list T) p : status T :=
  match p with
  | Idle | Ub => SIdle
  | PopLoad o | PopCas o _ _ => SCalled o
  | PopRead o orig =>
      if idx orig =? UNDEF then SDone (match o with OPush _ => RPushFull | OPop => RPopEmpty end)
      else SCalled o
  | Move (OPush v) _ => SCalled (OPush v)
  | Move OPop i => match d !! Z.to_nat i with Some v => SDone (RPopped v) | None => SIdle end
  | PushLoad (OPush v) _ _ | PushSet (OPush v) _ _ _ | PushCas (OPush v) _ _ _ => SCalled (OPush v)
  | PushLoad OPop _ r | PushSet OPop _ r _ | PushCas OPop _ r _ => SDone r
  end.

Definition datas (d : list T) (l : list Z) (st : list T) : Prop :=
  Forall2 (fun i v => d !! Z.to_nat i = Some v) l st.

Record Inv (st0 : list T) (n : nat) (cap : nat) s (LH LF : list Z) (st : list T) : Prop := {
  i_cap : (cap <= length (nexts s))%nat;
  i_data : (cap <= length (data s))%nat;
  i_small : Z.of_nat cap <= 65535;
  i_hd : chain (nexts s) (idx (hd s)) LH;
  i_fr : chain (nexts s) (idx (fr s)) LF;
  i_abah : aba (hd s) = u16 (cnt (hd s));
  i_abaf : aba (fr s) = u16 (cnt (fr s));
  i_perm : LH ++ LF ++ owned_all (thr s) ≡ₚ (Z.of_nat <$> seq 0 cap);
  i_thr : Forall (thr_ok s) (thr s);
  i_st : datas (data s) LH st;
  i_run : srun cap (st0, replicate n SIdle) (rev (hist s)) (st, st_of (data s) <$> thr s)
}.

(** ** Chains *)
Lemma chain_insert nx i l j n : 0 <= j -> j ∉ l -> chain nx i l -> chain (<[Z.to_nat j:=n]> nx) i l.
Proof.
  intros Hj. revert i; induction l as [|a l IH]; intros i Hn; simpl; auto.
  rewrite not_elem_of_cons in Hn. destruct Hn as [Hne Hn].
  intros (-> & ? & m & Hm & H). rewrite insert_length. split_and!; try lia.
  exists m. split; [|auto]. rewrite list_lookup_insert_ne; auto. lia.
Qed.

Lemma chain_idx_ok nx i l : chain nx i l -> i = UNDEF \/ 0 <= i < Z.of_nat (length nx).
Proof. destruct l; simpl; [auto|]. intros (-> & ? & _); auto. Qed.

(** ** Ownership *)
Lemma owned_all_insert (ps : list (pc T)) t p p' : ps !! t = Some p ->
  owned_all (<[t:=p']> ps) ++ owned p ≡ₚ owned_all ps ++ owned p'.
Proof.
  revert t; induction ps as [|a ps IH]; intros [|t]; simpl; try done.
  - intros [= ->]. unfold owned_all; simpl. solve_Permutation.
  - intros H. unfold owned_all in *; simpl. specialize (IH _ H).
    rewrite <- !(assoc_L (++)). f_equiv. exact IH.
Qed.

Definition counts (x : status T) : nat :=
  match x with SCalled (OPush _) | SDone (RPopped _) => 1 | _ => 0 end.
Lemma busy_cons (x : status T) sts : busy (x :: sts) = (counts x + busy sts)%nat.
Proof. by destruct x as [|[]|[]]. Qed.

Lemma busy_owned d (ps : list (pc T)) : Forall (fun p => (length (owned p) <= counts (st_of d p))%nat) ps ->
  (length (owned_all ps) <= busy (st_of d <$> ps))%nat.
Proof.
  induction 1 as [|p ps Hp _ IH]; [simpl; lia|].
  change (owned_all (p :: ps)) with (owned p ++ owned_all ps).
  rewrite app_length, fmap_cons, busy_cons. lia.
Qed.

Lemma busy_insert (sts : list (status T)) t x : sts !! t = Some x ->
  busy sts = (counts x + busy (<[t:=SIdle]> sts))%nat.
Proof.
  revert t; induction sts as [|a sts IH]; intros [|t]; simpl lookup; try done.
  - intros [= ->]. simpl insert. rewrite !busy_cons. done.
  - intros H. simpl insert. rewrite !busy_cons, (IH t) by done. lia.
Qed.

Lemma Forall_insert_thr s (P : pc T -> Prop) t p' :
  (forall t' p, t' <> t -> thr s !! t' = Some p -> P p) -> P p' -> Forall P (<[t:=p']> (thr s)).
Proof.
  intros H Hp. apply Forall_lookup. intros t' q Hq.
  destruct (decide (t = t')) as [->|Hne].
  - destruct (decide (t' < length (thr s))%nat) as [Hl|Hl].
    + rewrite list_lookup_insert in Hq by done. by injection Hq as <-.
    + rewrite list_insert_ge in Hq by lia. apply lookup_lt_Some in Hq. lia.
  - rewrite list_lookup_insert_ne in Hq by done. eauto.
Qed.

Lemma status_insert d (ps : list (pc T)) t p' : st_of d <$> <[t:=p']> ps = <[t:=st_of d p']> (st_of d <$> ps).
Proof. by rewrite list_fmap_insert. Qed.
Lemma status_same d (ps : list (pc T)) t p p' : ps !! t = Some p -> st_of d p' = st_of d p ->
  st_of d <$> <[t:=p']> ps = st_of d <$> ps.
Proof.
  intros H E. rewrite status_insert, E. apply list_insert_id. rewrite list_lookup_fmap, H. done.
Qed.

Lemma u16_cong a b : u16 a = u16 b -> 0 <= b - a < 65536 -> a = b.
Proof.
  unfold u16. intros H Hr.
  pose proof (Z.div_mod a 65536 ltac:(lia)). pose proof (Z.div_mod b 65536 ltac:(lia)).
  pose proof (Z.mod_pos_bound a 65536 ltac:(lia)). pose proof (Z.mod_pos_bound b 65536 ltac:(lia)).
  rewrite H in *. nia.
Qed.
Lemma u16_succ a : u16 (u16 a + 1) = u16 (a + 1).
Proof. unfold u16. rewrite Zplus_mod_idemp_l. done. Qed.

Lemma perm_range (cap : nat) (l1 l2 : list Z) i :
  l1 ++ l2 ≡ₚ (Z.of_nat <$> seq 0 cap) -> i ∈ l1 ++ l2 -> 0 <= i < Z.of_nat cap.
Proof.
  intros H Hi. rewrite H in Hi. apply elem_of_list_fmap in Hi as (k & -> & Hk).
  apply elem_of_seq in Hk. lia.
Qed.
Lemma perm_nodup (cap : nat) (l : list Z) : l ≡ₚ (Z.of_nat <$> seq 0 cap) -> NoDup l.
Proof. intros ->. apply (NoDup_fmap_2 Z.of_nat). apply NoDup_seq. Qed.

Lemma owned_elem (ps : list (pc T)) t p i : ps !! t = Some p -> i ∈ owned p -> i ∈ owned_all ps.
Proof.
  intros H Hi. unfold owned_all. apply elem_of_list_In, in_concat. exists (owned p).
  split; apply elem_of_list_In; [|done]. apply elem_of_list_fmap. exists p. split; [done|].
  by eapply elem_of_list_lookup_2.
Qed.

Lemma datas_insert d l st j v : 0 <= j -> j ∉ l -> Forall (fun i => 0 <= i) l ->
  datas d l st -> datas (<[Z.to_nat j:=v]> d) l st.
Proof.
  unfold datas. intros Hj Hn Hl H. induction H; [constructor|].
  rewrite not_elem_of_cons in Hn. apply Forall_cons in Hl. destruct Hl, Hn. constructor; [|auto].
  rewrite list_lookup_insert_ne; auto. lia.
Qed.

Lemma owned_unique (ps : list (pc T)) t t' p p' i : NoDup (owned_all ps) ->
  ps !! t = Some p -> ps !! t' = Some p' -> i ∈ owned p -> i ∈ owned p' -> t = t'.
Proof.
  revert t t'. induction ps as [|a ps IH]; intros t t' Hnd; [done|].
  change (owned_all (a :: ps)) with (owned a ++ owned_all ps) in Hnd.
  apply NoDup_app in Hnd as (H1 & H2 & H3).
  destruct t as [|t], t' as [|t']; simpl.
  - done.
  - intros [= ->] Hp' Hi Hi'. destruct (H2 i); [done|]. by eapply owned_elem.
  - intros Hp [= ->] Hi Hi'. destruct (H2 i); [done|]. by eapply owned_elem.
  - intros H4 H5 H6 H7. f_equal. eapply IH; eauto.
Qed.

Lemma status_data d i v (ps : list (pc T)) t p :
  NoDup (owned_all ps) -> ps !! t = Some p -> i ∈ owned p -> 0 <= i ->
  (forall j, j ∈ owned_all ps -> 0 <= j) ->
  (match p with Move OPop _ => False | _ => True end) ->
  st_of (<[Z.to_nat i:=v]> d) <$> ps = st_of d <$> ps.
Proof.
  intros Hnd Hp Hi H0 Hpos Hm. apply list_fmap_ext. intros t' q Hq.
  destruct q; simpl; try done. destruct o; try done.
  destruct (decide (t = t')) as [->|Hne].
  { rewrite Hp in Hq. injection Hq as ->. done. }
  assert (i0 <> i).
  { intros ->. apply Hne. eapply (owned_unique ps t t'); eauto. set_solver. }
  rewrite list_lookup_insert_ne; [done|].
  assert (0 <= i0). { apply Hpos. eapply owned_elem; eauto. set_solver. }
  lia.
Qed.

(** Dispatch of the invariant for steps that only change the pc and history. *)
Lemma lookup_status s t p : thr s !! t = Some p -> (st_of (data s) <$> thr s) !! t = Some (st_of (data s) p).
Proof. intros H. by rewrite list_lookup_fmap, H. Qed.

Lemma Forall_thr s t p : Forall (thr_ok s) (thr s) -> thr s !! t = Some p -> thr_ok s p.
Proof. rewrite Forall_lookup. eauto. Qed.

Lemma bump_orig_ok cap (h orig : head_t) i (g : head_t) : orig_ok cap h g -> orig_ok cap (bump h orig i) g.
Proof. unfold orig_ok, bump; simpl. intros (? & ? & ? & ?). split_and!; auto; lia. Qed.

Lemma src_idx_in s LH LF o i : chain (nexts s) (idx (hd s)) LH -> chain (nexts s) (idx (fr s)) LF ->
  idx (src o s) = i -> i <> UNDEF -> i ∈ LH ++ LF.
Proof.
  intros H1 H2 E Hn. destruct o; simpl in E.
  - rewrite E in H2. destruct LF as [|a LF]; simpl in H2; [done|]. destruct H2 as [-> _]. set_solver.
  - rewrite E in H1. destruct LH as [|a LH]; simpl in H1; [done|]. destruct H1 as [-> _]. set_solver.
Qed.
Lemma srun_snoc' cap x h y (e : event T) z : srun cap x (rev h) y -> sstep cap y e z -> srun cap x (rev (e :: h)) z.
Proof. simpl. intros. by eapply srun_snoc. Qed.

Lemma st_of_owned d p : (forall i, i ∈ owned p -> is_Some (d !! Z.to_nat i)) ->
  (forall o i r, p = PushLoad o i r \/ (exists g, p = PushSet o i r g \/ p = PushCas o i r g) -> res_ok o r) ->
  (length (owned p) <= counts (st_of d p))%nat.
Proof.
  intros H Hr. destruct p as [| | | |o i|o i r|o i r g|o i r g|]; simpl; try lia.
  - destruct o; [simpl; lia|]. destruct (H i) as [v Hv]; [set_solver|]. rewrite Hv. simpl. lia.
  - specialize (Hr o i r ltac:(auto)). destruct o; [simpl; lia|]. destruct Hr as [v ->]. simpl. lia.
  - specialize (Hr o i r ltac:(eauto)). destruct o; [simpl; lia|]. destruct Hr as [v ->]. simpl. lia.
  - specialize (Hr o i r ltac:(eauto)). destruct o; [simpl; lia|]. destruct Hr as [v ->]. simpl. lia.
Qed.

Section Preserve.
Context (st0 : list T) (n cap : nat).

Ltac mkinv := refine (Build_Inv _ _ _ _ _ _ _ _ _ _ _ _ _ _ _ _ _ _); simpl.

(** The pool of owned indices changes exactly at thread [t]. *)
Lemma perm_swap_owned LH LF LH' LF' (ps : list (pc T)) t p p' l :
  ps !! t = Some p ->
  LH ++ LF ++ owned_all ps ≡ₚ l ->
  (LH' ++ LF') ++ owned p' ≡ₚ (LH ++ LF) ++ owned p ->
  LH' ++ LF' ++ owned_all (<[t:=p']> ps) ≡ₚ l.
Proof.
  intros Hp <- H. pose proof (owned_all_insert ps t p p' Hp) as Ho.
  apply (Permutation_app_inv_r (owned p)).
  transitivity ((LH' ++ LF') ++ (owned_all (<[t:=p']> ps) ++ owned p)); [solve_Permutation|].
  rewrite Ho.
  transitivity (((LH' ++ LF') ++ owned p') ++ owned_all ps); [solve_Permutation|].
  rewrite H. solve_Permutation.
Qed.

Lemma exec_inv s a LH LF st : Inv st0 n cap s LH LF st -> not_wrapped s a ->
  exists LH' LF' st', Inv st0 n cap (exec s a) LH' LF' st'.
Proof.
  intros I Hw. pose proof I as [Hcap Hdat Hsm Hhd Hfr Hah Haf Hperm Hthr Hst Hrun].
  assert (Hnd : NoDup (LH ++ LF ++ owned_all (thr s))) by (by eapply perm_nodup).
  assert (Hndo : NoDup (owned_all (thr s))).
  { apply NoDup_app in Hnd as (_ & _ & Hnd). apply NoDup_app in Hnd. tauto. }
  assert (Hrange : forall i, i ∈ LH ++ LF ++ owned_all (thr s) -> 0 <= i < Z.of_nat cap).
  { intros i Hi. rewrite (assoc_L (++)) in Hperm, Hi. eapply perm_range; eauto. }
  destruct a as [t o|t spur]; simpl.
  - (* call *)
    destruct (thr s !! t) as [[]|] eqn:Hp; try (by exists LH, LF, st).
    exists LH, LF, st. mkinv; auto.
    + eapply perm_swap_owned; eauto; done.
    + apply Forall_insert_thr; [|done]. intros t' p _ H. exact (Forall_thr s t' p Hthr H).
    + rewrite status_insert. eapply srun_snoc; [exact Hrun|]. constructor.
      by rewrite (lookup_status s t _ Hp).
  - destruct (thr s !! t) as [p|] eqn:Hp; [|by exists LH, LF, st].
    pose proof (Forall_thr s t p Hthr Hp) as Hok.
    pose proof (lookup_status s t p Hp) as Hstat.
    assert (Hown : forall i, i ∈ owned p -> 0 <= i < Z.of_nat cap).
    { intros i Hi. apply Hrange. pose proof (owned_elem _ _ _ _ Hp Hi). set_solver. }
    simpl in Hw. rewrite Hp in Hw.
    (* the load at the start of _pop or after a failed CAS *)
    assert (Hload : forall o, (st_of (data s) p = SCalled o) -> owned p = [] ->
        exists LH' LF' st', Inv st0 n cap (lin_fail t o (set_pc t (PopRead o (src o s)) s)) LH' LF' st').
    { intros o Hso Ho. exists LH, LF, st.
      assert (Hs : orig_ok (Z.of_nat (length (nexts s))) (src o s) (src o s)).
      { unfold orig_ok. split_and!; [lia| |  |done].
        - destruct o; simpl; auto.
        - unfold idx_ok. destruct o; simpl; eapply chain_idx_ok; eauto. }
      assert (Hi : owned (PopRead o (src o s)) = owned p) by (by rewrite Ho).
      unfold lin_fail. change (src o (set_pc t (PopRead o (src o s)) s)) with (src o s).
      destruct (idx (src o s) =? UNDEF) eqn:E.
      - apply Z.eqb_eq in E. mkinv; auto.
        + eapply perm_swap_owned; eauto. by rewrite Ho.
        + apply Forall_insert_thr; [|done]. intros t' q _ H. exact (Forall_thr s t' q Hthr H).
        + rewrite status_insert. eapply srun_snoc; [exact Hrun|]. simpl.
          rewrite Hso in Hstat. rewrite (proj2 (Z.eqb_eq _ _) E).
          destruct o as [v|].
          * constructor; [done|]. simpl in E. rewrite E in Hfr.
            destruct LF as [|x LF]; [|exfalso; destruct Hfr as (Hx & _); assert (0 <= x < Z.of_nat cap) by (apply Hrange; set_solver); unfold UNDEF in *; lia].
            apply Permutation_length in Hperm. rewrite !app_length, fmap_length, seq_length in Hperm.
            simpl in Hperm.
            assert (length LH = length st) as <- by (eapply Forall2_length; eauto).
            assert (length (owned_all (thr s)) < busy (st_of (data s) <$> thr s))%nat; [|lia].
            rewrite (busy_insert _ t _ Hstat). cbn [counts].
            pose proof (owned_all_insert (thr s) t p Idle Hp) as Hoi. rewrite Ho in Hoi. simpl in Hoi.
            rewrite !app_nil_r in Hoi. rewrite <- Hoi.
            replace (<[t:=SIdle]> (st_of (data s) <$> thr s)) with (st_of (data s) <$> <[t:=Idle]> (thr s)) by (by rewrite status_insert).
            apply Nat.lt_succ_r, busy_owned.
            apply Forall_insert_thr; [|simpl; lia]. intros t' q _ Hq.
            apply st_of_owned.
            -- intros i Hiq. apply lookup_lt_is_Some_2.
               assert (0 <= i < Z.of_nat cap); [|lia]. apply Hrange.
               pose proof (owned_elem _ _ _ _ Hq Hiq). set_solver.
            -- intros o' i r Hq'. pose proof (Forall_thr s t' q Hthr Hq) as Hq2.
               destruct Hq' as [->|(g & [->| ->])]; simpl in Hq2; tauto.
          * simpl in E. rewrite E in Hhd.
            destruct LH as [|x LH]; [|exfalso; destruct Hhd as (Hx & _); assert (0 <= x < Z.of_nat cap) by (apply Hrange; set_solver); unfold UNDEF in *; lia].
            inversion Hst; subst. by constructor.
      - mkinv; auto.
        + eapply perm_swap_owned; eauto. by rewrite Ho.
        + apply Forall_insert_thr; [|done]. intros t' q _ H. exact (Forall_thr s t' q Hthr H).
        + rewrite (status_same _ _ t p); [done|done|]. simpl. by rewrite E. }
    destruct p as [|o|o orig|o orig nx|o i|o i r|o i r orig|o i r orig|]; simpl; try done.
    + by exists LH, LF, st.
    + by apply Hload.
    + (* PopRead *)
      simpl in Hok. destruct Hok as (Hc & Ha & Hi & Heq).
      destruct (idx orig =? UNDEF) eqn:E.
      * exists LH, LF, st. mkinv; auto.
        -- eapply perm_swap_owned; eauto; done.
        -- apply Forall_insert_thr; [|done]. intros t' q _ H. exact (Forall_thr s t' q Hthr H).
        -- rewrite status_insert. eapply srun_snoc; [exact Hrun|]. constructor.
           rewrite Hstat. simpl. by rewrite E.
      * apply Z.eqb_neq in E. destruct Hi as [Hi|Hi]; [done|].
        destruct (nexts s !! Z.to_nat (idx orig)) as [nx|] eqn:Hn;
          [|apply lookup_ge_None in Hn; lia].
        exists LH, LF, st. mkinv; auto.
        -- eapply perm_swap_owned; eauto; done.
        -- apply Forall_insert_thr; [intros t' q _ H; exact (Forall_thr s t' q Hthr H)|].
           simpl. unfold orig_ok, idx_ok. split_and!; auto.
        -- rewrite (status_same _ _ t _ _ Hp); [done|]. simpl.
           by rewrite (proj2 (Z.eqb_neq _ _) E).
    + (* PopCas *)
      destruct (negb spur && head_eqb (src o s) orig) eqn:Ecas.
      2: { by apply Hload. }
      simpl in Hok. destruct Hok as ((Hc & Ha & Hi & Heq) & Hne & Hnx).
      apply andb_true_iff in Ecas as [_ Ecas]. apply andb_true_iff in Ecas as [Ea Ei].
      apply Z.eqb_eq in Ea, Ei.
      assert (Hcc : cnt orig = cnt (src o s)).
      { apply u16_cong; [|lia]. rewrite <- Ha, <- Ea. destruct o; simpl; auto. }
      specialize (Hnx Hcc).
      destruct o as [v|]; simpl in *.
      * (* pop a free node *)
        rewrite Ei in Hfr. destruct LF as [|x LF]; [done|].
        destruct Hfr as (Hx0 & Hx & m & Hm & Hfr). subst x. rewrite Hnx in Hm. injection Hm as <-.
        exists LH, LF, st. mkinv; auto.
        -- by rewrite Ha, Hcc, u16_succ.
        -- eapply perm_swap_owned; [done|exact Hperm|]. simpl. solve_Permutation.
        -- apply Forall_insert_thr; [|done]. intros t' q _ H.
           pose proof (Forall_thr s t' q Hthr H) as Hq. destruct q as [|[]|[] |[]| | | | |]; simpl in *; auto.
           ++ by apply bump_orig_ok.
           ++ destruct Hq as (Hq1 & Hq2 & Hq3). split_and!; auto; [by apply bump_orig_ok|].
              unfold orig_ok in Hq1. lia.
        -- rewrite (status_same _ _ t _ _ Hp); done.
      * rewrite Ei in Hhd. destruct LH as [|x LH]; [done|].
        destruct Hhd as (Hx0 & Hx & m & Hm & Hhd). subst x. rewrite Hnx in Hm. injection Hm as <-.
        inversion Hst as [|? v ? st' Hv Hst' E1 E2]; subst. rewrite Hv.
        exists LH, LF, st'. mkinv; auto.
        -- by rewrite Ha, Hcc, u16_succ.
        -- eapply perm_swap_owned; [done|exact Hperm|]. simpl. solve_Permutation.
        -- apply Forall_insert_thr; [|done]. intros t' q _ H.
           pose proof (Forall_thr s t' q Hthr H) as Hq. destruct q as [|[]|[] |[]| | | | |]; simpl in *; auto.
           ++ by apply bump_orig_ok.
           ++ destruct Hq as (Hq1 & Hq2 & Hq3). split_and!; auto; [by apply bump_orig_ok|].
              unfold orig_ok in Hq1. lia.
        -- rewrite status_insert. eapply srun_snoc; [exact Hrun|]. simpl. rewrite Hv. by constructor.
    + (* Move *)
      assert (Hi0 : 0 <= i < Z.of_nat cap) by (apply Hown; set_solver).
      destruct o as [v|].
      * exists LH, LF, st. mkinv; auto.
        -- by rewrite insert_length.
        -- eapply perm_swap_owned; eauto.
        -- assert (Hoth : forall t' q o' j, t' <> t -> thr s !! t' = Some q -> j ∈ owned q ->
             mine s o' j -> mine (set_pc t (PushLoad (OPush v) i RPushed) (set_data i v s)) o' j).
           { intros t' q [v'|] j Hne H Hj Hm; [|done]. unfold mine in *; simpl.
             assert (j <> i).
             { intros ->. apply Hne. apply (owned_unique (thr s) t' t _ _ i Hndo H Hp); simpl; set_solver. }
             assert (0 <= j). { apply Hrange. assert (j ∈ owned_all (thr s)) by (eapply owned_elem; eauto; set_solver). set_solver. }
             rewrite list_lookup_insert_ne by lia. done. }
           apply Forall_insert_thr.
           ++ intros t' q Hne H. pose proof (Forall_thr s t' q Hthr H) as Hq.
              destruct q as [|o'|o' g|o' g m|o' j|o' j r'|o' j r' g|o' j r' g|]; simpl in *; auto;
                try (by destruct o').
              ** destruct Hq; split; [done|]. eapply Hoth; eauto; set_solver.
              ** destruct Hq; split; [done|]. eapply Hoth; eauto; set_solver.
              ** destruct Hq as [[? ?] ?]; split_and!; [done| |done]. eapply Hoth; eauto; set_solver.
           ++ simpl. split; [done|]. apply list_lookup_insert. lia.
        -- apply datas_insert; [lia| | |done].
           ++ intros Hin. assert (i ∈ owned_all (thr s)) by (eapply owned_elem; eauto; set_solver).
              apply NoDup_app in Hnd as (_ & Hd & _). apply (Hd i); set_solver.
           ++ apply Forall_forall. intros j Hj. apply Hrange. set_solver.
        -- rewrite (list_fmap_insert _ (thr s)). erewrite status_data; eauto; [|set_solver|lia|].
           ++ simpl. rewrite list_insert_id; [exact Hrun|]. by rewrite Hstat.
           ++ intros j Hj. assert (0 <= j < Z.of_nat cap); [|lia]. apply Hrange. set_solver.
      * destruct (data s !! Z.to_nat i) as [v|] eqn:Hv; [|apply lookup_ge_None in Hv; lia].
        exists LH, LF, st. mkinv; auto.
        -- eapply perm_swap_owned; eauto.
        -- apply Forall_insert_thr; [intros t' q _ H; exact (Forall_thr s t' q Hthr H)|]. simpl. eauto.
        -- rewrite (status_same _ _ t _ _ Hp); [done|]. simpl. by rewrite Hv.
    + (* PushLoad *)
      exists LH, LF, st. mkinv; auto.
      * eapply perm_swap_owned; eauto.
      * apply Forall_insert_thr; [intros t' q _ H; exact (Forall_thr s t' q Hthr H)|]. exact Hok.
      * rewrite (status_same _ _ t _ _ Hp); done.
    + (* PushSet *)
      assert (Hi0 : 0 <= i < Z.of_nat cap) by (apply Hown; set_solver).
      assert (Hio : i ∈ owned_all (thr s)) by (eapply owned_elem; eauto; set_solver).
      assert (Hnin : i ∉ LH ++ LF).
      { rewrite (assoc_L (++)) in Hnd. apply NoDup_app in Hnd as (_ & Hd & _). intros Hin. by apply (Hd i). }
      exists LH, LF, st. mkinv; auto.
      * by rewrite insert_length.
      * apply chain_insert; [lia|set_solver|done].
      * apply chain_insert; [lia|set_solver|done].
      * eapply perm_swap_owned; eauto.
      * apply Forall_insert_thr.
        -- intros t' q Hne H. pose proof (Forall_thr s t' q Hthr H) as Hq.
           destruct q as [|o'|o' g|o' g m|o' j|o' j r'|o' j r' g|o' j r' g|]; simpl in *; auto.
           ++ rewrite insert_length. by destruct o'.
           ++ rewrite insert_length. destruct Hq as (Hq1 & Hq2 & Hq3).
              split_and!; [by destruct o'|done|]. intros Hcc.
              assert (Hin : idx g ∈ LH ++ LF).
              { eapply (src_idx_in s LH LF o'); eauto. unfold orig_ok in Hq1. symmetry.
                apply Hq1. by destruct o'. }
              assert (0 <= idx g). { apply Hrange. set_solver. }
              assert (idx g <> i) by (intros E'; by rewrite E' in Hin).
              rewrite list_lookup_insert_ne by lia. apply Hq3. by destruct o'.
           ++ destruct Hq as [Hq1 Hq2]. split; [done|].
              assert (j <> i).
              { intros ->. apply Hne. apply (owned_unique (thr s) t' t _ _ i Hndo H Hp); simpl; set_solver. }
              assert (0 <= j). { apply Hrange. assert (j ∈ owned_all (thr s)) by (eapply owned_elem; eauto; set_solver). set_solver. }
              rewrite list_lookup_insert_ne by lia. done.
        -- simpl. split; [done|]. apply list_lookup_insert. lia.
      * rewrite (status_same _ _ t _ _ Hp); done.
    + (* PushCas *)
      assert (Hi0 : 0 <= i < Z.of_nat cap) by (apply Hown; set_solver).
      simpl in Hok. destruct Hok as [[Hr Hmine] Hni].
      destruct (negb spur && head_eqb (dst o s) orig) eqn:Ecas.
      2: { exists LH, LF, st. mkinv; auto.
           - eapply perm_swap_owned; eauto.
           - apply Forall_insert_thr; [intros t' q _ H; exact (Forall_thr s t' q Hthr H)|]. done.
           - rewrite (status_same _ _ t _ _ Hp); done. }
      apply andb_true_iff in Ecas as [_ Ecas]. apply andb_true_iff in Ecas as [Ea Ei].
      apply Z.eqb_eq in Ea, Ei.
      destruct o as [v|]; simpl in *.
      * subst r.
        exists (i :: LH), LF, (v :: st). mkinv; auto.
        -- split_and!; [done|lia|lia|]. exists (idx orig). split; [done|]. by rewrite <- Ei.
        -- rewrite <- Ea, Hah. apply u16_succ.
        -- apply (perm_swap_owned LH LF (i :: LH) LF (thr s) t _ Idle _ Hp Hperm). simpl. solve_Permutation.
        -- apply Forall_insert_thr; [|done]. intros t' q _ H.
           pose proof (Forall_thr s t' q Hthr H) as Hq. destruct q as [|[]|[] |[]| | | | |]; simpl in *; auto.
           ++ by apply bump_orig_ok.
           ++ destruct Hq as (Hq1 & Hq2 & Hq3). split_and!; auto; [by apply bump_orig_ok|].
              unfold orig_ok in Hq1. lia.
        -- by constructor.
        -- rewrite status_insert.
           eapply srun_snoc; [eapply srun_snoc; [exact Hrun|]|].
           ++ apply s_push; [done|].
              apply Permutation_length in Hperm. rewrite !app_length, fmap_length, seq_length in Hperm.
              assert (length LH = length st) as <- by (eapply Forall2_length; eauto).
              pose proof (owned_all_insert (thr s) t _ Idle Hp) as Hoi.
              apply Permutation_length in Hoi. rewrite !app_length in Hoi. simpl in Hoi. lia.
           ++ simpl. rewrite <- (list_insert_insert _ t SIdle (SDone RPushed)).
              apply s_ret. apply list_lookup_insert. rewrite fmap_length.
              by apply lookup_lt_Some in Hp.
      * destruct Hr as [v ->].
        exists LH, (i :: LF), st. mkinv; auto.
        -- split_and!; [done|lia|lia|]. exists (idx orig). split; [done|]. by rewrite <- Ei.
        -- rewrite <- Ea, Haf. apply u16_succ.
        -- apply (perm_swap_owned LH LF LH (i :: LF) (thr s) t _ Idle _ Hp Hperm). simpl. solve_Permutation.
        -- apply Forall_insert_thr; [|done]. intros t' q _ H.
           pose proof (Forall_thr s t' q Hthr H) as Hq. destruct q as [|[]|[] |[]| | | | |]; simpl in *; auto.
           ++ by apply bump_orig_ok.
           ++ destruct Hq as (Hq1 & Hq2 & Hq3). split_and!; auto; [by apply bump_orig_ok|].
              unfold orig_ok in Hq1. lia.
        -- rewrite status_insert. eapply srun_snoc; [exact Hrun|]. by constructor.
Qed.

Lemma run_inv acts s LH LF st : Inv st0 n cap s LH LF st -> no_wrap s acts ->
  exists LH' LF' st', Inv st0 n cap (run s acts) LH' LF' st'.
Proof.
  revert s LH LF st; induction acts as [|a acts IH]; intros s LH LF st I; simpl.
  - intros _. eauto.
  - intros [Ha Hr]. destruct (exec_inv s a LH LF st I Ha) as (? & ? & ? & I'). eauto.
Qed.
End Preserve.

(** ** Initial state *)
Definition usable (d : list T) : nat := Nat.min (length d) (Z.to_nat 65535).

Lemma init_nexts_lookup cap k : (k < cap)%nat ->
  init_nexts (Z.of_nat cap) !! k = Some (if Z.of_nat k <? Z.of_nat cap - 1 then u16 (Z.of_nat k + 1) else UNDEF).
Proof.
  intros H. unfold init_nexts. rewrite Nat2Z.id, list_lookup_fmap, lookup_seq_lt by done. done.
Qed.

Lemma init_chain cap m : m = Nat.min cap (Z.to_nat 65535) ->
  forall j k, (k + j = m)%nat -> (0 < j)%nat ->
  chain (init_nexts (Z.of_nat cap)) (Z.of_nat k) (Z.of_nat <$> seq k j).
Proof.
  intros Hm. induction j as [|j IH]; intros k Hk Hj; [lia|].
  cbn [seq]. rewrite fmap_cons. cbn [chain].
  assert (Hl : length (init_nexts (Z.of_nat cap)) = cap).
  { unfold init_nexts. by rewrite fmap_length, seq_length, Nat2Z.id. }
  rewrite Hl. split_and!; [done|lia|lia|].
  eexists. split; [rewrite Nat2Z.id; apply init_nexts_lookup; lia|].
  destruct j as [|j].
  - simpl. destruct (Z.of_nat k <? Z.of_nat cap - 1) eqn:E; [|done].
    apply Z.ltb_lt in E. assert (Z.of_nat k = 65534) as -> by lia. reflexivity.
  - rewrite (proj2 (Z.ltb_lt _ _)) by lia.
    assert (u16 (Z.of_nat k + 1) = Z.of_nat (S k)) as ->.
    { unfold u16. rewrite Z.mod_small; lia. }
    apply IH; lia.
Qed.

Lemma datas_take (d : list T) m : (m <= length d)%nat -> datas d (Z.of_nat <$> seq 0 m) (take m d).
Proof.
  intros Hm. unfold datas. apply Forall2_same_length_lookup. split.
  - rewrite fmap_length, seq_length, take_length. lia.
  - intros i x y Hx Hy. rewrite list_lookup_fmap in Hx.
    destruct (seq 0 m !! i) as [k|] eqn:Hk; simpl in Hx; [|done]. injection Hx as <-.
    apply lookup_seq in Hk as [-> Hi]. rewrite lookup_take in Hy by done. by rewrite Nat2Z.id.
Qed.

Lemma init_inv (d : list T) (n : nat) : d <> [] ->
  Inv (take (usable d) d) n (usable d) (init d n) (Z.of_nat <$> seq 0 (usable d)) [] (take (usable d) d).
Proof.
  intros Hd. assert (0 < length d)%nat by (destruct d; simpl; [done|lia]).
  unfold usable, init. refine (Build_Inv _ _ _ _ _ _ _ _ _ _ _ _ _ _ _ _ _ _); cbn [nexts data hd fr thr hist idx aba cnt].
  - unfold init_nexts. rewrite fmap_length, seq_length. lia.
  - lia.
  - lia.
  - apply (init_chain (length d) (Nat.min (length d) (Z.to_nat 65535)) eq_refl _ 0%nat); lia.
  - done.
  - done.
  - done.
  - assert (owned_all (replicate n (@Idle T)) = []) as ->.
    { unfold owned_all. induction n; [done|]. simpl. done. }
    by rewrite !app_nil_r.
  - apply Forall_replicate. done.
  - apply datas_take. lia.
  - rewrite fmap_replicate. simpl. constructor.
Qed.

(** ** C01 *)
Lemma lfs_linearizable_gen (d : list T) n acts : d <> [] -> no_wrap (init d n) acts ->
  exists st sts, srun (usable d) (take (usable d) d, replicate n SIdle) (rev (hist (run (init d n) acts))) (st, sts)
    /\ Forall (fun p => p <> Ub) (thr (run (init d n) acts)).
Proof.
  intros Hd Hw. destruct (run_inv _ _ _ acts _ _ _ _ (init_inv d n Hd) Hw) as (LH & LF & st & I).
  exists st. eexists. split; [apply I|].
  eapply Forall_impl; [apply I|]. intros p Hp ->. done.
Qed.

Lemma usable_small (d : list T) : Z.of_nat (length d) <= 65535 -> usable d = length d.
Proof. unfold usable. lia. Qed.

Lemma lfs_linearizable_lemma (d : list T) n acts : d <> [] -> Z.of_nat (length d) <= 65535 ->
  no_wrap (init d n) acts ->
  exists st sts, srun (length d) (d, replicate n SIdle) (rev (hist (run (init d n) acts))) (st, sts)
    /\ Forall (fun p => p <> Ub) (thr (run (init d n) acts)).
Proof.
  intros Hd Hs Hw. destruct (lfs_linearizable_gen d n acts Hd Hw) as (st & sts & H1 & H2).
  rewrite (usable_small d Hs), firstn_all in H1. eauto.
Qed.

(** Behaviours of the specification neither lose nor duplicate elements. *)
Lemma taken_app (h1 h2 : list (event T)) : taken (h1 ++ h2) = taken h1 ++ taken h2.
Proof. induction h1 as [|[| |] h1 IH]; simpl; auto. destruct r; simpl; auto. by rewrite IH. Qed.
Lemma stored_app (h1 h2 : list (event T)) : stored (h1 ++ h2) = stored h1 ++ stored h2.
Proof. induction h1 as [|[| |] h1 IH]; simpl; auto. destruct o; simpl; auto. destruct r; simpl; auto. by rewrite IH. Qed.

Lemma srun_conservation cap x (h : list (event T)) y : srun cap x h y ->
  x.1 ++ stored h ≡ₚ taken h ++ y.1 /\ ((length x.1 <= cap)%nat -> (length y.1 <= cap)%nat).
Proof.
  induction 1 as [x|x h y e z H [IH1 IH2] Hs]; [simpl; rewrite app_nil_r; split; [done|auto]|].
  rewrite taken_app, stored_app. inversion Hs; subst; cbn [fst snd taken stored] in *; rewrite ?app_nil_r;
    (split; [|intros Hx; specialize (IH2 Hx); simpl in *; lia]); try exact IH1.
  - rewrite (assoc_L (++)), IH1. solve_Permutation.
  - rewrite IH1. solve_Permutation.
  - rewrite app_nil_r in IH1. exact IH1.
Qed.

(** ** C02: one thread alone *)
Lemma head_eqb_refl h : head_eqb h h = true.
Proof. unfold head_eqb. by rewrite !Z.eqb_refl. Qed.


Arguments head_eqb : simpl never.

Definition goodrun s (acts : list (act T)) (o : op T) (h : list (event T)) : Prop :=
  no_wrap s acts /\ thr (run s acts) = [Idle] /\
  exists r, hist (run s acts) = ERet 0 r :: ELin 0 o r :: ECall 0 o :: h.
Lemma goodrun_step s a s' acts o h : not_wrapped s a -> exec s a = s' -> goodrun s' acts o h ->
  goodrun s (a :: acts) o h.
Proof. intros Hw <- (H1 & H2 & H3). unfold goodrun. cbn [no_wrap]. auto. Qed.
Lemma goodrun_idle s k o h : thr s = [Idle] -> (exists r, hist s = ERet 0 r :: ELin 0 o r :: ECall 0 o :: h) ->
  goodrun s (replicate k (AStep 0 false)) o h.
Proof.
  intros Ht Hh. induction k as [|k IH]; [by repeat split|].
  eapply (goodrun_step _ _ s); [by simpl; rewrite Ht|by simpl; rewrite Ht|done].
Qed.

Lemma alone_shape st0 cap s LH LF st o : Inv st0 1 cap s LH LF st -> thr s = [Idle] ->
  goodrun s (alone 0 o) o (hist s).
Proof.
  intros [Hcap Hdat Hsm Hhd Hfr Hah Haf Hperm Hthr Hst Hrun] Ht.
  destruct s as [nx d h f th hi]. cbn [nexts data hd fr thr hist] in *. subst th.
  assert (Hrange : forall i, i ∈ LH ++ LF ++ owned_all [@Idle T] -> 0 <= i < Z.of_nat cap).
  { intros i Hi. rewrite (assoc_L (++)) in Hperm, Hi. eapply perm_range; eauto. }
  unfold alone. cbn [replicate].
  eapply goodrun_step; [done|reflexivity|]. unfold add_ev, set_pc. cbn [nexts data hd fr thr hist insert list_insert].
  destruct o as [v|].
  - destruct LF as [|x LF].
    + cbn [chain] in Hfr. assert (E : (idx f =? UNDEF) = true) by (by apply Z.eqb_eq).
      eapply goodrun_step; [done|simpl; unfold lin_fail; simpl; rewrite E; reflexivity|].
      eapply goodrun_step; [done|simpl; rewrite E; reflexivity|].
      apply (goodrun_idle _ 5); [done|simpl; eauto].
    + destruct Hfr as (Hx & Hxr & m & Hm & _).
      assert (0 <= x < Z.of_nat cap) by (apply Hrange; set_solver).
      assert (E : (idx f =? UNDEF) = false) by (apply Z.eqb_neq; unfold UNDEF; lia).
      rewrite <- Hx in Hm.
      eapply goodrun_step; [done|simpl; unfold lin_fail; simpl; rewrite E; reflexivity|].
      eapply goodrun_step; [done|simpl; rewrite E; simpl; rewrite Hm; reflexivity|].
      eapply goodrun_step; [simpl; lia|simpl; rewrite head_eqb_refl; reflexivity|].
      do 3 (eapply goodrun_step; [done|reflexivity|]).
      eapply goodrun_step; [done|simpl; rewrite head_eqb_refl; reflexivity|].
      apply (goodrun_idle _ 0); [done|simpl; eauto].
  - destruct LH as [|x LH].
    + cbn [chain] in Hhd. assert (E : (idx h =? UNDEF) = true) by (by apply Z.eqb_eq).
      eapply goodrun_step; [done|simpl; unfold lin_fail; simpl; rewrite E; reflexivity|].
      eapply goodrun_step; [done|simpl; rewrite E; reflexivity|].
      apply (goodrun_idle _ 5); [done|simpl; eauto].
    + destruct Hhd as (Hx & Hxr & m & Hm & _).
      assert (0 <= x < Z.of_nat cap) by (apply Hrange; set_solver).
      assert (E : (idx h =? UNDEF) = false) by (apply Z.eqb_neq; unfold UNDEF; lia).
      rewrite <- Hx in Hm. inversion Hst as [|? w ? ? Hw]; subst x; subst.
      eapply goodrun_step; [done|simpl; unfold lin_fail; simpl; rewrite E; reflexivity|].
      eapply goodrun_step; [done|simpl; rewrite E; simpl; rewrite Hm; reflexivity|].
      eapply goodrun_step; [simpl; lia|simpl; rewrite head_eqb_refl; simpl; rewrite Hw; reflexivity|].
      eapply goodrun_step; [done|simpl; rewrite Hw; reflexivity|].
      do 2 (eapply goodrun_step; [done|reflexivity|]).
      eapply goodrun_step; [done|simpl; rewrite head_eqb_refl; reflexivity|].
      apply (goodrun_idle _ 0); [done|simpl; eauto].
Qed.

Lemma srun_inv_snoc cap x (h : list (event T)) e z : srun cap x (h ++ [e]) z ->
  exists y, srun cap x h y /\ sstep cap y e z.
Proof.
  remember (h ++ [e]) as g eqn:E. intros H. destruct H as [x|x h' y e' z H1 H2].
  - destruct h; done.
  - apply app_inj_tail in E as [-> ->]. eauto.
Qed.

Lemma alone_result st0 cap s LH LF st o : Inv st0 1 cap s LH LF st -> thr s = [Idle] ->
  let s' := run s (alone 0 o) in
  exists LH' LF' st' r, Inv st0 1 cap s' LH' LF' st' /\ thr s' = [Idle] /\
    hist s' = ERet 0 r :: ELin 0 o r :: ECall 0 o :: hist s.
Proof.
  intros I Ht s'. destruct (alone_shape _ _ _ _ _ _ o I Ht) as (Hw & Ht' & r & Hr).
  destruct (run_inv _ _ _ _ _ _ _ _ I Hw) as (LH' & LF' & st' & I').
  exists LH', LF', st', r. auto.
Qed.

(** The abstract stack is determined by the history. *)
Lemma sstep_fun cap y (e : event T) z1 z2 : sstep cap y e z1 -> sstep cap y e z2 -> z1 = z2.
Proof. intros H1 H2. inversion H1; subst; inversion H2; subst; congruence. Qed.
Lemma srun_fun cap x (h : list (event T)) y1 y2 : srun cap x h y1 -> srun cap x h y2 -> y1 = y2.
Proof.
  intros H. revert y2. induction H as [|x h y e z H IH Hs]; intros y2 H2.
  - remember [] as g eqn:E. destruct H2 as [|? h' ? ? ? ? ?]; [done|]. destruct h'; done.
  - apply srun_inv_snoc in H2 as (y' & H2 & Hs2). apply IH in H2 as <-. by eapply sstep_fun.
Qed.

Lemma returns_app (h1 h2 : list (event T)) : returns (h1 ++ h2) = returns h1 ++ returns h2.
Proof. induction h1 as [|[| |] h1 IH]; simpl; auto. by rewrite IH. Qed.

Lemma three_steps cap (st st' : list T) o r y1 y2 :
  sstep cap (st, [SIdle]) (ECall 0 o) y1 -> sstep cap y1 (ELin 0 o r) y2 ->
  sstep cap y2 (ERet 0 r) (st', [SIdle]) -> seq_stack cap st o = (st', r).
Proof.
  intros S1 S2 S3. inversion S1; subst. simpl in *. inversion S2; subst; simpl in *.
  - inversion S3; subst. rewrite (proj2 (Nat.ltb_lt _ _)) by done. done.
  - inversion S3; subst. done.
  - inversion S3; subst. done.
  - inversion S3; subst. rewrite (proj2 (Nat.ltb_ge _ _)); [done|]. lia.
Qed.

Lemma run_app s (l1 l2 : list (act T)) : run s (l1 ++ l2) = run (run s l1) l2.
Proof. apply fold_left_app. Qed.

Lemma seq_gen cap st0 ops s LH LF st : Inv st0 1 cap s LH LF st -> thr s = [Idle] ->
  returns (rev (hist (run s (concat (alone 0 <$> ops))))) =
  returns (rev (hist s)) ++ seq_results cap st ops.
Proof.
  revert s LH LF st; induction ops as [|o ops IH]; intros s LH LF st I Ht.
  - simpl. by rewrite app_nil_r.
  - rewrite fmap_cons. cbn [concat]. rewrite run_app.
    destruct (alone_result _ _ _ _ _ _ o I Ht) as (LH' & LF' & st' & r & I' & Ht' & Hh).
    rewrite (IH _ _ _ _ I' Ht').
    rewrite Hh. cbn [rev]. rewrite !returns_app. cbn [returns]. rewrite !app_nil_r, <- (assoc_L (++)).
    f_equal. cbn [app seq_results].
    pose proof (i_run _ _ _ _ _ _ _ I) as R. pose proof (i_run _ _ _ _ _ _ _ I') as R'.
    rewrite Hh in R'. cbn [rev] in R'. rewrite Ht' in R'. rewrite Ht in R.
    apply srun_inv_snoc in R' as (y3 & R' & S3). apply srun_inv_snoc in R' as (y2 & R' & S2).
    apply srun_inv_snoc in R' as (y1 & R' & S1).
    pose proof (srun_fun _ _ _ _ _ R R') as <-. clear R R'.
    by rewrite (three_steps _ _ _ _ _ _ _ S1 S2 S3).
Qed.

Lemma lfs_sequential_gen (d : list T) ops : d <> [] ->
  returns (rev (hist (run (init d 1) (concat (alone 0 <$> ops))))) =
  seq_results (usable d) (take (usable d) d) ops.
Proof. intros Hd. rewrite (seq_gen _ _ ops _ _ _ _ (init_inv d 1 Hd) eq_refl). done. Qed.

Lemma lfs_sequential_lemma (d : list T) ops : d <> [] -> Z.of_nat (length d) <= 65535 ->
  returns (rev (hist (run (init d 1) (concat (alone 0 <$> ops))))) = seq_results (length d) d ops.
Proof. intros Hd Hs. rewrite lfs_sequential_gen by done. by rewrite (usable_small d Hs), firstn_all. Qed.

Lemma seq_pops (st : list T) cap : seq_results cap st (replicate (S (length st)) OPop) =
  (RPopped <$> st) ++ [RPopEmpty].
Proof. induction st as [|v st IH]; [done|]. 
  change (replicate (S (length (v :: st))) (@OPop T)) with (@OPop T :: replicate (S (length st)) OPop).
  cbn [seq_results seq_stack]. by rewrite IH. Qed.

(** A stack built with more than 65535 elements gives back only 65535 of them. *)
Lemma lfs_large_lemma (d : list T) : 65535 < Z.of_nat (length d) ->
  let ops := replicate (Z.to_nat 65536) OPop in
  returns (rev (hist (run (init d 1) (concat (alone 0 <$> ops))))) =
    (RPopped <$> take (Z.to_nat 65535) d) ++ [RPopEmpty].
Proof.
  intros Hl ops. rewrite lfs_sequential_gen by (intros ->; simpl in Hl; lia).
  assert (usable d = Z.to_nat 65535) as -> by (unfold usable; lia).
  rewrite <- (seq_pops _ (Z.to_nat 65535)). f_equal. unfold ops. f_equal.
  rewrite take_length. lia.
Qed.
End Proofs.
