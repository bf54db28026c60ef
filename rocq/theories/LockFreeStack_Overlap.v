(** * C01, C03 in terms of calls: the tag of the lock-free stack cannot go round during a call that overlaps fewer than 65536 other calls.
    Model: LockFreeStack_Model; the proofs under "no wrap": LockFreeStack_Props, SmartObjectPool_Props. *)
From Coq Require Import ZArith Lia.
From stdpp Require Import prelude list_numbers gmap.
From Verif Require Import LockFreeStack_Model LockFreeStack_Spec LockFreeStack_Proofs LockFreeStack_Props SmartObjectPool_Model SmartObjectPool_Spec SmartObjectPool_Proofs SmartObjectPool_Props.
Local Open Scope Z_scope.
(** ** Specification: how many calls overlap. *)
Definition is_call {T} (e : event T) : bool := match e with ECall _ _ => true | _ => false end.
Definition is_ret {T} (e : event T) : bool := match e with ERet _ _ => true | _ => false end.
Definition ncalls {T} (h : list (event T)) : Z := Z.of_nat (length (List.filter is_call h)).
Definition nrets {T} (h : list (event T)) : Z := Z.of_nat (length (List.filter is_ret h)).
(** A call of thread t, as long as it lasts (h2): the calls in progress when it began and those begun since are fewer than 65536. *)
Definition few_overlaps {T} (h : list (event T)) : Prop := forall h1 t o h2 h3,
  h = h1 ++ ECall t o :: h2 ++ h3 -> (forall r, ERet t r ∉ h2) -> (ncalls h1 - nrets h1) + ncalls h2 < 65536.

Section P.
  Context {T : Type}.
  Implicit Types (s : cfg T) (p : pc T).
  Definition isrc (o : op T) : bool := match o with OPop => true | OPush _ => false end.
  Definition headof (w : bool) s : head_t := if w then hd s else fr s.
  Definition bud (w : bool) p : Z :=
    match p with
    | PopLoad _ | PopRead _ _ | PopCas _ _ _ => 1
    | Move o _ | PushLoad o _ _ | PushSet o _ _ _ | PushCas o _ _ _ => if Bool.eqb w (negb (isrc o)) then 1 else 0
    | _ => 0
    end.
  Definition busy1 p : Z := match p with Idle => 0 | _ => 1 end.
  Fixpoint sumf (f : pc T -> Z) (l : list (pc T)) : Z := match l with [] => 0 | p :: l => f p + sumf f l end.
  Lemma sumf_insert f (l : list (pc T)) (t : nat) p p' : l !! t = Some p -> sumf f (<[t := p']> l) = sumf f l - f p + f p'.
  Proof. revert t. induction l as [|q l IH]; intros [|t] H; simpl in *; [done|done|injection H as ->; lia|]. rewrite (IH _ H). lia. Qed.
  Lemma sumf_le f g (l : list (pc T)) : (forall p, f p <= g p) -> sumf f l <= sumf g l.
  Proof. intros H. induction l as [|q l IH]; simpl; [lia|]. specialize (H q). lia. Qed.
  Lemma sumf_ge1 f (l : list (pc T)) (t : nat) p : (forall p, 0 <= f p) -> l !! t = Some p -> f p <= sumf f l.
  Proof. intros H. revert t. induction l as [|q l IH]; intros [|t] E; simpl in *; [done|done|injection E as ->|].
    - assert (0 <= sumf f l) by (clear IH; induction l as [|q l IH]; simpl; [lia|]; specialize (H q); lia). lia.
    - specialize (IH _ E). specialize (H q). lia.
  Qed.
  Lemma bud_busy w p : bud w p <= busy1 p. Proof. destruct p; simpl; try case_match; lia. Qed.
  Lemma bud_pos w p : 0 <= bud w p. Proof. destruct p; simpl; try case_match; lia. Qed.
  Lemma ncalls_app (h1 h2 : list (event T)) : ncalls (h1 ++ h2) = ncalls h1 + ncalls h2.
  Proof. unfold ncalls. rewrite List.filter_app, app_length. lia. Qed.
  Lemma nrets_app (h1 h2 : list (event T)) : nrets (h1 ++ h2) = nrets h1 + nrets h2.
  Proof. unfold nrets. rewrite List.filter_app, app_length. lia. Qed.
  Lemma nrets_none (l : list (event T)) t r : nrets l = 0 -> ERet t r ∉ l.
  Proof. intros H Hx. assert (Hf : List.In (ERet t r) (List.filter is_ret l)) by (apply List.filter_In; split; [by apply elem_of_list_In|done]). unfold nrets in H. destruct (List.filter is_ret l); [done|simpl in H; lia]. Qed.
  Definition orig_of p : option (op T * head_t) := match p with PopRead o g | PopCas o g _ => Some (o, g) | _ => None end.
  (** One step changes one thread; each call updates each of the two heads at most once. *)
  Lemma exec_cases s a : exec s a = s \/ exists t p p' evs,
    thr s !! t = Some p /\ thr (exec s a) = <[t := p']> (thr s) /\ rev (hist (exec s a)) = rev (hist s) ++ evs /\
    (forall w, cnt (headof w s) <= cnt (headof w (exec s a)) /\ cnt (headof w (exec s a)) - cnt (headof w s) + bud w p' <= bud w p + ncalls evs) /\
    ((exists o, p = Idle /\ evs = [ECall t o] /\ p' = PopLoad o) \/
     (p <> Idle /\ ncalls evs = 0 /\ nrets evs = 1 - busy1 p' /\ (forall u r, ERet u r ∈ evs -> u = t) /\
      (forall o g, orig_of p' = Some (o, g) -> orig_of p = Some (o, g) \/ g = headof (isrc o) s))).
  Proof.
    destruct a as [t o|t spur]; cbn [exec].
    - destruct (thr s !! t) as [[]|] eqn:E; try (by left). right. exists t, Idle, (PopLoad o), [ECall t o]. split_and!; try done.
      + intros []; unfold ncalls; cbn; lia.
      + left. by exists o.
    - destruct (thr s !! t) as [p|] eqn:E; [|by left].
      assert (Hr : forall u r, ERet u r ∈ ([] : list (event T)) -> u = t) by (intros ? ? Hx; by apply elem_of_nil in Hx).
      assert (H1 : forall u r o v r', ERet u r ∈ [ELin (T:=T) o v r'] -> u = t) by (intros * Hx; apply elem_of_list_singleton in Hx; done).
      assert (H2 : forall u r r', ERet u r ∈ [ERet (T:=T) t r'] -> u = t) by (intros * Hx; apply elem_of_list_singleton in Hx; congruence).
      assert (H3 : forall u r o v r' r'', ERet u r ∈ [ELin (T:=T) o v r'; ERet t r''] -> u = t) by (intros * [Hx|Hx%elem_of_list_singleton]%elem_of_cons; congruence).
      Local Ltac fin := split_and!; [done|done|cbn [rev hist add_ev set_pc set_src set_dst set_next set_data]; rewrite ?app_nil_r, <- ?(assoc_L (++)); done|intros []; unfold ncalls; cbn; lia|right; split_and!; [done|done|done|intros u ret Hx; repeat (apply elem_of_cons in Hx as [Hx|Hx]; [congruence|]); by apply elem_of_nil in Hx|intros ? ? Ho; cbn in Ho; try done; simplify_eq; first [by left|by right]]].
      destruct p as [|o|o g|o g n|o i|o i r|o i r g|o i r g|]; cbn [loads step_pc]; [by left| | | | | | | |].
      + right. exists t, (PopLoad o), (PopRead o (src o s)). unfold lin_fail. destruct (idx (src o _) =? UNDEF).
        * exists [ELin t o (match o with OPush _ => RPushFull | OPop => RPopEmpty end)]. destruct o; fin.
        * exists []. destruct o; fin.
      + right. destruct (idx g =? UNDEF).
        * exists t, (PopRead o g), Idle, [ERet t (match o with OPush _ => RPushFull | OPop => RPopEmpty end)]. destruct o; fin.
        * destruct (nexts s !! _) as [n|]; [exists t, (PopRead o g), (PopCas o g n), []|exists t, (PopRead o g), Ub, []]; destruct o; fin.
      + right. destruct (negb spur && head_eqb (src o s) g).
        * destruct o as [v|]; [exists t, (PopCas (OPush v) g n), (Move (OPush v) (idx g)), []; fin|].
          destruct (data s !! _) as [v|]; [exists t, (PopCas OPop g n), (Move OPop (idx g)), [ELin t OPop (RPopped v)]|exists t, (PopCas OPop g n), Ub, []]; fin.
        * exists t, (PopCas o g n), (PopRead o (src o s)). unfold lin_fail. destruct (idx (src o _) =? UNDEF).
          -- exists [ELin t o (match o with OPush _ => RPushFull | OPop => RPopEmpty end)]. destruct o; fin.
          -- exists []. destruct o; fin.
      + right. destruct o as [v|]; [exists t, (Move (OPush v) i), (PushLoad (OPush v) i RPushed), []; fin|].
        destruct (data s !! _) as [v|]; [exists t, (Move OPop i), (PushLoad OPop i (RPopped v)), []|exists t, (Move OPop i), Ub, []]; fin.
      + right. exists t, (PushLoad o i r), (PushSet o i r (dst o s)), []. destruct o; fin.
      + right. exists t, (PushSet o i r g), (PushCas o i r g), []. destruct o; fin.
      + right. destruct (negb spur && head_eqb (dst o s) g).
        * destruct o as [v|]; [exists t, (PushCas (OPush v) i r g), Idle, [ELin t (OPush v) RPushed; ERet t r]|exists t, (PushCas OPop i r g), Idle, [ERet t r]]; fin.
        * exists t, (PushCas o i r g), (PushSet o i r (dst o s)), []. destruct o; fin.
      + by left.
  Qed.
  Definition phi (w : bool) s : Z := cnt (headof w s) + sumf (bud w) (thr s).
  Record OI s : Prop := {
    oi_busy : sumf busy1 (thr s) = ncalls (rev (hist s)) - nrets (rev (hist s));
    oi_thr : forall t p, thr s !! t = Some p -> p <> Idle -> exists h1 o h2 (c : bool -> Z),
      rev (hist s) = h1 ++ ECall t o :: h2 /\ (forall r, ERet t r ∉ h2) /\
      (forall w, c w <= cnt (headof w s) /\ phi w s <= c w + (ncalls h1 - nrets h1) + 1 + ncalls h2) /\
      (forall o g, orig_of p = Some (o, g) -> c (isrc o) <= cnt g)
  }.
  Lemma oi_step s a : OI s -> OI (exec s a).
  Proof.
    intros [B I]. destruct (exec_cases s a) as [->|(t & p & p' & evs & Hp & Ht & Hh & Hc & Hk)]; [done|].
    assert (Hphi : forall w, phi w (exec s a) <= phi w s + ncalls evs). { intros w. unfold phi. rewrite Ht, (sumf_insert _ _ _ _ _ Hp). destruct (Hc w). lia. }
    constructor.
    - rewrite Ht, (sumf_insert _ _ _ _ _ Hp), Hh, ncalls_app, nrets_app, B. destruct Hk as [(o & -> & -> & ->)|(Hn & -> & -> & _)]; [unfold ncalls, nrets; cbn; lia|]. destruct p; cbn; try done; lia.
    - intros u q Hq Hqi. rewrite Ht in Hq. destruct (decide (u = t)) as [->|Hne].
      + rewrite list_lookup_insert in Hq by (by eapply lookup_lt_Some). injection Hq as ->. destruct Hk as [(o & -> & -> & ->)|(Hn & Hc0 & Hn0 & Hret & Ho)].
        * exists (rev (hist s)), o, [], (fun w => cnt (headof w s)). split_and!; [done|intros r Hx; by apply elem_of_nil in Hx| |done].
          intros w. destruct (Hc w) as [Hc1 _]. split; [done|]. specialize (Hphi w). unfold phi at 2 in Hphi. pose proof (sumf_le (bud w) busy1 (thr s) (bud_busy w)) as Hs. rewrite B in Hs.
          assert (ncalls [ECall t o] = 1) by done. assert (ncalls (T:=T) [] = 0) by done. lia.
        * destruct (I t p Hp Hn) as (h1 & o & h2 & c & E & Hr & Hw & Hg). exists h1, o, (h2 ++ evs), c. split_and!.
          -- rewrite Hh, E. by rewrite <- (assoc_L (++)).
          -- intros r [Hx|Hx]%elem_of_app; [by apply (Hr r)|]. apply (nrets_none evs t r); [|done]. rewrite Hn0. by destruct q.
          -- intros w. destruct (Hw w), (Hc w). specialize (Hphi w). rewrite ncalls_app. split; lia.
          -- intros o' g Hog. destruct (Ho _ _ Hog) as [Hog'| ->]; [by apply Hg|apply Hw].
      + rewrite list_lookup_insert_ne in Hq by done. destruct (I u q Hq Hqi) as (h1 & o & h2 & c & E & Hr & Hw & Hg). exists h1, o, (h2 ++ evs), c. split_and!.
        * rewrite Hh, E. by rewrite <- (assoc_L (++)).
        * intros r [Hx|Hx]%elem_of_app; [by apply (Hr r)|]. destruct Hk as [(o' & -> & -> & ->)|(_ & _ & _ & Hret & _)]; [apply elem_of_list_singleton in Hx; done|]. by apply Hne, (Hret u r).
        * intros w. destruct (Hw w), (Hc w). specialize (Hphi w). rewrite ncalls_app. split; lia.
        * done.
  Qed.
  Lemma oi_init (d : list T) n : OI (init d n).
  Proof. constructor; cbn; [induction n as [|n IH]; [done|]; cbn; exact IH|]. intros t p [-> _]%lookup_replicate H. done. Qed.
  Lemma hist_grows s a : exists evs, rev (hist (exec s a)) = rev (hist s) ++ evs.
  Proof. destruct (exec_cases s a) as [->|(t & p & p' & evs & _ & _ & Hh & _)]; [exists []; by rewrite app_nil_r|by exists evs]. Qed.
  Lemma hist_grows_run s acts : exists evs, rev (hist (run s acts)) = rev (hist s) ++ evs.
  Proof.
    revert s. induction acts as [|a l IH]; intros s; [exists []; by rewrite app_nil_r|]. cbn. destruct (IH (exec s a)) as [e2 E2]. destruct (hist_grows s a) as [e1 E1]. unfold run in E2. rewrite E2, E1. exists (e1 ++ e2). by rewrite <- (assoc_L (++)).
  Qed.
  (** The bound on overlaps excludes a tag that has gone round. *)
  Lemma few_no_wrap s acts : OI s -> few_overlaps (rev (hist (run s acts))) -> no_wrap s acts.
  Proof.
    revert s. induction acts as [|a l IH]; intros s I Hf; cbn [no_wrap]; [done|]. split; [|apply IH; [by apply oi_step|done]].
    destruct a as [|t spur]; [done|]. cbn. destruct (thr s !! t) as [p|] eqn:Hp; [|done]. destruct p as [| | |o g n| | | | |]; try done.
    destruct (oi_thr _ I t _ Hp) as (h1 & o' & h2 & c & E & Hr & Hw & Hg); [done|]. destruct (hist_grows_run s (AStep t spur :: l)) as [evs He]. rewrite He, E in Hf.
    specialize (Hf h1 t o' h2 evs ltac:(by rewrite <- (assoc_L (++))) Hr). destruct (Hw (isrc o)) as [_ Hphi]. specialize (Hg o g eq_refl). unfold phi in Hphi.
    pose proof (sumf_ge1 (bud (isrc o)) (thr s) t _ (bud_pos _) Hp) as Hs. cbn [bud] in Hs. assert (Hsrc : src o s = headof (isrc o) s) by (by destruct o). rewrite Hsrc. lia.
  Qed.
End P.
(** ** C01: whatever the schedule, if no call overlaps 65536 or more others, the stack is an atomic bounded stack, and nothing is lost or duplicated. *)
Theorem C01_lfs_linearizable : forall (T : Type) (d : list T) n acts,
  d <> [] -> Z.of_nat (length d) <= 65535 -> few_overlaps (rev (hist (run (init d n) acts))) ->
  exists st sts,
    srun (length d) (d, replicate n SIdle) (rev (hist (run (init d n) acts))) (st, sts)
    /\ Forall (fun p => p <> Ub) (thr (run (init d n) acts)).
Proof. intros T d n acts H1 H2 H3. apply C01_lfs_linearizable_partial; [done..|]. by apply few_no_wrap, H3; apply oi_init. Qed.
Theorem C01_lfs_conservation : forall (T : Type) (d : list T) n acts,
  d <> [] -> Z.of_nat (length d) <= 65535 -> few_overlaps (rev (hist (run (init d n) acts))) ->
  let h := rev (hist (run (init d n) acts)) in
  exists st, d ++ stored h ≡ₚ taken h ++ st /\ (length st <= length d)%nat.
Proof. intros T d n acts H1 H2 H3. apply C01_lfs_conservation_partial; [done..|]. by apply few_no_wrap, H3; apply oi_init. Qed.
(** In particular if fewer than 65537 calls are made in all. *)
Lemma nrets_pos {T} (h : list (event T)) : 0 <= nrets h. Proof. unfold nrets. lia. Qed.
Lemma ncalls_pos {T} (h : list (event T)) : 0 <= ncalls h. Proof. unfold ncalls. lia. Qed.
Theorem C01_few_calls : forall (T : Type) (h : list (event T)), ncalls h <= 65536 -> few_overlaps h.
Proof.
  intros T h H h1 t o h2 h3 -> _. rewrite ncalls_app in H. change (ECall t o :: h2 ++ h3) with ([ECall t o] ++ h2 ++ h3) in H. rewrite !ncalls_app in H.
  assert (E : ncalls [ECall t o] = 1) by done. pose proof (nrets_pos h1). pose proof (ncalls_pos h3). lia.
Qed.
(** The bound cannot be dropped: 65538 calls, the first one overlapping 65536 others, pop an element twice that was there once. *)
Lemma wrap_counts (sch : list (act Z)) : let h := rev_append (hist (run (init [10; 11; 12] 3) sch)) [] in
  (ncalls h, count_occ Z.eq_dec ([10; 11; 12] ++ stored h) 11, count_occ Z.eq_dec (taken h) 11) = (65538, 1%nat, 2%nat) ->
  exists acts : list (act Z), let h := rev (hist (run (init [10; 11; 12] 3) acts)) in
  ncalls h = 65538 /\ count_occ Z.eq_dec ([10; 11; 12] ++ stored h) 11 = 1%nat /\ count_occ Z.eq_dec (taken h) 11 = 2%nat.
Proof. intros h H. exists sch. rewrite rev_alt. fold h. apply pair_equal_spec in H as [H H3]. apply pair_equal_spec in H as [H1 H2]. split_and!; [exact H1|exact H2|exact H3]. Qed.
Theorem C112_tag_wrap_refuted : exists acts : list (act Z), let h := rev (hist (run (init [10; 11; 12] 3) acts)) in
  ncalls h = 65538 /\ count_occ Z.eq_dec ([10; 11; 12] ++ stored h) 11 = 1%nat /\ count_occ Z.eq_dec (taken h) 11 = 2%nat.
Proof. apply (wrap_counts wrap_schedule). vm_cast_no_check (eq_refl (65538, 1%nat, 2%nat)). Qed.
(** ** C03: the object pool. *)
Theorem C03_pool_shared : forall (d : list obj) n acts,
  NoDup d -> d <> [] -> (Z.of_nat (length d) <= 65535)%Z ->
  let h := rev (hist (run (init d n) acts)) in
  few_overlaps h -> disciplined h ->
  NoDup (held_after h) /\ (forall x, x ∈ held_after h -> x ∈ d) /\ (forall t, ERet t RPushFull ∉ h).
Proof. intros d n acts H1 H2 H3 h H4 H5. apply C03_pool_concurrent; [done..| |done]. by apply few_no_wrap, H4; apply oi_init. Qed.
Example C01_overlap_case : few_overlaps (rev (hist (run (init [5; 6; 7] 2) demo))) /\ ncalls (rev (hist (run (init [5; 6; 7] 2) demo))) = 3.
Proof. split; [|by vm_compute]. apply C01_few_calls. by vm_compute. Qed.
Example C03_overlap_case : few_overlaps (rev (hist (run (init [4; 5]%nat 2) pool_demo))) /\ disciplined (rev (hist (run (init [4; 5]%nat 2) pool_demo))).
Proof. split; [apply C01_few_calls; by vm_compute|apply C03_concurrent_case]. Qed.
Print Assumptions C01_lfs_linearizable.
Print Assumptions C01_lfs_conservation.
Print Assumptions C01_few_calls.
Print Assumptions C112_tag_wrap_refuted.
Print Assumptions C03_pool_shared.
