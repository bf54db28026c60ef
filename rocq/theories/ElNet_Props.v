(** * Event loops whose listeners publish: invariants and progress (C109). *)
From Coq Require Import Lia.
From stdpp Require Import prelude.
From Verif Require Import Forward_Model Forward_Spec Forward_Props ElNet_Model ElNet_Spec.
Section Proofs.
  Context {V : Type} (size : nat -> nat) (out : nat -> V -> list (nat * V)) (thr : nat -> V -> bool).
  Notation step := (l_step size out thr).
  Notation run := (l_run size out thr).
  Lemma alter_some {A} (f : A -> A) (j : nat) (ns : list A) (k : nat) x : alter f j ns !! k = Some x -> exists y, ns !! k = Some y /\ x = if decide (k = j) then f y else y.
  Proof.
    destruct (decide (k = j)) as [->|Hne].
    - rewrite list_lookup_alter. intros (y & Hy & ->)%fmap_Some. by exists y.
    - rewrite list_lookup_alter_ne by done. intros H. by exists x.
  Qed.
  Lemma recv_same j e (nd : lnode V) : l_log (recv size j e nd) = l_log nd /\ l_pend (recv size j e nd) = l_pend nd /\ l_thr (recv size j e nd) = l_thr nd /\ l_on (recv size j e nd) = l_on nd /\
    l_done (recv size j e nd) = l_done nd /\ l_b (recv size j e nd) = l_b nd /\ l_held (recv size j e nd) = l_held nd.
  Proof. unfold recv. by destruct (used nd <? size j). Qed.
  Lemma recv_att j e (nd : lnode V) : exists ok, l_att (recv size j e nd) = l_att nd ++ [(e, ok)] /\ (if ok then l_q (recv size j e nd) = l_q nd ++ [e] /\ used nd < size j else l_q (recv size j e nd) = l_q nd /\ size j <= used nd).
  Proof. unfold recv. destruct (Nat.ltb_spec (used nd) (size j)); [by exists true|by exists false]. Qed.
  Lemma accepted_app (a b : list ((src * V) * bool)) : accepted (a ++ b) = accepted a ++ accepted b.
  Proof. unfold accepted. by rewrite List.filter_app, fmap_app. Qed.
  Lemma src_eq_tr a b : src_eq a b = true <-> a = b.
  Proof. destruct a, b; cbn; rewrite ?Nat.eqb_eq; naive_solver. Qed.
  Notation fatt nd := (fst <$> l_att nd).
  Record linv (progs : list (list (nat * V))) (s : lnet V) : Prop := {
    i_node : forall i j ni nj, k_nodes s !! i = Some ni -> k_nodes s !! j = Some nj ->
      from_src (SrcNode i) (fatt nj) ++ sent_to j (l_pend ni) = sent_to j (all_out out i (l_log ni));
    i_ext : forall t j p0 p nj, progs !! t = Some p0 -> k_ext s !! t = Some p -> k_nodes s !! j = Some nj ->
      from_src (SrcExt t) (fatt nj) ++ sent_to j p = sent_to j p0;
    i_flow : forall j nj, k_nodes s !! j = Some nj -> accepted (l_att nj) = l_log nj ++ l_b nj ++ l_q nj /\ used nj <= size j
  }.
  Lemma linv_new n progs stops : linv progs (l_new n progs stops).
  Proof.
    constructor; unfold l_new; cbn.
    - intros i j ni nj [-> _]%lookup_replicate [-> _]%lookup_replicate. done.
    - intros t j p0 p nj E1 E2 [-> _]%lookup_replicate. cbn. congruence.
    - intros j nj [-> _]%lookup_replicate. cbn. split; [done|lia].
  Qed.
  (* steps that publish nothing *)
  Lemma linv_own progs s i f ctl w : linv progs s ->
    (forall ni, k_nodes s !! i = Some ni -> l_att (f ni) = l_att ni /\ l_log (f ni) ++ l_b (f ni) ++ l_q (f ni) = l_log ni ++ l_b ni ++ l_q ni /\ used (f ni) <= used ni /\
      exists more, all_out out i (l_log (f ni)) = all_out out i (l_log ni) ++ more /\ l_pend (f ni) = l_pend ni ++ more) ->
    linv progs (LNet (alter f i (k_nodes s)) (k_ext s) ctl w).
  Proof.
    intros [F1 F2 F3] Hf.
    assert (Ha : forall k x, alter f i (k_nodes s) !! k = Some x -> exists y, k_nodes s !! k = Some y /\ l_att x = l_att y /\ l_log x ++ l_b x ++ l_q x = l_log y ++ l_b y ++ l_q y /\ used x <= used y).
    { intros k x (y & Hy & ->)%alter_some. exists y. split; [done|]. destruct (decide (k = i)) as [->|]; [|done]. destruct (Hf y Hy) as (A & B & C & _). done. }
    constructor; cbn.
    - intros a b na nb Hna (yb & Hyb & -> & _)%Ha. apply alter_some in Hna as (ya & Hya & ->).
      destruct (decide (a = i)) as [->|]; [|by apply F1]. destruct (Hf ya Hya) as (_ & _ & _ & more & -> & ->).
      rewrite !sent_to_app, (assoc_L (++)). f_equal. by apply F1.
    - intros t j p0 p nj P1 P2 (y & Hy & -> & _)%Ha. by eapply F2.
    - intros j nj (y & Hy & -> & -> & Hu)%Ha. destruct (F3 j y Hy). split; [done|lia].
  Qed.
  (* publications *)
  Lemma flow_recv (nd : lnode V) j e : accepted (l_att nd) = l_log nd ++ l_b nd ++ l_q nd /\ used nd <= size j ->
    accepted (l_att (recv size j e nd)) = l_log (recv size j e nd) ++ l_b (recv size j e nd) ++ l_q (recv size j e nd) /\ used (recv size j e nd) <= size j.
  Proof.
    intros [H1 H2]. unfold recv. destruct (Nat.ltb_spec (used nd) (size j)); cbn [l_att l_log l_b l_q]; rewrite accepted_app, H1; unfold used in *; cbn.
    - rewrite <- !(assoc_L (++)), app_length. split; [done|cbn; lia].
    - rewrite app_nil_r. done.
  Qed.
  Lemma linv_step progs s a : linv progs s -> linv progs (step s a).
  Proof.
    intros F. pose proof F as [F1 F2 F3]. destruct a as [i k|t|]; cbn [l_step].
    - destruct (k_nodes s !! i) as [nd|] eqn:Hi; [|done]. destruct (l_done nd) eqn:Hdn; [done|].
      destruct (l_pend nd) as [|[j v] r] eqn:Hp.
      + apply linv_own; [done|]. intros ni Hni. rewrite Hi in Hni. injection Hni as <-. unfold own_step, used. rewrite Hp.
        destruct (l_thr nd) eqn:Ht; cbn.
        { rewrite app_length. split_and!; [done..|lia|]. exists []. by rewrite app_nil_r. }
        destruct (l_b nd) as [|e b] eqn:Hb.
        * destruct (l_held nd) eqn:Hh; [|cbn; split_and!; [done..|lia|exists []; by rewrite app_nil_r]].
          destruct (l_on nd); cbn; (split_and!; [done| | |exists []; by rewrite app_nil_r]); [| |done|lia].
          -- destruct (l_q nd); [done|]. cbn. f_equal. f_equal. apply take_drop.
          -- destruct (l_q nd) as [|x q]; [done|]. cbn [take drop length]. rewrite take_length, drop_length. lia.
        * cbn. split_and!; [done|by rewrite <- (assoc_L (++))|lia|]. exists (out i (e.2)). split; [apply all_out_snoc|done].
      + assert (Ha : forall a na, alter (recv size j (SrcNode i, v)) j (alter (set_pend r) i (k_nodes s)) !! a = Some na -> exists ya, k_nodes s !! a = Some ya /\ l_log na = l_log ya /\ l_pend ya = (if decide (a = i) then [(j, v)] else []) ++ l_pend na /\
          exists ok, l_att na = l_att ya ++ (if decide (a = j) then [((SrcNode i, v), ok)] else [])).
        { intros a na (y & (z & Hz & ->)%alter_some & ->)%alter_some. exists z. split; [done|].
          destruct (recv_same j (SrcNode i, v) (if decide (a = i) then set_pend r z else z)) as (R1 & R2 & _). destruct (recv_att j (SrcNode i, v) (if decide (a = i) then set_pend r z else z)) as (ok & R3 & _).
          destruct (decide (a = j)) as [Ej|Ej]; destruct (decide (a = i)) as [Ei|Ei]; rewrite ?R1, ?R2, ?R3; cbn.
          - subst a. rewrite Hi in Hz. injection Hz as <-. split_and!; [done..|by exists ok].
          - split_and!; [done..|by exists ok].
          - subst a. rewrite Hi in Hz. injection Hz as <-. split_and!; [done..|exists ok; by rewrite app_nil_r].
          - split_and!; [done..|exists ok; by rewrite app_nil_r]. }
        constructor; cbn.
        * intros a b na nb (ya & Hya & -> & Epa & _)%Ha (yb & Hyb & _ & _ & ok & ->)%Ha.
          rewrite <- (F1 _ _ _ _ Hya Hyb), Epa, fmap_app, from_src_app, sent_to_app, <- (assoc_L (++)). f_equal. f_equal.
          destruct (decide (b = j)) as [->|Hbj]; [cbn [fmap list_fmap fst]; rewrite from_src_one|]; destruct (decide (a = i)) as [->|Hai].
          -- rewrite sent_to_cons, Nat.eqb_refl. by rewrite (proj2 (src_eq_tr _ _) eq_refl).
          -- destruct (src_eq (SrcNode i) (SrcNode a)) eqn:E; [|done]. apply src_eq_tr in E. naive_solver.
          -- rewrite sent_to_cons. by destruct (Nat.eqb_spec j b); [subst|].
          -- done.
        * intros u b p0 p nb P1 P2 (yb & Hyb & _ & _ & ok & ->)%Ha. rewrite fmap_app, from_src_app.
          replace (from_src (SrcExt u) (fst <$> (if decide (b = j) then [(SrcNode i, v, ok)] else []))) with (@nil V) by (by destruct (decide (b = j))).
          rewrite app_nil_r. by eapply F2.
        * intros b nb (y & (z & Hz & ->)%alter_some & ->)%alter_some. specialize (F3 _ _ Hz).
          assert (H : forall x, x = (if decide (b = i) then set_pend r z else z) -> accepted (l_att x) = l_log x ++ l_b x ++ l_q x /\ used x <= size b). { intros x ->. by destruct (decide (b = i)). }
          destruct (decide (b = j)) as [->|]; [|by apply H]. apply flow_recv. by apply H.
    - destruct (k_ext s !! t) as [[|[j v] r]|] eqn:Ht; [done| |done].
      assert (Ha : forall a na, alter (recv size j (SrcExt t, v)) j (k_nodes s) !! a = Some na -> exists ya, k_nodes s !! a = Some ya /\ l_log na = l_log ya /\ l_pend na = l_pend ya /\
          exists ok, l_att na = l_att ya ++ (if decide (a = j) then [((SrcExt t, v), ok)] else [])).
      { intros a na (y & Hy & ->)%alter_some. exists y. split; [done|].
        destruct (recv_same j (SrcExt t, v) y) as (R1 & R2 & _). destruct (recv_att j (SrcExt t, v) y) as (ok & R3 & _).
        destruct (decide (a = j)) as [Ej|Ej]; rewrite ?R1, ?R2, ?R3; split_and!; try done; exists ok; by rewrite ?app_nil_r. }
      constructor; cbn.
      + intros a b na nb (ya & Hya & -> & -> & _)%Ha (yb & Hyb & _ & _ & ok & ->)%Ha. rewrite fmap_app, from_src_app.
        replace (from_src (SrcNode a) (fst <$> (if decide (b = j) then [(SrcExt t, v, ok)] else []))) with (@nil V) by (by destruct (decide (b = j))).
        rewrite app_nil_r. by apply F1.
      + intros u b p0 p nb P1 P2 (yb & Hyb & _ & _ & ok & ->)%Ha.
        assert (HE : exists pu, k_ext s !! u = Some pu /\ pu = (if decide (u = t) then [(j, v)] else []) ++ p).
        { apply list_lookup_insert_Some in P2 as [(<- & <- & _)|[Hne Hx]].
          - exists ((j, v) :: r). split; [done|]. by rewrite decide_True by done.
          - exists p. split; [done|]. by rewrite decide_False by done. }
        destruct HE as (pu & Hpu & ->).
        rewrite <- (F2 _ _ _ _ _ P1 Hpu Hyb), fmap_app, from_src_app, sent_to_app, <- (assoc_L (++)). f_equal. f_equal.
        destruct (decide (b = j)) as [->|Hbj]; [cbn [fmap list_fmap fst]; rewrite from_src_one|]; destruct (decide (u = t)) as [->|Hut].
        * rewrite sent_to_cons, Nat.eqb_refl. by rewrite (proj2 (src_eq_tr _ _) eq_refl).
        * destruct (src_eq (SrcExt t) (SrcExt u)) eqn:E; [|done]. apply src_eq_tr in E. naive_solver.
        * rewrite sent_to_cons. by destruct (Nat.eqb_spec j b); [subst|].
        * done.
      + intros b nb (y & Hy & ->)%alter_some. specialize (F3 _ _ Hy). destruct (decide (b = j)) as [->|]; [|done]. by apply flow_recv.
    - destruct (k_ctl s) as [|i r]; [done|]. destruct (k_nodes s !! i) as [nd|] eqn:Hi; [|done].
      destruct (k_waiting s).
      + destruct (l_done nd); [|done]. constructor; cbn; done.
      + apply linv_own; [done|]. intros ni Hni. unfold set_off, used. cbn. split_and!; [done..|]. exists []. by rewrite !app_nil_r.
  Qed.
  Lemma linv_run progs s acts : linv progs s -> linv progs (run s acts).
  Proof. unfold l_run. revert s. induction acts as [|a acts IH]; intros s F; [done|]. cbn. apply IH. by apply linv_step. Qed.
  (** ** Progress: every effective step decreases a measure. *)
  Context (total : nat -> V -> nat) (Htot : forall i v, sum_list_with (fun e => 1 + total (e.1) (e.2)) (out i v) <= total i v).
  Definition sz (i : nat) (v : V) : nat := 1 + 2 * total i v.
  Definition lw (i : nat) (nd : lnode V) : nat :=
    sum_list_with (fun e => 5 * sz i (e.2)) (l_b nd) + sum_list_with (fun e => 5 * sz i (e.2)) (l_q nd) + l_held nd + sum_list_with (fun e => 1 + 5 * sz (e.1) (e.2)) (l_pend nd) +
    (if l_thr nd then 2 else 0) + (match l_b nd with [] => 1 | _ => 0 end) + (if l_done nd then 0 else 2).
  Fixpoint lsum (k : nat) (ns : list (lnode V)) : nat := match ns with [] => 0 | nd :: r => lw k nd + lsum (S k) r end.
  Lemma lsum_alter k ns i x f : ns !! i = Some x -> lsum k (alter f i ns) + lw (k + i) x = lsum k ns + lw (k + i) (f x).
  Proof.
    revert k i. induction ns as [|a ns IH]; intros k [|i] H; simpl in *; simplify_eq.
    - rewrite Nat.add_0_r. lia.
    - specialize (IH (S k) _ H). replace (k + S i) with (S k + i) by lia. unfold alter in IH. lia.
  Qed.
  Lemma sz_out i v : sum_list_with (fun e => 1 + 5 * sz (e.1) (e.2)) (out i v) + 5 <= 5 * sz i v.
  Proof.
    specialize (Htot i v). unfold sz at 2. assert (H : sum_list_with (fun e => 1 + 5 * sz (e.1) (e.2)) (out i v) <= 10 * sum_list_with (fun e => 1 + total (e.1) (e.2)) (out i v)); [|cbn [sum_list_with] in *; lia].
    clear. unfold sz. induction (out i v) as [|e l IH]; cbn [sum_list_with]; lia.
  Qed.
  Lemma lsum_recv ns j e : lsum 0 (alter (recv size j e) j ns) <= lsum 0 ns + 5 * sz j (e.2).
  Proof.
    destruct (ns !! j) as [nd|] eqn:Hj.
    - pose proof (lsum_alter 0 _ _ _ (recv size j e) Hj) as E. cbn [Nat.add] in E. unfold lw in E.
      destruct (recv_same j e nd) as (_ & R1 & R2 & _ & R3 & R4 & R5). rewrite R1, R2, R3, R4, R5 in E.
      destruct (recv_att j e nd) as (ok & _ & Hq). destruct ok; destruct Hq as [Hq _]; rewrite Hq in E; rewrite ?sum_list_with_app in E; cbn [sum_list_with] in E; lia.
    - assert (alter (recv size j e) j ns = ns) as ->; [|lia]. apply list_eq. intros k. destruct (decide (k = j)) as [->|]; [by rewrite list_lookup_alter, Hj|by rewrite list_lookup_alter_ne].
  Qed.
  Definition lew (p : list (nat * V)) : nat := sum_list_with (fun e => 1 + 5 * sz (e.1) (e.2)) p.
  Definition lm (s : lnet V) : nat := lsum 0 (k_nodes s) + sum_list_with lew (k_ext s) + (2 * length (k_ctl s) - if k_waiting s then 1 else 0).
  Lemma suml_insert {A} (f : A -> nat) (l : list A) i x y : l !! i = Some x -> sum_list_with f (<[i := y]> l) + f x = sum_list_with f l + f y.
  Proof. revert i. induction l as [|a l IH]; intros [|i] H; simpl in *; simplify_eq; [lia|]. specialize (IH _ H). lia. Qed.
  Lemma own_same i k (nd : lnode V) : l_done nd = false -> l_pend nd = [] -> own_step out thr i k nd = nd \/ lw i (own_step out thr i k nd) < lw i nd.
  Proof.
    intros Hd Hp. destruct nd as [b q h p th on dn lg at_]. cbn [l_done l_pend] in Hd, Hp. subst p dn. unfold own_step, lw.
    cbn [l_b l_q l_held l_pend l_thr l_on l_done l_log l_att].
    destruct th; cbn [l_b l_q l_held l_pend l_thr l_on l_done l_log l_att sum_list_with take drop].
    { right. rewrite sum_list_with_app. destruct b; cbn [l_b l_q l_held l_pend l_thr l_on l_done l_log l_att sum_list_with take drop]; lia. }
    destruct b as [|e b]; cbn [l_b l_q l_held l_pend l_thr l_on l_done l_log l_att sum_list_with take drop].
    - destruct h; [|right; cbn [l_b l_q l_held l_pend l_thr l_on l_done l_log l_att sum_list_with take drop]; lia]. destruct on; [|right; cbn [l_b l_q l_held l_pend l_thr l_on l_done l_log l_att sum_list_with take drop]; lia].
      destruct q as [|x q]; [by left|]. right. cbn [l_b l_q l_held l_pend l_thr l_on l_done l_log l_att sum_list_with take drop].
      rewrite <- (take_drop k q) at 3. rewrite sum_list_with_app. lia.
    - right. pose proof (sz_out i (e.2)) as Ho. destruct (thr i e.2); destruct b; cbn [l_b l_q l_held l_pend l_thr l_on l_done l_log l_att sum_list_with take drop]; lia.
  Qed.
  Lemma alter_same (f : lnode V -> lnode V) (i : nat) (ns : list (lnode V)) nd : ns !! i = Some nd -> f nd = nd -> alter f i ns = ns.
  Proof. intros Hi Hf. apply list_eq. intros k. destruct (decide (k = i)) as [->|]; [rewrite list_lookup_alter, Hi; cbn; by rewrite Hf|by rewrite list_lookup_alter_ne]. Qed.
  Lemma lm_dec s a : step s a = s \/ lm (step s a) < lm s.
  Proof.
    destruct a as [i k|t|]; cbn [l_step].
    - destruct (k_nodes s !! i) as [nd|] eqn:Hi; [|by left]. destruct (l_done nd) eqn:Hdn; [by left|].
      destruct (l_pend nd) as [|[j v] r] eqn:Hp.
      + destruct (own_same i k nd Hdn Hp) as [E|E]; [left|right].
        * rewrite (alter_same _ _ _ _ Hi E). by destruct s.
        * pose proof (lsum_alter 0 _ _ _ (own_step out thr i k) Hi) as E2. cbn [Nat.add] in E2. unfold lm. cbn [k_nodes k_ext k_ctl k_waiting]. lia.
      + right. pose proof (lsum_recv (alter (set_pend r) i (k_nodes s)) j (SrcNode i, v)) as E1.
        pose proof (lsum_alter 0 _ _ _ (set_pend r) Hi) as E2. cbn [Nat.add] in E2. unfold lw, set_pend in E2. cbn [l_b l_q l_held l_pend l_thr l_on l_done l_log l_att] in E2. rewrite Hp in E2. cbn [sum_list_with fst snd] in E1, E2.
        unfold set_pend in E1. unfold lm, set_pend. cbn [k_nodes k_ext k_ctl k_waiting]. lia.
    - destruct (k_ext s !! t) as [[|[j v] r]|] eqn:Ht; [by left| |by left]. right.
      pose proof (lsum_recv (k_nodes s) j (SrcExt t, v)) as E1. cbn [snd] in E1.
      pose proof (suml_insert lew _ _ _ r Ht) as E. unfold lew at 2 in E. cbn [sum_list_with fst snd] in E. fold (lew r) in E.
      unfold lm. cbn [k_nodes k_ext k_ctl k_waiting]. lia.
    - destruct (k_ctl s) as [|i r] eqn:Hc; [by left|]. destruct (k_nodes s !! i) as [nd|] eqn:Hi; [|by left].
      destruct (k_waiting s) eqn:Hw.
      + destruct (l_done nd); [|by left]. right. unfold lm. cbn [k_nodes k_ext k_ctl k_waiting]. rewrite Hc, Hw. cbn [length]. lia.
      + right. pose proof (lsum_alter 0 _ _ _ set_off Hi) as E. unfold lw, set_off in E. cbn [l_b l_q l_held l_pend l_thr l_on l_done l_log l_att] in E. unfold lm, set_off. cbn [k_nodes k_ext k_ctl k_waiting]. rewrite Hc, Hw. cbn [length]. lia.
  Qed.
End Proofs.
