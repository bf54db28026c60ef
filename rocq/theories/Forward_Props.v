(** * Chains and networks of in-memory providers (C107). *)
From Coq Require Import Lia.
From stdpp Require Import prelude.
From Verif Require Import Forward_Model Forward_Spec.
Section Proofs.
  Context {V : Type} (cap : nat -> nat) (disc : nat -> bool) (out : nat -> V -> list (nat * V)).
  Notation step := (f_step cap disc out).
  Notation run := (f_run cap disc out).
  Notation pushx := (push cap disc).
  Lemma push_spec (ns : list (node V)) j e ns' : pushx ns j e = Some ns' ->
    exists nd q', ns !! j = Some nd /\ ns' = <[j := Node (q' ++ [e]) (n_pend nd) (n_on nd) (n_done nd) (n_log nd) (n_in nd ++ [e])]> ns /\
      q' `sublist_of` n_q nd /\ (disc j = false -> q' = n_q nd /\ length (n_q nd) < cap j).
  Proof.
    unfold push. destruct (ns !! j) as [nd|] eqn:E; [|done]. destruct (disc j) eqn:Ed.
    - intros [= <-]. eexists nd, _. split; [done|]. split; [done|]. split; [|done]. destruct (cap j =? 0); [done|apply sublist_drop].
    - destruct (Nat.ltb_spec (length (n_q nd)) (cap j)); [|done]. intros [= <-]. exists nd, (n_q nd). done.
  Qed.
  Lemma from_src_app p (a b : list (src * V)) : from_src p (a ++ b) = from_src p a ++ from_src p b.
  Proof. unfold from_src. by rewrite List.filter_app, fmap_app. Qed.
  Lemma sent_to_app j (a b : list (nat * V)) : sent_to j (a ++ b) = sent_to j a ++ sent_to j b.
  Proof. unfold sent_to. by rewrite List.filter_app, fmap_app. Qed.
  Lemma sent_to_cons j k v (b : list (nat * V)) : sent_to j ((k, v) :: b) = (if k =? j then [v] else []) ++ sent_to j b.
  Proof. unfold sent_to. cbn. by destruct (k =? j). Qed.
  Lemma from_src_one p q (v : V) : from_src p [(q, v)] = if src_eq q p then [v] else [].
  Proof. unfold from_src. cbn. by destruct (src_eq q p). Qed.
  Lemma src_eq_true a b : src_eq a b = true <-> a = b.
  Proof. destruct a, b; cbn; rewrite ?Nat.eqb_eq; naive_solver. Qed.
  Lemma all_out_snoc i l e : all_out out i (l ++ [e]) = all_out out i l ++ out i (e.2).
  Proof. unfold all_out. rewrite fmap_app, concat_app. cbn. by rewrite app_nil_r. Qed.
  Record finv (progs : list (list (nat * V))) (s : net V) : Prop := {
    f_node : forall i j ni nj, t_nodes s !! i = Some ni -> t_nodes s !! j = Some nj ->
      from_src (SrcNode i) (n_in nj) ++ sent_to j (n_pend ni) = sent_to j (all_out out i (n_log ni));
    f_ext : forall t j p0 p nj, progs !! t = Some p0 -> t_ext s !! t = Some p -> t_nodes s !! j = Some nj ->
      from_src (SrcExt t) (n_in nj) ++ sent_to j p = sent_to j p0;
    f_flow : forall j nj, t_nodes s !! j = Some nj -> (n_log nj ++ n_q nj) `sublist_of` n_in nj /\ (disc j = false -> n_in nj = n_log nj ++ n_q nj)
  }.
  Lemma finv_new n progs stops : finv progs (f_new n progs stops).
  Proof.
    constructor; unfold f_new; cbn.
    - intros i j ni nj [-> _]%lookup_replicate [-> _]%lookup_replicate. done.
    - intros t j p0 p nj E1 E2 [-> _]%lookup_replicate. cbn. congruence.
    - intros j nj [-> _]%lookup_replicate. done.
  Qed.
  (* a node changes without its n_in, its n_log or its n_pend *)
  Lemma finv_pass progs s i ni ni' ctl w : finv progs s -> t_nodes s !! i = Some ni -> n_in ni' = n_in ni -> n_log ni' = n_log ni -> n_pend ni' = n_pend ni -> n_q ni' = n_q ni ->
    finv progs (Net (<[i := ni']> (t_nodes s)) (t_ext s) ctl w).
  Proof.
    intros [F1 F2 F3] Hi E1 E2 E3 E4.
    assert (H : forall k x, <[i := ni']> (t_nodes s) !! k = Some x -> exists y, t_nodes s !! k = Some y /\ n_in x = n_in y /\ n_log x = n_log y /\ n_pend x = n_pend y /\ n_q x = n_q y).
    { intros k x [(<- & <- & _)|[Hne Hx]]%list_lookup_insert_Some; [by exists ni|by exists x]. }
    constructor; cbn.
    - intros a b na nb (ya & Ha & _ & -> & -> & _)%H (yb & Hb & -> & _)%H. by apply F1.
    - intros t j p0 p nj P1 P2 (y & Hy & -> & _)%H. by eapply F2.
    - intros j nj (y & Hy & -> & -> & _ & ->)%H. by apply F3.
  Qed.
  Lemma finv_step progs s a : finv progs s -> finv progs (step s a).
  Proof.
    intros F. pose proof F as [F1 F2 F3]. destruct a as [i|t|]; cbn [f_step].
    - destruct (t_nodes s !! i) as [nd|] eqn:Hi; [|done]. destruct (n_done nd) eqn:Hdn; [done|].
      destruct (n_pend nd) as [|[j v] r] eqn:Hp.
      + destruct (n_on nd) eqn:Hon.
        * destruct (n_q nd) as [|e q] eqn:Hq; [done|].
          set (nd' := Node q (out i e.2) true false (n_log nd ++ [e]) (n_in nd)).
          assert (H : forall k x, <[i := nd']> (t_nodes s) !! k = Some x -> exists y, t_nodes s !! k = Some y /\ n_in x = n_in y).
          { intros k x [(<- & <- & _)|[Hne Hx]]%list_lookup_insert_Some; [by exists nd|by exists x]. }
          constructor; cbn.
          -- intros a b na nb Ha (yb & Hb & ->)%H. apply list_lookup_insert_Some in Ha as [(<- & <- & _)|[Hne Ha]]; [|by apply F1].
             subst nd'. cbn [n_in n_log n_pend]. rewrite all_out_snoc, sent_to_app. f_equal. rewrite <- (F1 _ _ _ _ Hi Hb), Hp. unfold sent_to. cbn. by rewrite app_nil_r.
          -- intros u j p0 p nj P1 P2 (y & Hy & ->)%H. by eapply F2.
          -- intros j nj [(<- & <- & _)|[Hne Hx]]%list_lookup_insert_Some; [|by apply F3]. subst nd'. cbn [n_in n_log n_pend n_q]. destruct (F3 _ _ Hi) as [G1 G2]. rewrite Hq in *. rewrite <- !(assoc_L (++)). done.
        * eapply finv_pass; [done|exact Hi|done..].
      + destruct (pushx _ j (SrcNode i, v)) as [ns|] eqn:Epu; [|done].
        apply push_spec in Epu as (md & q' & Hj & -> & Hsub & Hblk).
        set (nd1 := Node (n_q nd) r (n_on nd) false (n_log nd) (n_in nd)) in *.
        assert (Hmd : exists m0, t_nodes s !! j = Some m0 /\ n_in md = n_in m0 /\ n_log md = n_log m0 /\ n_q md = n_q m0).
        { apply list_lookup_insert_Some in Hj as [(<- & <- & _)|[Hne Hx]]; [by exists nd|by exists md]. }
        destruct Hmd as (m0 & Hm0 & Ein & Elog & Eq).
        constructor; cbn.
        * intros a b na nb Ha Hb.
          assert (Ha' : exists ya, t_nodes s !! a = Some ya /\ n_log na = n_log ya /\ n_pend ya = (if decide (a = i) then [(j, v)] else []) ++ n_pend na).
          { apply list_lookup_insert_Some in Ha as [(<- & <- & _)|[Hne Hx]].
            - cbn. apply list_lookup_insert_Some in Hj as [(<- & <- & _)|[Hne Hx]].
              + exists nd. split_and!; [done..|]. rewrite decide_True by done. done.
              + exists md. split_and!; [done..|]. by rewrite decide_False by done.
            - apply list_lookup_insert_Some in Hx as [(<- & <- & _)|[Hne2 Hx]].
              + exists nd. split_and!; [done..|]. by rewrite decide_True by done.
              + exists na. split_and!; [done..|]. by rewrite decide_False by done. }
          assert (Hb' : exists yb, t_nodes s !! b = Some yb /\ n_in nb = n_in yb ++ if decide (b = j) then [(SrcNode i, v)] else []).
          { apply list_lookup_insert_Some in Hb as [(<- & <- & _)|[Hne Hx]].
            - exists m0. split; [done|]. cbn. rewrite Ein, decide_True by done. done.
            - rewrite decide_False by done. setoid_rewrite app_nil_r. apply list_lookup_insert_Some in Hx as [(<- & <- & _)|[Hne2 Hx]]; [by exists nd|by exists nb]. }
          destruct Ha' as (ya & Hya & -> & Epa), Hb' as (yb & Hyb & ->).
          rewrite <- (F1 _ _ _ _ Hya Hyb), Epa, from_src_app, sent_to_app, <- (assoc_L (++)). f_equal. f_equal.
          destruct (decide (b = j)) as [->|Hbj]; [rewrite from_src_one|]; destruct (decide (a = i)) as [->|Hai].
          -- rewrite sent_to_cons, Nat.eqb_refl. by rewrite (proj2 (src_eq_true _ _) eq_refl).
          -- destruct (src_eq (SrcNode i) (SrcNode a)) eqn:E; [|done]. apply src_eq_true in E. naive_solver.
          -- rewrite sent_to_cons. by destruct (Nat.eqb_spec j b); [subst|].
          -- done.
        * intros u b p0 p nb P1 P2 Hb.
          apply list_lookup_insert_Some in Hb as [(<- & <- & _)|[Hne Hx]].
          -- cbn [n_in n_log n_pend n_q]. rewrite from_src_app, from_src_one, Ein. cbn [src_eq]. rewrite app_nil_r. by eapply F2.
          -- apply list_lookup_insert_Some in Hx as [(<- & <- & _)|[Hne2 Hx]]; [exact (F2 _ _ _ _ _ P1 P2 Hi)|exact (F2 _ _ _ _ _ P1 P2 Hx)].
        * intros b nb Hb. apply list_lookup_insert_Some in Hb as [(<- & <- & _)|[Hne Hx]].
          -- cbn [n_in n_log n_pend n_q]. destruct (F3 _ _ Hm0) as [G1 G2]. rewrite Ein, Elog, (assoc_L (++)). rewrite Eq in *. split.
             ++ apply sublist_app; [|done]. etrans; [|exact G1]. by apply sublist_app.
             ++ intros Hd. destruct (Hblk Hd) as [-> _]. by rewrite (G2 Hd).
          -- apply list_lookup_insert_Some in Hx as [(<- & <- & _)|[Hne2 Hx]]; [by apply (F3 _ _ Hi)|by apply F3].
    - destruct (t_ext s !! t) as [[|[j v] r]|] eqn:Ht; [done| |done].
      destruct (pushx _ j (SrcExt t, v)) as [ns|] eqn:Epu; [|done].
      apply push_spec in Epu as (md & q' & Hj & -> & Hsub & Hblk).
      constructor; cbn.
      + intros a b na nb Ha Hb.
        assert (Ha' : exists ya, t_nodes s !! a = Some ya /\ n_log na = n_log ya /\ n_pend na = n_pend ya).
        { apply list_lookup_insert_Some in Ha as [(<- & <- & _)|[Hne Hx]]; [by exists md|by exists na]. }
        destruct Ha' as (ya & Hya & -> & ->).
        apply list_lookup_insert_Some in Hb as [(<- & <- & _)|[Hne Hx]]; [|by apply F1].
        cbn [n_in n_log n_pend n_q]. rewrite from_src_app, from_src_one. cbn [src_eq]. rewrite app_nil_r. by apply F1.
      + intros u b p0 p nb P1 P2 Hb.
        assert (HE : exists pu, t_ext s !! u = Some pu /\ pu = (if decide (u = t) then [(j, v)] else []) ++ p).
        { apply list_lookup_insert_Some in P2 as [(<- & <- & _)|[Hne Hx]].
          - exists ((j, v) :: r). split; [done|]. by rewrite decide_True by done.
          - exists p. split; [done|]. by rewrite decide_False by done. }
        destruct HE as (pu & Hpu & ->).
        assert (Hb' : exists yb, t_nodes s !! b = Some yb /\ n_in nb = n_in yb ++ if decide (b = j) then [(SrcExt t, v)] else []).
        { apply list_lookup_insert_Some in Hb as [(<- & <- & _)|[Hne Hx]].
          - exists md. split; [done|]. by rewrite decide_True by done.
          - exists nb. split; [done|]. rewrite decide_False by done. by rewrite app_nil_r. }
        destruct Hb' as (yb & Hyb & ->).
        rewrite <- (F2 _ _ _ _ _ P1 Hpu Hyb), from_src_app, sent_to_app, <- (assoc_L (++)). f_equal. f_equal.
        destruct (decide (b = j)) as [->|Hbj]; [rewrite from_src_one|]; destruct (decide (u = t)) as [->|Hut].
        * rewrite sent_to_cons, Nat.eqb_refl. by rewrite (proj2 (src_eq_true _ _) eq_refl).
        * destruct (src_eq (SrcExt t) (SrcExt u)) eqn:E; [|done]. apply src_eq_true in E. naive_solver.
        * rewrite sent_to_cons. by destruct (Nat.eqb_spec j b); [subst|].
        * done.
      + intros b nb Hb. apply list_lookup_insert_Some in Hb as [(<- & <- & _)|[Hne Hx]]; [|by apply F3].
        cbn [n_in n_log n_pend n_q]. destruct (F3 _ _ Hj) as [G1 G2]. rewrite (assoc_L (++)). split.
        * apply sublist_app; [|done]. etrans; [|exact G1]. by apply sublist_app.
        * intros Hd. destruct (Hblk Hd) as [-> _]. by rewrite (G2 Hd).
    - destruct (t_ctl s) as [|i r]; [done|]. destruct (t_nodes s !! i) as [nd|] eqn:Hi; [|done].
      destruct (t_waiting s).
      + destruct (n_done nd); [|done]. constructor; cbn; done.
      + eapply finv_pass; [done|exact Hi|done..].
  Qed.
  Lemma finv_run progs s acts : finv progs s -> finv progs (run s acts).
  Proof. unfold f_run. revert s. induction acts as [|a acts IH]; intros s F; [done|]. cbn. apply IH. by apply finv_step. Qed.
  (** ** Every fair schedule makes progress until nothing is left to do. *)
  Context (n : nat) (Hfwd : forward_only n out) (Hcap : forall j, disc j = false -> 0 < cap j).
  Fixpoint W (k i : nat) (v : V) : nat := match k with 0 => 1 | S k' => 1 + sum_list_with (fun e => 1 + W k' (e.1) (e.2)) (out i v) end.
  Lemma sum_mono {A} (f h : A -> nat) l : (forall x, x ∈ l -> f x <= h x) -> sum_list_with f l <= sum_list_with h l.
  Proof.
    induction l as [|a l IH]; intros H; cbn [sum_list_with]; [lia|].
    specialize (IH (fun x Hx => H x (elem_of_list_further _ _ _ Hx))). specialize (H a (elem_of_list_here _ _)). lia.
  Qed.
  Lemma W_mono k i v : W k i v <= W (S k) i v.
  Proof.
    revert i v. induction k as [|k IH]; intros i v; [cbn [W]; lia|]. cbn [W]. apply le_n_S. apply sum_mono. intros x _. specialize (IH (x.1) (x.2)). cbn [W] in IH. lia.
  Qed.
  Lemma W_le k k' i v : k <= k' -> W k i v <= W k' i v.
  Proof. induction 1 as [|k' _ IH]; [done|]. pose proof (W_mono k' i v). lia. Qed.
  Definition wt (i : nat) (v : V) : nat := W (n - i) i v.
  Lemma wt_out i v : i < n -> sum_list_with (fun e => 1 + wt (e.1) (e.2)) (out i v) < wt i v.
  Proof.
    intros Hi. unfold wt. destruct (n - i) as [|k] eqn:E; [lia|]. cbn [W].
    apply le_n_S. apply sum_mono. intros [j w] Hx. cbn. apply le_n_S. apply W_le. pose proof (Hfwd _ _ _ _ Hx). lia.
  Qed.
  Definition nw (i : nat) (nd : node V) : nat :=
    sum_list_with (fun e => wt i (e.2)) (n_q nd) + sum_list_with (fun e => 1 + wt (e.1) (e.2)) (n_pend nd) + (if n_done nd then 0 else 1).
  Fixpoint nsum (k : nat) (ns : list (node V)) : nat := match ns with [] => 0 | nd :: r => nw k nd + nsum (S k) r end.
  Lemma nsum_insert k ns i x y : ns !! i = Some x -> nsum k (<[i := y]> ns) + nw (k + i) x = nsum k ns + nw (k + i) y.
  Proof.
    revert k i. induction ns as [|a ns IH]; intros k [|i] H; simpl in *; simplify_eq.
    - rewrite Nat.add_0_r. lia.
    - specialize (IH (S k) _ H). replace (k + S i) with (S k + i) by lia. lia.
  Qed.
  Definition ew (p : list (nat * V)) : nat := sum_list_with (fun e => 1 + wt (e.1) (e.2)) p.
  Definition fm (s : net V) : nat := nsum 0 (t_nodes s) + sum_list_with ew (t_ext s) + (2 * length (t_ctl s) - if t_waiting s then 1 else 0).
  Lemma sum_sublist {A} (f : A -> nat) l k : l `sublist_of` k -> sum_list_with f l <= sum_list_with f k.
  Proof. induction 1; simpl; lia. Qed.
  Lemma sum_insert {A} (f : A -> nat) l i x y : l !! i = Some x -> sum_list_with f (<[i := y]> l) + f x = sum_list_with f l + f y.
  Proof. revert i. induction l as [|a l IH]; intros [|i] H; simpl in *; simplify_eq; [lia|]. specialize (IH _ H). lia. Qed.
  Record ginv (s : net V) : Prop := {
    g_len : length (t_nodes s) = n;
    g_pend : forall i nd j v, t_nodes s !! i = Some nd -> (j, v) ∈ n_pend nd -> i < j < n;
    g_done : forall i nd, t_nodes s !! i = Some nd -> n_done nd = true -> n_on nd = false;
    g_ext : in_net n (t_ext s);
    g_ctl : Forall (fun i => i < n) (t_ctl s);
    g_wait : t_waiting s = true -> exists i r, t_ctl s = i :: r /\ forall nd, t_nodes s !! i = Some nd -> n_on nd = false
  }.
  Lemma ginv_new ext stops : in_net n ext -> Forall (fun i => i < n) stops -> ginv (f_new n ext stops).
  Proof.
    intros H1 H2. constructor; unfold f_new; cbn; try done.
    - apply replicate_length.
    - intros i nd j v [-> _]%lookup_replicate H. by apply elem_of_nil in H.
    - intros i nd [-> _]%lookup_replicate. done.
  Qed.
  (* replacing nodes by others that are no more on, and publish within the network *)
  Lemma ginv_nodes s ns' ext ctl w : ginv s -> length ns' = length (t_nodes s) ->
    (forall i x, ns' !! i = Some x -> exists y, t_nodes s !! i = Some y /\ (n_on y = false -> n_on x = false) /\ (forall j v, (j, v) ∈ n_pend x -> (j, v) ∈ n_pend y \/ i < j < n) /\ (n_done x = true -> n_on x = false)) ->
    in_net n ext -> ctl = t_ctl s -> w = t_waiting s -> ginv (Net ns' ext ctl w).
  Proof.
    intros [G1 G2 G3 G4 G5 G6] Hl Hn He -> ->. constructor; cbn; try done.
    - congruence.
    - intros i nd j v (y & Hy & _ & Hp & _)%Hn Hin. destruct (Hp _ _ Hin); [by eapply G2|done].
    - intros i nd (y & Hy & _ & _ & Hd)%Hn. done.
    - intros Hw. destruct (G6 Hw) as (i & r & -> & Hi). exists i, r. split; [done|]. intros nd (y & Hy & Ho & _)%Hn. auto.
  Qed.
  Lemma ginv_step s a : ginv s -> ginv (step s a).
  Proof.
    intros G. pose proof G as [G1 G2 G3 G4 G5 G6]. destruct a as [i|t|]; cbn [f_step].
    - destruct (t_nodes s !! i) as [nd|] eqn:Hi; [|done]. destruct (n_done nd) eqn:Hdn; [done|].
      destruct (n_pend nd) as [|[j v] r] eqn:Hp.
      + destruct (n_on nd) eqn:Hon.
        * destruct (n_q nd) as [|e q] eqn:Hq; [done|].
          eapply (ginv_nodes _ _ _ _ _ G); [by rewrite insert_length| |done..].
          intros k x [(<- & <- & _)|[Hne Hx]]%list_lookup_insert_Some; [exists nd|exists x].
          -- cbn. split_and!; [done|congruence| |done]. intros j v Hin. right. by eapply Hfwd.
          -- split_and!; [done..|auto|by eapply G3].
        * eapply (ginv_nodes _ _ _ _ _ G); [by rewrite insert_length| |done..].
          intros k x [(<- & <- & _)|[Hne Hx]]%list_lookup_insert_Some; [exists nd|exists x].
          -- cbn. split_and!; [done|done| |done]. intros j v Hin. by apply elem_of_nil in Hin.
          -- split_and!; [done..|auto|by eapply G3].
      + destruct (pushx _ j (SrcNode i, v)) as [ns|] eqn:Epu; [|done].
        apply push_spec in Epu as (md & q' & Hj & -> & _ & _).
        eapply (ginv_nodes _ _ _ _ _ G); [by rewrite !insert_length| |done..].
        assert (H1 : forall k x, <[i := Node (n_q nd) r (n_on nd) false (n_log nd) (n_in nd)]> (t_nodes s) !! k = Some x ->
          exists y, t_nodes s !! k = Some y /\ (n_on y = false -> n_on x = false) /\ (forall j v, (j, v) ∈ n_pend x -> (j, v) ∈ n_pend y \/ k < j < n) /\ (n_done x = true -> n_on x = false)).
        { intros k x [(<- & <- & _)|[Hne Hx]]%list_lookup_insert_Some; [exists nd|exists x].
          - cbn. split_and!; [done..| |done]. intros j' v' Hin. left. rewrite Hp. by right.
          - split_and!; [done..|auto|by eapply G3]. }
        intros k x [(<- & <- & _)|[Hne Hx]]%list_lookup_insert_Some; [|by apply H1].
        apply H1 in Hj as (y & Hy & A & B & C). exists y. cbn. done.
    - destruct (t_ext s !! t) as [[|[j v] r]|] eqn:Ht; [done| |done].
      destruct (pushx _ j (SrcExt t, v)) as [ns|] eqn:Epu; [|done].
      apply push_spec in Epu as (md & q' & Hj & -> & _ & _).
      eapply (ginv_nodes _ _ _ _ _ G); [by rewrite insert_length| | |done..].
      + intros k x [(<- & <- & _)|[Hne Hx]]%list_lookup_insert_Some; [exists md|exists x].
        * cbn. split_and!; [done..|auto|by eapply G3].
        * split_and!; [done..|auto|by eapply G3].
      + intros p j' v' (u & Hu)%elem_of_list_lookup Hin. apply list_lookup_insert_Some in Hu as [(<- & <- & _)|[Hne Hu]].
        * eapply (G4 ((j, v) :: r) j' v'); [by eapply elem_of_list_lookup_2|by right].
        * eapply (G4 p j' v'); [by eapply elem_of_list_lookup_2|done].
    - destruct (t_ctl s) as [|i r] eqn:Hc; [done|]. destruct (t_nodes s !! i) as [nd|] eqn:Hi; [|done].
      apply Forall_cons in G5 as [Hin G5].
      destruct (t_waiting s) eqn:Hw.
      + destruct (n_done nd); [|done]. constructor; cbn; done.
      + constructor; cbn; try done.
        * by rewrite insert_length.
        * intros k x j v [(<- & <- & _)|[Hne Hx]]%list_lookup_insert_Some Hp; [by eapply G2|by eapply G2].
        * intros k x [(<- & <- & _)|[Hne Hx]]%list_lookup_insert_Some; [done|by eapply G3].
        * by apply Forall_cons.
        * intros _. exists i, r. split; [done|]. intros x [(_ & <- & _)|[Hne Hx]]%list_lookup_insert_Some; done.
  Qed.
  Lemma push_nsum ns j e ns' : pushx ns j e = Some ns' -> nsum 0 ns' <= nsum 0 ns + wt j (e.2).
  Proof.
    intros (md & q' & Hj & -> & Hsub & _)%push_spec. pose proof (nsum_insert 0 _ _ _ (Node (q' ++ [e]) (n_pend md) (n_on md) (n_done md) (n_log md) (n_in md ++ [e])) Hj) as E.
    cbn [Nat.add] in E. unfold nw in E. cbn [n_q n_pend n_done] in E. rewrite sum_list_with_app in E. simpl in E.
    pose proof (sum_sublist (fun e => wt j (e.2)) _ _ Hsub). lia.
  Qed.
  Lemma fm_dec s a : ginv s -> step s a = s \/ fm (step s a) < fm s.
  Proof.
    intros [G1 G2 G3 G4 G5 G6]. destruct a as [i|t|]; cbn [f_step].
    - destruct (t_nodes s !! i) as [nd|] eqn:Hi; [|by left]. destruct (n_done nd) eqn:Hdn; [by left|].
      destruct (n_pend nd) as [|[j v] r] eqn:Hp.
      + destruct (n_on nd) eqn:Hon.
        * destruct (n_q nd) as [|e q] eqn:Hq; [by left|]. right.
          pose proof (nsum_insert 0 _ _ _ (Node q (out i e.2) true false (n_log nd ++ [e]) (n_in nd)) Hi) as E.
          cbn [Nat.add] in E. unfold nw in E. cbn [n_q n_pend n_done] in E. rewrite Hq, Hp, Hdn in E. cbn [sum_list_with] in E.
          pose proof (wt_out i (e.2) ltac:(rewrite <- G1; by eapply lookup_lt_Some)). unfold fm. cbn [t_nodes t_ext t_ctl t_waiting]. lia.
        * right. pose proof (nsum_insert 0 _ _ _ (Node (n_q nd) [] false true (n_log nd) (n_in nd)) Hi) as E.
          cbn [Nat.add] in E. unfold nw in E. cbn [n_q n_pend n_done] in E. rewrite Hp, Hdn in E. cbn [sum_list_with] in E.
          unfold fm. cbn [t_nodes t_ext t_ctl t_waiting]. lia.
      + destruct (pushx _ j (SrcNode i, v)) as [ns|] eqn:Epu; [|by left]. right. apply push_nsum in Epu. cbn [snd] in Epu.
        pose proof (nsum_insert 0 _ _ _ (Node (n_q nd) r (n_on nd) false (n_log nd) (n_in nd)) Hi) as E.
        cbn [Nat.add] in E. unfold nw in E. cbn [n_q n_pend n_done] in E. rewrite Hp, Hdn in E. cbn [sum_list_with fst snd] in E.
        unfold fm. cbn [t_nodes t_ext t_ctl t_waiting]. lia.
    - destruct (t_ext s !! t) as [[|[j v] r]|] eqn:Ht; [by left| |by left].
      destruct (pushx _ j (SrcExt t, v)) as [ns|] eqn:Epu; [|by left]. right. apply push_nsum in Epu. cbn [snd] in Epu.
      pose proof (sum_insert ew _ _ _ r Ht) as E. unfold ew at 2 in E. cbn [sum_list_with fst snd] in E. fold (ew r) in E.
      unfold fm. cbn [t_nodes t_ext t_ctl t_waiting]. lia.
    - destruct (t_ctl s) as [|i r] eqn:Hc; [by left|]. destruct (t_nodes s !! i) as [nd|] eqn:Hi; [|by left].
      destruct (t_waiting s) eqn:Hw.
      + destruct (n_done nd); [|by left]. right. unfold fm. cbn [t_nodes t_ext t_ctl t_waiting]. rewrite Hc, Hw. cbn [length]. lia.
      + right. pose proof (nsum_insert 0 _ _ _ (Node (n_q nd) (n_pend nd) false (n_done nd) (n_log nd) (n_in nd)) Hi) as E.
        unfold nw in E. cbn [n_q n_pend n_done] in E. unfold fm. cbn [t_nodes t_ext t_ctl t_waiting]. rewrite Hc, Hw. cbn [length]. lia.
  Qed.
  (** A state in which no step changes anything. *)
  Definition stuck (s : net V) : Prop := forall a, step s a = s.
  Lemma node_ne (s : net V) i nd nd' ext ctl w : t_nodes s !! i = Some nd -> Net (<[i := nd']> (t_nodes s)) ext ctl w = s -> nd' = nd.
  Proof.
    intros Hi E. apply (f_equal t_nodes) in E. cbn in E. pose proof (list_lookup_insert (t_nodes s) i nd' ltac:(by eapply lookup_lt_Some)) as E2. rewrite E in E2. congruence.
  Qed.
  Lemma blocked_full (ns : list (node V)) j e : pushx ns j e = None -> j < length ns -> exists nd, ns !! j = Some nd /\ disc j = false /\ n_q nd <> [].
  Proof.
    intros H Hj. unfold push in H. destruct (ns !! j) as [nd|] eqn:E; [|apply lookup_ge_None_1 in E; lia].
    exists nd. split; [done|]. destruct (disc j) eqn:Ed; [done|]. split; [done|]. destruct (Nat.ltb_spec (length (n_q nd)) (cap j)); [done|].
    specialize (Hcap _ Ed). intros Hq. rewrite Hq in *. cbn in *. lia.
  Qed.
  Lemma stuck_pend s : ginv s -> stuck s -> forall d i nd, n <= d + i -> t_nodes s !! i = Some nd -> n_done nd = false ->
    (forall j nj, i < j -> t_nodes s !! j = Some nj -> n_on nj = true) -> n_pend nd = [].
  Proof.
    intros G Hs. induction d as [|d IH]; intros i nd Hd Hi Hdn Hon.
    { apply lookup_lt_Some in Hi as Hlt. rewrite (g_len _ G) in Hlt. lia. }
    destruct (n_pend nd) as [|[j v] r] eqn:Hp; [done|]. exfalso.
    destruct (g_pend _ G i nd j v Hi ltac:(rewrite Hp; by left)) as [Hij Hjn].
    pose proof (Hs (FPoll i)) as E. cbn [f_step] in E. rewrite Hi, Hdn, Hp in E.
    destruct (pushx _ j (SrcNode i, v)) as [ns|] eqn:Epu.
    - apply push_spec in Epu as (md & q' & Hj & -> & _). apply (f_equal t_nodes) in E. cbn in E.
      assert (E2 : Some md = t_nodes s !! j) by (rewrite <- Hj; apply list_lookup_insert_ne; lia).
      pose proof (list_lookup_insert (<[i := Node (n_q nd) r (n_on nd) false (n_log nd) (n_in nd)]> (t_nodes s)) j (Node (q' ++ [(SrcNode i, v)]) (n_pend md) (n_on md) (n_done md) (n_log md) (n_in md ++ [(SrcNode i, v)])) ltac:(by eapply lookup_lt_Some)) as E3.
      rewrite E, <- E2 in E3. injection E3 as E3. apply (f_equal (fun x => length (n_in x))) in E3. cbn in E3. rewrite app_length in E3. cbn in E3. lia.
    - destruct (blocked_full _ _ _ Epu) as (nj & Hnj & Hdj & Hq); [rewrite insert_length, (g_len _ G); lia|].
      rewrite list_lookup_insert_ne in Hnj by lia.
      assert (Hj_on : n_on nj = true) by (by apply (Hon j)).
      assert (Hj_dn : n_done nj = false). { destruct (n_done nj) eqn:Ed; [|done]. pose proof (g_done _ G _ _ Hnj Ed). congruence. }
      assert (Hjp : n_pend nj = []). { apply (IH j nj); [lia|done..|]. intros k nk Hk. apply Hon. lia. }
      pose proof (Hs (FPoll j)) as E'. cbn [f_step] in E'. rewrite Hnj, Hj_dn, Hjp, Hj_on in E'.
      destruct (n_q nj) as [|e q] eqn:Hqj; [done|]. apply (node_ne _ _ _ _ _ _ _ Hnj) in E'. apply (f_equal (fun x => length (n_log x))) in E'. cbn in E'. rewrite app_length in E'. cbn in E'. lia.
  Qed.
End Proofs.
(** Rounds: a machine whose steps change nothing or decrease a measure gets stuck. *)
Lemma rounds_stuck {S A} (stp : S -> A -> S) (m : S -> nat) (I : S -> Prop) (fair : list A -> Prop) :
  (forall s a, I s -> I (stp s a)) -> (forall s a, I s -> stp s a = s \/ m (stp s a) < m s) ->
  (forall s r, I s -> fair r -> (forall a, a ∈ r -> stp s a = s) -> forall a, stp s a = s) ->
  forall rounds s, I s -> Forall fair rounds -> m s < length rounds ->
  I (fold_left stp (concat rounds) s) /\ forall a, stp (fold_left stp (concat rounds) s) a = fold_left stp (concat rounds) s.
Proof.
  intros HI Hm Hf.
  assert (Hrun : forall r s, I s -> I (fold_left stp r s)). { induction r as [|a r IH]; intros s Hs; [done|]. cbn. apply IH. auto. }
  assert (Hdec : forall r s, I s -> m (fold_left stp r s) < m s \/ (fold_left stp r s = s /\ forall a, a ∈ r -> stp s a = s)).
  { induction r as [|a r IH]; intros s Hs. { right. split; [done|]. intros a Ha. by apply elem_of_nil in Ha. }
    cbn. destruct (IH (stp s a) (HI _ _ Hs)) as [Hd|[He Hn]]; destruct (Hm s a Hs) as [E|E].
    - left. by rewrite E in *.
    - left. lia.
    - right. rewrite E in *. split; [done|]. intros b [->|Hb]%elem_of_cons; auto.
    - left. by rewrite He. }
  induction rounds as [|r rs IH]; intros s Hs Hr Hlt; [cbn in Hlt; lia|].
  apply Forall_cons in Hr as [Hr Hrs]. cbn [concat]. rewrite fold_left_app.
  destruct (Hdec r s Hs) as [Hd|[He Hn]].
  - apply IH; [auto|done|cbn in Hlt; lia].
  - rewrite He. pose proof (Hf s r Hs Hr Hn) as Hst.
    assert (forall acts, fold_left stp acts s = s) as ->; [|done]. induction acts as [|a acts IHa]; [done|]. cbn. by rewrite Hst.
Qed.
