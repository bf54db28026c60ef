(** * Theorems about event loops whose listeners publish (C109). *)
From Coq Require Import Lia.
From stdpp Require Import prelude.
From Verif Require Import Forward_Model Forward_Spec Forward_Props ElNet_Model ElNet_Spec ElNet_Props.
Section Thms.
  Context {V : Type} (size : nat -> nat) (out : nat -> V -> list (nat * V)) (thr : nat -> V -> bool).
  Notation step := (l_step size out thr).
  Notation run := (l_run size out thr).
  (** C109. Accounting, at every moment of every schedule of every network, listeners that throw included: the publications to a loop by one source (accepted or refused) are exactly what this
      source has published to it so far, in its order; and the accepted ones are exactly those handled, in order of acceptance, and then those waiting. *)
  Theorem C109_accounting n progs stops acts :
    let s := run (l_new n progs stops) acts in
    forall j nj, k_nodes s !! j = Some nj ->
      accepted (l_att nj) = l_log nj ++ l_b nj ++ l_q nj /\ length (l_b nj ++ l_q nj) <= size j /\
      (forall i ni, k_nodes s !! i = Some ni -> from_src (SrcNode i) (fst <$> l_att nj) ++ sent_to j (l_pend ni) = sent_to j (all_out out i (l_log ni))) /\
      (forall t prog rest, progs !! t = Some prog -> k_ext s !! t = Some rest -> from_src (SrcExt t) (fst <$> l_att nj) ++ sent_to j rest = sent_to j prog).
  Proof.
    intros s j nj Hj. destruct (linv_run size out thr progs _ acts (linv_new size out n progs stops)) as [F1 F2 F3]. fold s in F1, F2, F3.
    destruct (F3 _ _ Hj) as [G1 G2]. unfold used in G2. rewrite app_length. split_and!; [done|lia| |].
    - intros i ni Hi. by apply F1.
    - intros t prog rest P1 P2. by eapply F2.
  Qed.
  (** A publication is refused only if the ring is full: [size] accepted events of which the batch that contains the oldest has not been completed. *)
  Theorem C109_refused_only_if_full n progs stops acts a j nj nj' :
    let s := run (l_new n progs stops) acts in
    k_nodes s !! j = Some nj -> k_nodes (step s a) !! j = Some nj' -> length (refused (l_att nj)) < length (refused (l_att nj')) ->
    l_held nj + length (l_b nj) + length (l_q nj) = size j.
  Proof.
    intros s Hj Hj' Hlt. destruct (linv_run size out thr progs _ acts (linv_new size out n progs stops)) as [F1 F2 F3]. fold s in F1, F2, F3.
    destruct (F3 _ _ Hj) as [_ G2]. change (used nj = size j).
    assert (Hown : forall f, (forall nd : lnode V, l_att (f nd) = l_att nd) -> forall i ext ctl w, step s a = LNet (alter f i (k_nodes s)) ext ctl w -> False).
    { intros f Hf i ext ctl w E. rewrite E in Hj'. cbn in Hj'. apply alter_some in Hj' as (y & Hy & ->). rewrite Hj in Hy. injection Hy as <-.
      destruct (decide (j = i)); rewrite ?Hf in Hlt; lia. }
    assert (Hrec : forall e (z : lnode V), l_att z = l_att nj -> used z = used nj -> nj' = recv size j e z -> used nj = size j).
    { intros e z E1 E2 ->. destruct (recv_att size j e z) as (ok & E & Hok). rewrite E, E1 in Hlt. unfold refused in Hlt. rewrite List.filter_app, fmap_app, app_length in Hlt.
      destruct ok; cbn in Hlt; [lia|]. destruct Hok as [_ Hok]. lia. }
    destruct a as [i k|t|]; cbn [l_step] in *.
    - destruct (k_nodes s !! i) as [nd|] eqn:Hi; [|rewrite Hj in Hj'; injection Hj' as <-; lia]. destruct (l_done nd); [rewrite Hj in Hj'; injection Hj' as <-; lia|].
      destruct (l_pend nd) as [|[j0 v] r].
      + exfalso. eapply (Hown (own_step out thr i k)); [|reflexivity]. intros x. unfold own_step. by repeat case_match.
      + cbn in Hj'. apply alter_some in Hj' as (y & (z & Hz & ->)%alter_some & ->). rewrite Hj in Hz. injection Hz as <-.
        destruct (decide (j = j0)) as [<-|]; [|destruct (decide (j = i)); unfold set_pend in Hlt; cbn [l_att] in Hlt; lia].
        eapply Hrec; [| |reflexivity]; by destruct (decide (j = i)).
    - destruct (k_ext s !! t) as [[|[j0 v] r]|]; [rewrite Hj in Hj'; injection Hj' as <-; lia| |rewrite Hj in Hj'; injection Hj' as <-; lia].
      cbn in Hj'. apply alter_some in Hj' as (y & Hy & ->). rewrite Hj in Hy. injection Hy as <-.
      destruct (decide (j = j0)) as [<-|]; [|lia]. by eapply Hrec.
    - destruct (k_ctl s) as [|i r]; [rewrite Hj in Hj'; injection Hj' as <-; lia|]. destruct (k_nodes s !! i) as [nd|] eqn:Hi; [|rewrite Hj in Hj'; injection Hj' as <-; lia].
      destruct (k_waiting s).
      + destruct (l_done nd); cbn in Hj'; rewrite Hj in Hj'; injection Hj' as <-; lia.
      + exfalso. by eapply (Hown set_off).
  Qed.
  (** ** Liveness. *)
  Record jinv (n m : nat) (s : lnet V) : Prop := {
    j_len : length (k_nodes s) = n;
    j_ext : length (k_ext s) = m;
    j_done : forall i nd, k_nodes s !! i = Some nd -> l_done nd = true -> l_on nd = false /\ l_pend nd = [] /\ l_thr nd = false /\ l_b nd = [] /\ l_held nd = 0;
    j_ctl : Forall (fun i => i < n) (k_ctl s);
    j_wait : k_waiting s = true -> exists i r, k_ctl s = i :: r /\ forall nd, k_nodes s !! i = Some nd -> l_on nd = false
  }.
  Lemma jinv_new n progs stops : Forall (fun i => i < n) stops -> jinv n (length progs) (l_new n progs stops).
  Proof.
    intros H. constructor; unfold l_new; cbn; try done; [apply replicate_length|]. intros i nd [-> _]%lookup_replicate. done.
  Qed.
  Lemma jinv_nodes n m s ns' ext : jinv n m s -> length ns' = n -> length ext = m ->
    (forall i x, ns' !! i = Some x -> exists y, k_nodes s !! i = Some y /\ (l_on y = false -> l_on x = false) /\
       (l_done x = true -> l_on x = false /\ l_pend x = [] /\ l_thr x = false /\ l_b x = [] /\ l_held x = 0)) ->
    jinv n m (LNet ns' ext (k_ctl s) (k_waiting s)).
  Proof.
    intros [J1 J2 J3 J4 J5] Hl He Hn. constructor; cbn; try done.
    - intros i x (y & Hy & _ & Hd)%Hn. done.
    - intros Hw. destruct (J5 Hw) as (i & r & E & Hi). exists i, r. split; [done|]. intros x (y & Hy & Ho & _)%Hn. auto.
  Qed.
  Lemma jinv_step n m s a : jinv n m s -> jinv n m (step s a).
  Proof.
    intros J. pose proof J as [J1 J2 J3 J4 J5]. destruct a as [i k|t|]; cbn [l_step].
    - destruct (k_nodes s !! i) as [nd|] eqn:Hi; [|done]. destruct (l_done nd) eqn:Hdn; [done|].
      destruct (l_pend nd) as [|[j v] r] eqn:Hp.
      + apply jinv_nodes; [done|by rewrite alter_length|done|]. intros k' x (y & Hy & ->)%alter_some. exists y. split; [done|].
        destruct (decide (k' = i)) as [->|]; [|split; [done|by apply (J3 _ _ Hy)]]. rewrite Hi in Hy. injection Hy as <-.
        unfold own_step. destruct (l_thr nd); [done|]. destruct (l_b nd); [|done]. destruct (l_held nd); [|done]. destruct (l_on nd) eqn:Ho; done.
      + apply jinv_nodes; [done|by rewrite !alter_length|done|]. intros k' x (y & (z & Hz & ->)%alter_some & ->)%alter_some. exists z. split; [done|].
        assert (H : forall y, y = (if decide (k' = i) then set_pend r z else z) -> (l_on z = false -> l_on y = false) /\ (l_done y = true -> l_on y = false /\ l_pend y = [] /\ l_thr y = false /\ l_b y = [] /\ l_held y = 0)).
        { intros y ->. destruct (decide (k' = i)) as [->|]; [|split; [done|by apply (J3 _ _ Hz)]]. rewrite Hi in Hz. injection Hz as <-. cbn. split; [done|congruence]. }
        specialize (H _ eq_refl). destruct (decide (k' = j)); [|done].
        destruct (recv_same size j (SrcNode i, v) (if decide (k' = i) then set_pend r z else z)) as (_ & -> & -> & -> & -> & -> & ->). done.
    - destruct (k_ext s !! t) as [[|[j v] r]|]; [done| |done].
      apply jinv_nodes; [done|by rewrite alter_length|by rewrite insert_length|]. intros k' x (y & Hy & ->)%alter_some. exists y. split; [done|].
      destruct (decide (k' = j)); [|split; [done|by apply (J3 _ _ Hy)]].
      destruct (recv_same size j (SrcExt t, v) y) as (_ & -> & -> & -> & -> & -> & ->). split; [done|by apply (J3 _ _ Hy)].
    - destruct (k_ctl s) as [|i r] eqn:Hc; [done|]. destruct (k_nodes s !! i) as [nd|] eqn:Hi; [|done].
      apply Forall_cons in J4 as [Hin J4].
      destruct (k_waiting s) eqn:Hw.
      + destruct (l_done nd); [|done]. constructor; cbn; done.
      + constructor; cbn; try done.
        * by rewrite alter_length.
        * intros k' x (y & Hy & ->)%alter_some. destruct (decide (k' = i)); [|by apply (J3 _ _ Hy)]. unfold set_off. cbn. intros Hd. destruct (J3 _ _ Hy Hd) as (_ & ?). done.
        * by apply Forall_cons.
        * intros _. exists i, r. split; [done|]. intros x (y & Hy & ->)%alter_some. by rewrite decide_True by done.
  Qed.
  Lemma alter_fix (f : lnode V -> lnode V) (i : nat) (ns : list (lnode V)) nd : ns !! i = Some nd -> alter f i ns = ns -> f nd = nd.
  Proof. intros Hi E. pose proof (list_lookup_alter f ns i) as H. rewrite E, Hi in H. cbn in H. congruence. Qed.
  (* a loop whose own step changes nothing is idle *)
  Lemma idle s i k nd : k_nodes s !! i = Some nd -> l_done nd = false -> step s (LPoll i k) = s -> l_pend nd = [] /\ l_thr nd = false /\ l_b nd = [] /\ l_held nd = 0 /\ l_q nd = [] /\ l_on nd = true.
  Proof.
    intros Hi Hd E. cbn [l_step] in E. rewrite Hi, Hd in E. destruct (l_pend nd) as [|[j v] r] eqn:Hp.
    - apply (f_equal k_nodes) in E. cbn in E. apply (alter_fix _ _ _ _ Hi) in E. split; [done|]. unfold own_step in E.
      destruct (l_thr nd) eqn:Ht; [apply (f_equal l_thr) in E; cbn in E; congruence|].
      destruct (l_b nd) as [|e b] eqn:Hb; [|apply (f_equal (fun x => length (l_log x))) in E; cbn in E; rewrite app_length in E; cbn in E; lia].
      destruct (l_held nd) eqn:Hh; [|apply (f_equal l_held) in E; cbn in E; congruence].
      destruct (l_on nd) eqn:Ho; [|apply (f_equal l_done) in E; cbn in E; congruence].
      split_and!; try done. apply (f_equal l_b) in E. rewrite Hb in E. by destruct (l_q nd).
    - exfalso. apply (f_equal k_nodes) in E. cbn in E.
      assert (E2 : l_pend <$> alter (recv size j (SrcNode i, v)) j (alter (set_pend r) i (k_nodes s)) !! i = Some r).
      { destruct (decide (i = j)) as [<-|Hne].
        - rewrite !list_lookup_alter, Hi. cbn. f_equal. by destruct (recv_same size i (SrcNode i, v) (set_pend r nd)) as (_ & -> & _).
        - rewrite list_lookup_alter_ne by done. rewrite list_lookup_alter, Hi. done. }
      rewrite E, Hi in E2. cbn in E2. rewrite Hp in E2. injection E2 as E2. apply (f_equal length) in E2. cbn in E2. lia.
  Qed.
  Lemma fair_lstuck n m s r : jinv n m s -> fair_lround n m r -> (forall a, a ∈ r -> step s a = s) -> forall a, step s a = s.
  Proof.
    intros J (R1 & R2 & R3) Hr [i k|t|].
    - destruct (decide (i < n)) as [Hlt|Hge].
      + destruct (R1 i Hlt) as (k0 & Hk0). specialize (Hr _ Hk0). destruct (lookup_lt_is_Some_2 (k_nodes s) i) as [nd Hi]; [rewrite (j_len _ _ _ J); done|].
        destruct (l_done nd) eqn:Hd; [cbn; by rewrite Hi, Hd|]. destruct (idle _ _ _ _ Hi Hd Hr) as (A & B & C & D & Q & O).
        cbn [l_step]. rewrite Hi, Hd, A. rewrite (alter_same (own_step out thr i k) i (k_nodes s) nd Hi); [by destruct s|].
        unfold own_step. rewrite B, C, D, Q, O. cbn. destruct nd. cbn in *. congruence.
      + cbn. rewrite (lookup_ge_None_2 (k_nodes s)); [done|]. rewrite (j_len _ _ _ J). lia.
    - destruct (decide (t < m)); [by apply Hr, R2|]. cbn. rewrite (lookup_ge_None_2 (k_ext s)); [done|]. rewrite (j_ext _ _ _ J). lia.
    - by apply Hr.
  Qed.
  Lemma lsettle n progs stops acts : finite_cascade out -> Forall (fun i => i < n) stops ->
    exists N, forall rounds, N <= length rounds -> Forall (fair_lround n (length progs)) rounds ->
    let s := run (l_new n progs stops) (acts ++ concat rounds) in jinv n (length progs) s /\ forall a, step s a = s.
  Proof.
    intros [total Htot] Hst. set (s0 := run (l_new n progs stops) acts).
    assert (J0 : jinv n (length progs) s0).
    { unfold s0, l_run. generalize (jinv_new n progs stops Hst). generalize (l_new n progs stops). generalize (length progs). clear. induction acts as [|a l IH]; intros m u Hu; [done|]. cbn. apply IH. by apply jinv_step. }
    exists (S (lm total s0)). intros rounds Hlen Hr s. subst s. unfold l_run. rewrite fold_left_app. fold (run (l_new n progs stops) acts). fold s0.
    eapply (rounds_stuck step (lm total) (jinv n (length progs)) (fair_lround n (length progs))); [| | |done|done|lia].
    - intros s a. apply jinv_step.
    - intros s a _. by apply lm_dec.
    - intros s r J Hf. by eapply fair_lstuck.
  Qed.
  (** Nobody is ever blocked: if every event triggers finitely many publications, then in every fair schedule all publishers finish and every loop becomes idle, having handled everything it accepted,
      whatever the ring sizes and the connections: cycles and publications to the own loop included. *)
  Theorem C109_everything_handled n progs acts : finite_cascade out ->
    exists N, forall rounds, N <= length rounds -> Forall (fair_lround n (length progs)) rounds ->
    let s := run (l_new n progs []) (acts ++ concat rounds) in
    (forall t rest, k_ext s !! t = Some rest -> rest = []) /\
    forall j nj, k_nodes s !! j = Some nj -> l_log nj = accepted (l_att nj) /\ l_pend nj = [] /\
      (forall i ni, k_nodes s !! i = Some ni -> from_src (SrcNode i) (fst <$> l_att nj) = sent_to j (all_out out i (l_log ni))) /\
      (forall t prog, progs !! t = Some prog -> from_src (SrcExt t) (fst <$> l_att nj) = sent_to j prog).
  Proof.
    intros Hf. destruct (lsettle n progs [] acts Hf ltac:(constructor)) as [N HN].
    exists N. intros rounds Hlen Hr s. destruct (HN rounds Hlen Hr) as (J & Hst). fold s in J, Hst.
    pose proof (C109_accounting n progs [] (acts ++ concat rounds)) as Hacc. cbn zeta in Hacc. fold s in Hacc.
    assert (Hon : forall j nj, k_nodes s !! j = Some nj -> l_on nj = true).
    { assert (forall acts, let s := run (l_new n progs []) acts in k_ctl s = [] /\ forall j nj, k_nodes s !! j = Some nj -> l_on nj = true) as Hall.
      { intros l. induction l as [|a l IH] using rev_ind; cbn zeta.
        - unfold l_run, l_new. cbn. split; [done|]. intros j nj [-> _]%lookup_replicate. done.
        - unfold l_run. rewrite fold_left_app. fold (run (l_new n progs []) l). cbn [fold_left]. cbn zeta in IH. set (q := run (l_new n progs []) l) in *. destruct IH as [Hc Ho].
          destruct a as [i k|t|]; cbn [l_step].
          + destruct (k_nodes q !! i) as [nd|] eqn:Hi; [|done]. destruct (l_done nd) eqn:Hdn; [done|]. pose proof (Ho _ _ Hi) as Hoi.
            destruct (l_pend nd) as [|[j v] r].
            * cbn. split; [done|]. intros k' x (y & Hy & ->)%alter_some. pose proof (Ho _ _ Hy) as Hoy. destruct (decide (k' = i)); [|done]. unfold own_step. rewrite Hoy. by repeat case_match.
            * cbn. split; [done|]. intros k' x (y & (z & Hz & ->)%alter_some & ->)%alter_some. pose proof (Ho _ _ Hz) as Hoz.
              destruct (decide (k' = j)); [|by destruct (decide (k' = i))].
              destruct (recv_same size j (SrcNode i, v) (if decide (k' = i) then set_pend r z else z)) as (_ & _ & _ & -> & _). by destruct (decide (k' = i)).
          + destruct (k_ext q !! t) as [[|[j v] r]|]; [done| |done]. cbn. split; [done|]. intros k' x (y & Hy & ->)%alter_some. pose proof (Ho _ _ Hy).
            destruct (decide (k' = j)); [|done]. by destruct (recv_same size j (SrcExt t, v) y) as (_ & _ & _ & -> & _).
          + by rewrite Hc. }
      apply (Hall (acts ++ concat rounds)). }
    assert (Hid : forall j nj, k_nodes s !! j = Some nj -> l_pend nj = [] /\ l_thr nj = false /\ l_b nj = [] /\ l_held nj = 0 /\ l_q nj = [] /\ l_on nj = true).
    { intros j nj Hj. eapply (idle s j 0); [done| |apply Hst]. destruct (l_done nj) eqn:E; [|done]. destruct (j_done _ _ _ J _ _ Hj E) as [Ho _]. rewrite (Hon _ _ Hj) in Ho. done. }
    assert (Hext : forall t rest, k_ext s !! t = Some rest -> rest = []).
    { intros t rest Ht. destruct rest as [|[j v] r]; [done|]. exfalso. pose proof (Hst (LExt t)) as E. cbn [l_step] in E. rewrite Ht in E.
      apply (f_equal k_ext) in E. cbn in E. pose proof (list_lookup_insert (k_ext s) t r ltac:(by eapply lookup_lt_Some)) as E2. rewrite E, Ht in E2. injection E2 as E2.
      apply (f_equal length) in E2. cbn in E2. lia. }
    split; [done|]. intros j nj Hj. destruct (Hacc _ _ Hj) as (A & _ & B & C). destruct (Hid _ _ Hj) as (Hp & _ & Hb & _ & Hq & _). split_and!; [|done| |].
    - by rewrite A, Hb, Hq, !app_nil_r.
    - intros i ni Hi. rewrite <- (B _ _ Hi). destruct (Hid _ _ Hi) as (-> & _). change (sent_to j (@nil (nat * V))) with (@nil V). by rewrite app_nil_r.
    - intros t prog Ht. destruct (lookup_lt_is_Some_2 (k_ext s) t) as [rest Hr']; [rewrite (j_ext _ _ _ J); by eapply lookup_lt_Some|].
      rewrite <- (C _ _ _ Ht Hr'), (Hext _ _ Hr'). change (sent_to j (@nil (nat * V))) with (@nil V). by rewrite app_nil_r.
  Qed.
  (** Loops may be stopped in any order: every stop() returns, in every fair schedule, and no listener is cut short. *)
  Theorem C109_stops_any_order n progs stops acts : finite_cascade out -> Forall (fun i => i < n) stops ->
    exists N, forall rounds, N <= length rounds -> Forall (fair_lround n (length progs)) rounds ->
    let s := run (l_new n progs stops) (acts ++ concat rounds) in
    k_ctl s = [] /\ forall i nd, i ∈ stops -> k_nodes s !! i = Some nd -> l_done nd = true /\ l_pend nd = [].
  Proof.
    intros Hf Hs. destruct (lsettle n progs stops acts Hf Hs) as [N HN].
    exists N. intros rounds Hlen Hr s. destruct (HN rounds Hlen Hr) as (J & Hst). fold s in J, Hst.
    assert (Hgone : forall l, let s := run (l_new n progs stops) l in exists gone, stops = gone ++ k_ctl s /\ forall i nd, i ∈ gone -> k_nodes s !! i = Some nd -> l_done nd = true).
    { intros l. induction l as [|a l IH] using rev_ind; cbn zeta.
      - exists []. split; [done|]. intros i nd Hi. by apply elem_of_nil in Hi.
      - unfold l_run. rewrite fold_left_app. fold (run (l_new n progs stops) l). cbn [fold_left]. cbn zeta in IH. set (q := run (l_new n progs stops) l) in *. destruct IH as (gone & Hg & Hd).
        destruct a as [i k|t|]; cbn [l_step].
        + destruct (k_nodes q !! i) as [nd|] eqn:Hi; [|by exists gone]. destruct (l_done nd) eqn:Hdn; [by exists gone|].
          destruct (l_pend nd) as [|[j v] r]; exists gone; cbn.
          * split; [done|]. intros k' x Hk (y & Hy & ->)%alter_some. pose proof (Hd _ _ Hk Hy) as Hdy. destruct (decide (k' = i)) as [->|]; [congruence|done].
          * split; [done|]. intros k' x Hk (y & (z & Hz & ->)%alter_some & ->)%alter_some. pose proof (Hd _ _ Hk Hz) as Hdz.
            destruct (decide (k' = i)) as [->|]; [congruence|]. destruct (decide (k' = j)); [|done]. by destruct (recv_same size j (SrcNode i, v) z) as (_ & _ & _ & _ & -> & _).
        + destruct (k_ext q !! t) as [[|[j v] r]|]; [by exists gone| |by exists gone]. exists gone. cbn. split; [done|]. intros k' x Hk (y & Hy & ->)%alter_some. pose proof (Hd _ _ Hk Hy).
          destruct (decide (k' = j)); [|done]. by destruct (recv_same size j (SrcExt t, v) y) as (_ & _ & _ & _ & -> & _).
        + destruct (k_ctl q) as [|i r] eqn:Hc; [exists gone; by rewrite Hc|]. destruct (k_nodes q !! i) as [nd|] eqn:Hi; [|exists gone; by rewrite Hc].
          destruct (k_waiting q).
          * destruct (l_done nd) eqn:Hdn; [|exists gone; by rewrite Hc]. exists (gone ++ [i]). cbn. split; [by rewrite <- (assoc_L (++))|].
            intros k' x [Hk| ->%elem_of_list_singleton]%elem_of_app Hx; [by eapply Hd|congruence].
          * exists gone. cbn. split; [done|]. intros k' x Hk (y & Hy & ->)%alter_some. pose proof (Hd _ _ Hk Hy). by destruct (decide (k' = i)). }
    destruct (Hgone (acts ++ concat rounds)) as (gone & Hg & Hd). fold s in Hg, Hd.
    assert (Hc : k_ctl s = []).
    { destruct (k_ctl s) as [|i r] eqn:Hc; [done|]. exfalso.
      pose proof (j_ctl _ _ _ J) as Hlt. rewrite Hc in Hlt. apply Forall_cons in Hlt as [Hi _].
      destruct (lookup_lt_is_Some_2 (k_nodes s) i) as [nd Hnd]; [rewrite (j_len _ _ _ J); done|].
      pose proof (Hst LCtl) as E. cbn [l_step] in E. rewrite Hc, Hnd in E.
      destruct (k_waiting s) eqn:Hw.
      - destruct (l_done nd) eqn:Hdn.
        + apply (f_equal k_ctl) in E. cbn in E. rewrite Hc in E. apply (f_equal length) in E. cbn in E. lia.
        + destruct (idle _ _ 0 _ Hnd Hdn (Hst _)) as (_ & _ & _ & _ & _ & Ho).
          destruct (j_wait _ _ _ J Hw) as (i' & r' & E1 & E2). rewrite Hc in E1. injection E1 as <- <-. rewrite (E2 _ Hnd) in Ho. done.
      - apply (f_equal k_waiting) in E. cbn in E. congruence. }
    split; [done|]. rewrite Hc, app_nil_r in Hg. subst gone. intros i nd Hi Hnd. assert (l_done nd = true) as Hdn by (by eapply Hd). split; [done|]. by destruct (j_done _ _ _ J _ _ Hnd Hdn) as (_ & ? & _).
  Qed.
End Thms.
(** Hypotheses met: two loops of sizes 2 and 1; an event 0 < v at loop 0 is published again to loop 0 (v - 1) and to loop 1, whose listener sends it back to loop 0 if it is even; loop 1 throws on 3. *)
Definition ping (i : nat) (v : nat) : list (nat * nat) :=
  match v with 0 => [] | S v' => match i with 0 => [(0, v'); (1, v')] | _ => if Nat.even v then [(0, v')] else [] end end.
Definition grumpy (i : nat) (v : nat) : bool := (i =? 1) && (v =? 3).
Definition psize (i : nat) : nat := match i with 0 => 2 | _ => 1 end.
Definition pround : list lact := [LExt 0; LPoll 0 0; LPoll 1 0; LExt 1; LPoll 0 1; LCtl].
Example C109_hypotheses : finite_cascade ping /\ fair_lround 2 2 pround.
Proof.
  split.
  - exists (fun _ v => 3 ^ S v). intros i v. destruct v as [|v]; [cbn; lia|]. unfold ping. assert (1 <= 3 ^ v) by (clear; induction v; cbn; lia).
    destruct i; [|destruct (Nat.even (S v))]; cbn [sum_list_with fst snd]; cbn [Nat.pow]; lia.
  - split_and!; [intros i Hi; assert (i = 0 \/ i = 1) as [-> | ->] by lia; exists 0|intros t Ht; assert (t = 0 \/ t = 1) as [-> | ->] by lia|]; unfold pround; rewrite !elem_of_cons; tauto.
Qed.
Example C109_example : let s := l_run psize ping grumpy (l_new 2 [[(0, 4); (0, 3)]; [(1, 3)]] []) (concat (replicate 40 pround)) in
  (fun nd => (snd <$> l_log nd, length (refused (l_att nd)))) <$> k_nodes s = [([4; 3; 2; 1; 0], 2); ([3; 2; 0], 2)] /\ k_ext s = [[]; []].
Proof. by vm_compute. Qed.
Example C109_example_stops : k_ctl (l_run psize ping grumpy (l_new 2 [[(0, 4); (0, 3)]; [(1, 3)]] [1; 0]) (concat (replicate 40 pround))) = [].
Proof. by vm_compute. Qed.
Print Assumptions C109_accounting.
Print Assumptions C109_refused_only_if_full.
Print Assumptions C109_everything_handled.
Print Assumptions C109_stops_any_order.
