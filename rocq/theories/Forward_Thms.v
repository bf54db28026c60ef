(** * Theorems about chains and networks of in-memory providers (C107). *)
From Coq Require Import Lia Sorted.
From stdpp Require Import prelude.
From Verif Require Import Forward_Model Forward_Spec Forward_Props.
Section Stops.
  Context {V : Type} (cap : nat -> nat) (disc : nat -> bool) (out : nat -> V -> list (nat * V)) (stops : list nat).
  Notation step := (f_step cap disc out).
  (* off nodes were asked to stop; the requests come in increasing order *)
  Record hinv (s : net V) : Prop := {
    h_sorted : StronglySorted lt (t_ctl s);
    h_suffix : exists gone, stops = gone ++ t_ctl s /\ forall i nd, i ∈ gone -> t_nodes s !! i = Some nd -> n_done nd = true;
    h_off : forall k nd i r, t_nodes s !! k = Some nd -> n_on nd = false -> t_ctl s = i :: r -> k < i \/ k = i /\ t_waiting s = true;
    h_idle : forall k nd, t_nodes s !! k = Some nd -> n_done nd = true -> n_pend nd = []
  }.
  Lemma hinv_new n ext : StronglySorted lt stops -> hinv (f_new n ext stops).
  Proof.
    intros Hs. constructor; unfold f_new; cbn; [done| | |].
    - exists []. split; [done|]. intros i nd Hi. by apply elem_of_nil in Hi.
    - intros k nd i r [-> _]%lookup_replicate. done.
    - intros k nd [-> _]%lookup_replicate. done.
  Qed.
  Lemma hinv_nodes s ns' ext : hinv s ->
    (forall i x, ns' !! i = Some x -> exists y, t_nodes s !! i = Some y /\ (n_on x = false -> n_on y = false) /\ (n_done y = true -> n_done x = true) /\ (n_done x = true -> n_pend x = [])) ->
    hinv (Net ns' ext (t_ctl s) (t_waiting s)).
  Proof.
    intros [H1 (gone & Hg & Hd) H3 H4] Hn. constructor; cbn; [done| | |].
    - exists gone. split; [done|]. intros i nd Hi (y & Hy & _ & Hdn & _)%Hn. apply Hdn. by eapply Hd.
    - intros k nd i r (y & Hy & Ho & _)%Hn Hoff Hc. eapply H3; eauto.
    - intros k nd (y & Hy & _ & _ & Hp)%Hn. done.
  Qed.
  Lemma hinv_step s a : hinv s -> hinv (step s a).
  Proof.
    intros H. pose proof H as [H1 H2 H3 H4]. destruct a as [i|t|]; cbn [f_step].
    - destruct (t_nodes s !! i) as [nd|] eqn:Hi; [|done]. destruct (n_done nd) eqn:Hdn; [done|].
      destruct (n_pend nd) as [|[j v] r] eqn:Hp.
      + destruct (n_on nd) eqn:Hon.
        * destruct (n_q nd) as [|e q] eqn:Hq; [done|]. apply hinv_nodes; [done|].
          intros k x [(<- & <- & _)|[Hne Hx]]%list_lookup_insert_Some; [exists nd|exists x].
          -- cbn. split_and!; [done|congruence|congruence|done].
          -- split_and!; [done..|by eapply H4].
        * apply hinv_nodes; [done|].
          intros k x [(<- & <- & _)|[Hne Hx]]%list_lookup_insert_Some; [exists nd|exists x].
          -- cbn. done.
          -- split_and!; [done..|by eapply H4].
      + destruct (push cap disc _ j (SrcNode i, v)) as [ns|] eqn:Epu; [|done].
        apply push_spec in Epu as (md & q' & Hj & -> & _ & _). apply hinv_nodes; [done|].
        assert (G : forall k x, <[i := Node (n_q nd) r (n_on nd) false (n_log nd) (n_in nd)]> (t_nodes s) !! k = Some x ->
          exists y, t_nodes s !! k = Some y /\ (n_on x = false -> n_on y = false) /\ (n_done y = true -> n_done x = true) /\ (n_done x = true -> n_pend x = [])).
        { intros k x [(<- & <- & _)|[Hne Hx]]%list_lookup_insert_Some; [exists nd|exists x].
          - cbn. split_and!; [done|done|congruence|done].
          - split_and!; [done..|by eapply H4]. }
        intros k x [(<- & <- & _)|[Hne Hx]]%list_lookup_insert_Some; [|by apply G].
        apply G in Hj as (y & Hy & A & B & C). exists y. cbn. done.
    - destruct (t_ext s !! t) as [[|[j v] r]|] eqn:Ht; [done| |done].
      destruct (push cap disc _ j (SrcExt t, v)) as [ns|] eqn:Epu; [|done].
      apply push_spec in Epu as (md & q' & Hj & -> & _ & _). apply hinv_nodes; [done|].
      intros k x [(<- & <- & _)|[Hne Hx]]%list_lookup_insert_Some; [exists md|exists x].
      * cbn. split_and!; [done..|by eapply H4].
      * split_and!; [done..|by eapply H4].
    - destruct (t_ctl s) as [|i r] eqn:Hc; [done|]. destruct (t_nodes s !! i) as [nd|] eqn:Hi; [|done].
      destruct H2 as (gone & Hg & Hd). apply StronglySorted_inv in H1 as [H1 Hall].
      destruct (t_waiting s) eqn:Hw.
      + destruct (n_done nd) eqn:Hdn; [|done]. constructor; cbn; [done| | |done].
        * exists (gone ++ [i]). split; [by rewrite <- (assoc_L (++))|]. intros k x [Hk| ->%elem_of_list_singleton]%elem_of_app Hx; [by eapply Hd|congruence].
        * intros k x i' r' Hx Hoff ->. apply Forall_cons in Hall as [Hlt _]. destruct (H3 k x i _ Hx Hoff eq_refl) as [?|[-> _]]; lia.
      + constructor; cbn.
        * by constructor.
        * exists gone. split; [done|]. intros k x Hk [(<- & <- & _)|[Hne Hx]]%list_lookup_insert_Some; [by eapply (Hd i nd)|by eapply Hd].
        * intros k x i' r' Hx Hoff [= <- <-]. apply list_lookup_insert_Some in Hx as [(<- & <- & _)|[Hne Hx]]; [by right|]. destruct (H3 k x i r Hx Hoff eq_refl) as [?|[_ ?]]; [by left|done].
        * intros k x [(<- & <- & _)|[Hne Hx]]%list_lookup_insert_Some; [by apply (H4 _ _ Hi)|by eapply H4].
  Qed.
  Lemma hinv_run s acts : hinv s -> hinv (f_run cap disc out s acts).
  Proof. unfold f_run. revert s. induction acts as [|a acts IH]; intros s H; [done|]. cbn. apply IH. by apply hinv_step. Qed.
End Stops.
Section Thms.
  Context {V : Type} (cap : nat -> nat) (disc : nat -> bool) (out : nat -> V -> list (nat * V)).
  Notation step := (f_step cap disc out).
  Notation run := (f_run cap disc out).
  (* queues are suffixes of what was pushed, and bounded *)
  Definition qinv (s : net V) : Prop := forall j (nj : node V), t_nodes s !! j = Some nj -> (exists older, n_in nj = older ++ n_q nj) /\ (0 < cap j \/ disc j = false -> length (n_q nj) <= cap j).
  Lemma qinv_push (ns : list (node V)) j e ns' : push cap disc ns j e = Some ns' ->
    (forall k (x : node V), ns !! k = Some x -> (exists older, n_in x = older ++ n_q x) /\ (0 < cap k \/ disc k = false -> length (n_q x) <= cap k)) ->
    forall k (x : node V), ns' !! k = Some x -> (exists older, n_in x = older ++ n_q x) /\ (0 < cap k \/ disc k = false -> length (n_q x) <= cap k).
  Proof.
    unfold push. destruct (ns !! j) as [nd|] eqn:Hj; [|done]. intros E H k x Hx.
    destruct (H j nd Hj) as [[older Ho] Hl].
    destruct (disc j) eqn:Hd.
    - injection E as <-. apply list_lookup_insert_Some in Hx as [(<- & <- & _)|[Hne Hx]]; [|by apply H]. cbn [n_in n_q].
      rewrite app_length. cbn [length]. destruct (Nat.eqb_spec (cap j) 0) as [Hc|Hc].
      + split; [exists older; by rewrite Ho, (assoc_L (++))|]. intros [?|?]; [lia|congruence].
      + split; [|rewrite drop_length; lia].
        exists (older ++ take (S (length (n_q nd)) - cap j) (n_q nd)). rewrite <- (assoc_L (++)), (assoc_L (++) (take _ _)), take_drop, (assoc_L (++)). by rewrite <- Ho.
    - destruct (Nat.ltb_spec (length (n_q nd)) (cap j)) as [Hc|Hc]; [|done]. injection E as <-.
      apply list_lookup_insert_Some in Hx as [(<- & <- & _)|[Hne Hx]]; [|by apply H]. cbn [n_in n_q]. rewrite app_length. cbn [length].
      split; [exists older; by rewrite Ho, (assoc_L (++))|lia].
  Qed.
  Lemma qinv_step s a : qinv s -> qinv (step s a).
  Proof.
    intros Q. destruct a as [i|t|]; cbn [f_step].
    - destruct (t_nodes s !! i) as [nd|] eqn:Hi; [|done]. destruct (n_done nd); [done|]. pose proof (Q i nd Hi) as [[older Ho] Hl].
      destruct (n_pend nd) as [|[j v] r].
      + destruct (n_on nd).
        * destruct (n_q nd) as [|e q] eqn:Hq; [done|]. intros k x [(<- & <- & _)|[Hne Hx]]%list_lookup_insert_Some; cbn [n_in n_q]; [|by apply Q].
          split; [exists (older ++ [e]); by rewrite Ho, <- (assoc_L (++))|]. intros Hc. specialize (Hl Hc). cbn in Hl. lia.
        * intros k x [(<- & <- & _)|[Hne Hx]]%list_lookup_insert_Some; cbn [n_in n_q]; [|by apply Q]. by split; [exists older|].
      + destruct (push cap disc _ j (SrcNode i, v)) as [ns|] eqn:Epu; [|done]. unfold qinv. cbn [t_nodes].
        eapply qinv_push; [exact Epu|]. intros k x [(<- & <- & _)|[Hne Hx]]%list_lookup_insert_Some; [|by apply Q]. cbn [n_in n_q]. by split; [exists older|].
    - destruct (t_ext s !! t) as [[|[j v] r]|]; [done| |done].
      destruct (push cap disc _ j (SrcExt t, v)) as [ns|] eqn:Epu; [|done]. unfold qinv. cbn [t_nodes]. eapply qinv_push; [exact Epu|]. apply Q.
    - destruct (t_ctl s) as [|i r]; [done|]. destruct (t_nodes s !! i) as [nd|] eqn:Hi; [|done].
      destruct (t_waiting s); [by destruct (n_done nd)|].
      intros k x [(<- & <- & _)|[Hne Hx]]%list_lookup_insert_Some; [|by apply Q]. cbn [n_in n_q]. exact (Q i nd Hi).
  Qed.
  (** C107. Queues are bounded, and what a queue holds are the newest events: in everything that was ever published to the provider there is nothing after it. *)
  Theorem C107_newest_kept n progs stops acts :
    let s := run (f_new n progs stops) acts in
    forall j nj, t_nodes s !! j = Some nj -> (0 < cap j \/ disc j = false -> length (n_q nj) <= cap j) /\ exists older,
      (forall i ni, t_nodes s !! i = Some ni -> from_src (SrcNode i) (older ++ n_q nj) ++ sent_to j (n_pend ni) = sent_to j (all_out out i (n_log ni))) /\
      (forall t prog rest, progs !! t = Some prog -> t_ext s !! t = Some rest -> from_src (SrcExt t) (older ++ n_q nj) ++ sent_to j rest = sent_to j prog).
  Proof.
    intros s j nj Hj.
    assert (Q : qinv s).
    { unfold s, f_run. assert (Q0 : qinv (f_new n progs stops)).
      { intros k x [-> _]%lookup_replicate. cbn. split; [by exists []|lia]. }
      revert Q0. generalize (f_new n progs stops). clear. induction acts as [|a l IH]; intros u Q0; [done|]. cbn. apply IH. by apply qinv_step. }
    destruct (Q j nj Hj) as [[older Ho] Hl]. split; [done|]. exists older. rewrite <- Ho.
    pose proof (finv_run cap disc out progs (f_new n progs stops) acts (finv_new disc out n progs stops)) as [F1 F2 F3].
    split; [intros i ni Hi; by apply (F1 i j)|intros t prog rest P1 P2; by eapply F2].
  Qed.
  (** C107. At every moment of every schedule, whatever the connections: what a blocking provider has handled and still has in its queue from one source
      is exactly what that source has published to it so far, in that order; a discarding provider has a subsequence of it. *)
  Theorem C107_flow n progs stops acts :
    let s := run (f_new n progs stops) acts in
    forall j nj, t_nodes s !! j = Some nj ->
      (forall i ni, t_nodes s !! i = Some ni -> exists sent, sent ++ sent_to j (n_pend ni) = sent_to j (all_out out i (n_log ni)) /\
         from_src (SrcNode i) (n_log nj ++ n_q nj) `sublist_of` sent /\ (disc j = false -> from_src (SrcNode i) (n_log nj ++ n_q nj) = sent)) /\
      (forall t prog rest, progs !! t = Some prog -> t_ext s !! t = Some rest -> exists sent, sent ++ sent_to j rest = sent_to j prog /\
         from_src (SrcExt t) (n_log nj ++ n_q nj) `sublist_of` sent /\ (disc j = false -> from_src (SrcExt t) (n_log nj ++ n_q nj) = sent)).
  Proof.
    intros s j nj Hj. destruct (finv_run cap disc out progs _ acts (finv_new disc out n progs stops)) as [F1 F2 F3]. fold s in F1, F2, F3.
    destruct (F3 _ _ Hj) as [G1 G2].
    assert (Hsub : forall p, from_src p (n_log nj ++ n_q nj) `sublist_of` from_src p (n_in nj)).
    { intros p. unfold from_src. apply fmap_sublist. clear -G1. induction G1 as [|x l k _ IH|x l k _ IH]; cbn; [done| |].
      - destruct (src_eq x.1 p); [by apply sublist_skip|done].
      - destruct (src_eq x.1 p); [by apply sublist_cons|done]. }
    split.
    - intros i ni Hi. exists (from_src (SrcNode i) (n_in nj)). split; [by apply F1|]. split; [done|]. intros Hd. by rewrite (G2 Hd).
    - intros t prog rest Hp Hr. exists (from_src (SrcExt t) (n_in nj)). split; [by eapply F2|]. split; [done|]. intros Hd. by rewrite (G2 Hd).
  Qed.
  Lemma ginv_run n s acts : forward_only n out -> ginv n s -> ginv n (run s acts).
  Proof. intros Hf. unfold f_run. revert s. induction acts as [|a acts IH]; intros s G; [done|]. cbn. apply IH. by apply ginv_step. Qed.
  Lemma ext_len s a : length (t_ext (step s a)) = length (t_ext s).
  Proof. destruct a; cbn; repeat case_match; cbn; rewrite ?insert_length; done. Qed.
  Lemma fair_stuck n m s r : ginv n s -> length (t_ext s) = m -> fair_round n m r -> (forall a, a ∈ r -> step s a = s) -> forall a, step s a = s.
  Proof.
    intros G Hm (R1 & R2 & R3) Hr [i|t|].
    - destruct (decide (i < n)); [by apply Hr, R1|]. cbn. rewrite (lookup_ge_None_2 (t_nodes s)); [done|]. rewrite (g_len _ _ G). lia.
    - destruct (decide (t < m)); [by apply Hr, R2|]. cbn. rewrite (lookup_ge_None_2 (t_ext s)); [done|]. lia.
    - by apply Hr.
  Qed.
  Lemma settle n progs stops acts : forward_only n out -> in_net n progs -> Forall (fun i => i < n) stops -> (forall j, disc j = false -> 0 < cap j) ->
    exists N, forall rounds, N <= length rounds -> Forall (fair_round n (length progs)) rounds ->
    let s := run (f_new n progs stops) (acts ++ concat rounds) in ginv n s /\ stuck cap disc out s /\ length (t_ext s) = length progs.
  Proof.
    intros Hf Hp Hst Hcap. set (s0 := run (f_new n progs stops) acts).
    assert (G0 : ginv n s0) by (by apply ginv_run, ginv_new).
    assert (L : forall l s, length (t_ext (run s l)) = length (t_ext s)).
    { unfold f_run. induction l as [|a l IH]; intros s; [done|]. cbn. rewrite IH. apply ext_len. }
    exists (S (fm out n s0)). intros rounds Hlen Hr s. subst s. unfold f_run. rewrite fold_left_app. fold (run (f_new n progs stops) acts). fold s0.
    pose proof (rounds_stuck step (fm out n) (fun s => ginv n s /\ length (t_ext s) = length progs) (fair_round n (length progs))) as R.
    destruct (R) with (rounds := rounds) (s := s0) as [[A B] C].
    - intros s a [G E]. split; [by apply ginv_step|]. by rewrite ext_len.
    - intros s a [G E]. by apply fm_dec.
    - intros s r [G E] Hfr Hn. by eapply fair_stuck.
    - split; [done|]. unfold s0. by rewrite L.
    - done.
    - lia.
    - done.
  Qed.
  (** Without cycles and without stops everything arrives, whatever the capacities: in every fair schedule all publishers finish, all queues get empty, and the listeners of every blocking provider
      were given exactly what each source published to it, in its order. *)
  Theorem C107_everything_arrives n progs acts : forward_only n out -> in_net n progs -> (forall j, disc j = false -> 0 < cap j) ->
    exists N, forall rounds, N <= length rounds -> Forall (fair_round n (length progs)) rounds ->
    let s := run (f_new n progs []) (acts ++ concat rounds) in
    (forall t rest, t_ext s !! t = Some rest -> rest = []) /\
    forall j nj, t_nodes s !! j = Some nj -> n_q nj = [] /\ n_pend nj = [] /\
      (disc j = false ->
       (forall i ni, t_nodes s !! i = Some ni -> from_src (SrcNode i) (n_log nj) = sent_to j (all_out out i (n_log ni))) /\
       (forall t prog, progs !! t = Some prog -> from_src (SrcExt t) (n_log nj) = sent_to j prog)).
  Proof.
    intros Hf Hp Hcap. destruct (settle n progs [] acts Hf Hp ltac:(constructor) Hcap) as [N HN].
    exists N. intros rounds Hlen Hr s. destruct (HN rounds Hlen Hr) as (G & Hst & Hel). fold s in G, Hst, Hel.
    pose proof (C107_flow n progs [] (acts ++ concat rounds)) as Hflow. cbn zeta in Hflow. fold s in Hflow.
    assert (Hon : forall j nj, t_nodes s !! j = Some nj -> n_on nj = true).
    { assert (forall acts, let s := run (f_new n progs []) acts in t_ctl s = [] /\ forall j nj, t_nodes s !! j = Some nj -> n_on nj = true) as Hall.
      { intros l. induction l as [|a l IH] using rev_ind; cbn zeta.
        - unfold f_run, f_new. cbn. split; [done|]. intros j nj [-> _]%lookup_replicate. done.
        - unfold f_run. rewrite fold_left_app. fold (run (f_new n progs []) l). cbn [fold_left]. cbn zeta in IH. set (q := run (f_new n progs []) l) in *. destruct IH as [Hc Ho].
          destruct a as [i|t|]; cbn [f_step].
          + destruct (t_nodes q !! i) as [nd|] eqn:Hi; [|done]. destruct (n_done nd) eqn:Hdn; [done|]. pose proof (Ho _ _ Hi) as Hoi.
            destruct (n_pend nd) as [|[j v] r].
            * rewrite Hoi. destruct (n_q nd); [done|]. cbn. split; [done|]. intros k x [(<- & <- & _)|[Hne Hx]]%list_lookup_insert_Some; [done|by eapply Ho].
            * destruct (push cap disc _ j _) as [ns|] eqn:Epu; [|done]. apply push_spec in Epu as (md & q' & Hj & -> & _). cbn. split; [done|].
              assert (HH : forall k x, <[i := Node (n_q nd) r (n_on nd) false (n_log nd) (n_in nd)]> (t_nodes q) !! k = Some x -> n_on x = true).
              { intros k x [(<- & <- & _)|[Hne Hx]]%list_lookup_insert_Some; [done|by eapply Ho]. }
              intros k x [(<- & <- & _)|[Hne Hx]]%list_lookup_insert_Some; [cbn; by eapply HH|by eapply HH].
          + destruct (t_ext q !! t) as [[|[j v] r]|]; [done| |done]. destruct (push cap disc _ j _) as [ns|] eqn:Epu; [|done]. apply push_spec in Epu as (md & q' & Hj & -> & _). cbn. split; [done|].
            intros k x [(<- & <- & _)|[Hne Hx]]%list_lookup_insert_Some; [cbn; by eapply Ho|by eapply Ho].
          + by rewrite Hc. }
      apply (Hall (acts ++ concat rounds)). }
    assert (Hdone : forall j nj, t_nodes s !! j = Some nj -> n_done nj = false).
    { intros j nj Hj. destruct (n_done nj) eqn:E; [|done]. pose proof (g_done _ _ G _ _ Hj E). pose proof (Hon _ _ Hj). congruence. }
    assert (Hpend : forall j nj, t_nodes s !! j = Some nj -> n_pend nj = []).
    { intros j nj Hj. eapply (stuck_pend cap disc out n Hcap s G Hst n j nj); [lia|done|by eapply Hdone|]. intros k nk _. apply Hon. }
    assert (Hq : forall j nj, t_nodes s !! j = Some nj -> n_q nj = []).
    { intros j nj Hj. pose proof (Hst (FPoll j)) as E. cbn [f_step] in E. rewrite Hj, (Hdone _ _ Hj), (Hpend _ _ Hj), (Hon _ _ Hj) in E.
      destruct (n_q nj) as [|e q] eqn:Eq; [done|]. apply (node_ne _ _ _ _ _ _ _ Hj) in E. apply (f_equal (fun x => length (n_log x))) in E. cbn in E. rewrite app_length in E. cbn in E. lia. }
    assert (Hext : forall t rest, t_ext s !! t = Some rest -> rest = []).
    { intros t rest Ht. destruct rest as [|[j v] r]; [done|]. exfalso. pose proof (Hst (FExt t)) as E. cbn [f_step] in E. rewrite Ht in E.
      destruct (push cap disc (t_nodes s) j (SrcExt t, v)) as [ns|] eqn:Epu.
      - apply (f_equal t_ext) in E. cbn in E. pose proof (list_lookup_insert (t_ext s) t r ltac:(by eapply lookup_lt_Some)) as E2. rewrite E, Ht in E2. injection E2 as E2.
        apply (f_equal length) in E2. cbn in E2. lia.
      - destruct (blocked_full cap disc Hcap _ _ _ Epu) as (nd & Hnd & _ & Hne).
        + rewrite (g_len _ _ G). eapply (g_ext _ _ G ((j, v) :: r) j v); [by eapply elem_of_list_lookup_2|by left].
        + by rewrite (Hq _ _ Hnd) in Hne. }
    split; [done|]. intros j nj Hj. split_and!; [by eapply Hq|by eapply Hpend|]. intros Hd. destruct (Hflow _ _ Hj) as [HA HB]. rewrite (Hq _ _ Hj), app_nil_r in *. split.
    - intros i ni Hi. destruct (HA _ _ Hi) as (sent & E1 & _ & E3). rewrite (E3 Hd), <- E1, (Hpend _ _ Hi). change (sent_to j (@nil (nat * V))) with (@nil V). by rewrite app_nil_r.
    - intros t prog Ht. destruct (lookup_lt_is_Some_2 (t_ext s) t) as [rest Hr']; [rewrite Hel; by eapply lookup_lt_Some|].
      destruct (HB _ _ _ Ht Hr') as (sent & E1 & _ & E3). rewrite (E3 Hd), <- E1, (Hext _ _ Hr'). change (sent_to j (@nil (nat * V))) with (@nil V). by rewrite app_nil_r.
  Qed.
  (** Providers stopped in the direction of the events: every stop() returns, in every fair schedule, and no listener is cut short. *)
  Theorem C107_stops_in_order n progs stops acts : forward_only n out -> in_net n progs -> (forall j, disc j = false -> 0 < cap j) ->
    StronglySorted lt stops -> Forall (fun i => i < n) stops ->
    exists N, forall rounds, N <= length rounds -> Forall (fair_round n (length progs)) rounds ->
    let s := run (f_new n progs stops) (acts ++ concat rounds) in
    t_ctl s = [] /\ forall i nd, i ∈ stops -> t_nodes s !! i = Some nd -> n_done nd = true /\ n_pend nd = [].
  Proof.
    intros Hf Hp Hcap Hso Hst. destruct (settle n progs stops acts Hf Hp Hst Hcap) as [N HN].
    exists N. intros rounds Hlen Hr s. destruct (HN rounds Hlen Hr) as (G & Hstk & _). fold s in G, Hstk.
    pose proof (hinv_run cap disc out stops _ (acts ++ concat rounds) (hinv_new stops n progs Hso)) as H. fold s in H. destruct H as [H1 (gone & Hg & Hd) H3 H4].
    assert (Hc : t_ctl s = []).
    { destruct (t_ctl s) as [|i r] eqn:Hc; [done|]. exfalso.
      pose proof (g_ctl _ _ G) as Hlt. rewrite Hc in Hlt. apply Forall_cons in Hlt as [Hi _].
      destruct (lookup_lt_is_Some_2 (t_nodes s) i) as [nd Hnd]; [rewrite (g_len _ _ G); done|].
      pose proof (Hstk FCtl) as E. cbn [f_step] in E. rewrite Hc, Hnd in E.
      destruct (t_waiting s) eqn:Hw.
      - destruct (n_done nd) eqn:Hdn.
        + apply (f_equal t_ctl) in E. cbn in E. rewrite Hc in E. apply (f_equal length) in E. cbn in E. lia.
        + assert (Hoff : n_on nd = false). { destruct (g_wait _ _ G Hw) as (i' & r' & E1 & E2). rewrite Hc in E1. injection E1 as <- <-. by apply E2. }
          assert (Hpe : n_pend nd = []).
          { eapply (stuck_pend cap disc out n Hcap s G Hstk n i nd); [lia|done..|]. intros j nj Hij Hnj. destruct (n_on nj) eqn:Eo; [done|]. destruct (H3 j nj i r Hnj Eo eq_refl) as [?|[? _]]; lia. }
          pose proof (Hstk (FPoll i)) as E2. cbn [f_step] in E2. rewrite Hnd, Hdn, Hpe, Hoff in E2. apply (node_ne _ _ _ _ _ _ _ Hnd) in E2. rewrite <- E2 in Hdn. done.
      - apply (f_equal t_waiting) in E. cbn in E. congruence. }
    split; [done|]. intros i nd Hi Hnd. rewrite Hc, app_nil_r in Hg. subst gone. assert (n_done nd = true) by (by eapply Hd). split; [done|by eapply H4].
  Qed.
End Thms.
