(** Publications in program order, discard counters, release of the data. *)
From stdpp Require Import prelude strings list_numbers.
From Coq Require Import ZArith Lia ZifyBool.
From Verif Require Import Base MultiRing_Model MultiRing_Spec MultiRing_Proofs MultiRing_Log EventLoop_Model EventLoop_Spec EventLoop_Proofs EventLoop_Calls.
Local Open Scope Z_scope.

Lemma pby_app t a b : published_by t (a ++ b) = published_by t a ++ published_by t b.
Proof. apply omap_app. Qed.
Lemma claims_app a b : el_claims (a ++ b) = el_claims a ++ el_claims b.
Proof. apply fmap_app. Qed.
Lemma el_claims_inj a b : el_claims a = el_claims b -> a = b.
Proof. revert b; induction a as [|x a IH]; intros [|y b]; try done. cbn. intros [= -> H]. f_equal. by apply IH. Qed.

(** ** Every thread's publications are accepted or refused in its program order. *)
Definition PInv (progs : list (list Z)) (s : elst) : Prop := forall t p l, m_prods (el_ring s) !! t = Some p -> progs !! t = Some l ->
  el_claims l = el_claims (published_by t (el_log s)) ++ rest p.
Lemma pinv_step g progs s a : RInv g progs (el_ring s) -> PInv progs s -> PInv progs (el_step g s a).
Proof.
  intros R P. 
  assert (Frame : forall s' w, m_prods (el_ring s') = m_prods (el_ring s) -> el_log s' = el_log s ++ w -> (forall t z lo, VAccept t z lo ∉ w) -> (forall t z, VRefuse t z ∉ w) -> PInv progs s').
  { intros s' w E1 E2 H1 H2 t p l Hp Hl. rewrite E1 in Hp. rewrite E2, pby_app. replace (published_by t w) with (@nil Z); [rewrite app_nil_r; by apply P|].
    symmetry. clear -H1 H2. induction w as [|e w IH]; [done|]. unfold published_by in *. cbn. rewrite IH; [|intros ??? ?; eapply H1; by right|intros ?? ?; eapply H2; by right].
    destruct e; try done; [exfalso; eapply H1; left|exfalso; eapply H2; left]. }
  assert (Frame0 : forall s', m_prods (el_ring s') = m_prods (el_ring s) -> el_log s' = el_log s -> PInv progs s').
  { intros s' E1 E2. apply (Frame s' []); [done|by rewrite app_nil_r|intros; apply not_elem_of_nil|intros; apply not_elem_of_nil]. }
  destruct a as [t ok|th|n|u cb|u cb]; cbn [el_step].
  - destruct (el_prod_case g progs s t ok R) as [|dc d d' Hd Hdn|m' Hd Hcur Hv Hl Hcs Hw Hfr Hre|m' lo z todo w Hd Hcur Hv Hl Hcs Ht Hw Hwarn Hwp|m' z todo Hd Ht Hp Hcur Hpub Hcs Hv1 Hv2 Hl Hw|m' pc z todo Hd Ht Hp Hcur Hv Hcs Hl Hw Hnw].
    + done.
    + by apply Frame0.
    + intros u p l Hp Hl'. cbn [el_ring el_log] in *. pose proof (f_equal (lookup u) Hre) as E. rewrite !list_lookup_fmap, Hp in E. destruct (m_prods (el_ring s) !! u) as [q|] eqn:Hq; [|done]. injection E as ->. by apply P.
    + intros u p l Hp Hl'. cbn [el_ring el_log] in *. rewrite pby_app. replace (published_by u w) with (@nil Z) by (destruct Hwarn as [->|[-> _]]; done). rewrite app_nil_r.
      rewrite Hwp in Hp. apply list_lookup_insert_Some in Hp as [(-> & <- & _)|[_ Hp]]; [|by apply P]. by rewrite (P _ _ _ Ht Hl').
    + intros u p l Hp' Hl'. cbn [el_ring el_log] in *. rewrite pby_app, Hp in *. apply list_lookup_insert_Some in Hp' as [(-> & <- & _)|[Hne Hp']].
      * rewrite (P _ _ _ Ht Hl'), claims_app, <-app_assoc. f_equal. unfold published_by. cbn. by rewrite decide_True.
      * rewrite (P _ _ _ Hp' Hl'). f_equal. unfold published_by. cbn. rewrite decide_False by done. by rewrite app_nil_r.
    + intros u p l Hp' Hl'. cbn [el_ring el_log] in *. rewrite pby_app, Hp in *. apply list_lookup_insert_Some in Hp' as [(-> & <- & _)|[Hne Hp']].
      * rewrite (P _ _ _ Ht Hl'), claims_app, <-app_assoc. f_equal. unfold published_by. cbn. rewrite decide_True by done.
        unfold rest. cbn [pr_pc pr_todo]. by rewrite Hnw.
      * rewrite (P _ _ _ Hp' Hl'). f_equal. unfold published_by. cbn. rewrite decide_False by done. by rewrite app_nil_r.
  - assert (Hp : m_prods (el_ring (el_loop g s th)) = m_prods (el_ring s)).
    { unfold el_loop. destruct (m_cons (el_ring s) !! 0%nat) as [[sq [|j m|seq avail|nx avail|v] lg]|]; try (apply cons_keep). destruct (avail <? nx); [apply cons_keep|].
      destruct (el_h s) as [|[|u todo]|u d [|cb cbs] todo]; try done; [apply cons_keep|]. destruct th; [apply cons_keep|done]. }
    revert Hp. unfold el_loop. intros Hp. destruct (m_cons (el_ring s) !! 0%nat) as [[sq [|j m|seq avail|nx avail|v] lg]|]; try (by apply Frame0).
    destruct (avail <? nx); [by apply Frame0|]. destruct (el_h s) as [|[|u todo]|u d [|cb cbs] todo]; try (by apply Frame0);
      [| |destruct th]; (eapply Frame; [exact Hp|reflexivity| |]; intros; set_solver).
  - eapply Frame; [done|reflexivity| |]; intros; set_solver.
  - destruct (el_subs s !! u) as [[n l]|]; [|done]. eapply Frame; [done|reflexivity| |]; intros; set_solver.
  - destruct (el_subs s !! u) as [[n l]|]; [|done]. eapply Frame; [done|reflexivity| |]; intros; set_solver.
Qed.
Lemma pinv_run g progs acts : 1 <= ec_k g <= 30 -> m_cursor (el_ring (el_run g (el_new g progs) acts)) < 2^31 -> PInv progs (el_run g (el_new g progs) acts).
Proof.
  intros Hk. induction acts as [|a acts IH] using rev_ind; intros Hb.
  - intros t p l Hp Hl. cbn in Hp. rewrite !list_lookup_fmap, Hl in Hp. by injection Hp as <-.
  - rewrite el_run_snoc in *. assert (Hb0 : m_cursor (el_ring (el_run g (el_new g progs) acts)) < 2^31) by (pose proof (step_cursor_el g (el_run g (el_new g progs) acts) a); lia).
    eapply pinv_step; [by apply rinv_run|by apply IH].
Qed.

(** ** The discard counters. *)
Definition pending (p : nat) (d : disc_pc) : bool := match d with DNone => false | DRead q | DWrite q _ => bool_decide (q = p) end.
Definition pend (p : nat) (l : list disc_pc) : Z := Z.of_nat (length (List.filter (pending p) l)).
Lemma pend_insert p l t d d' : l !! t = Some d -> pend p (<[t := d']> l) = pend p l - Z.b2z (pending p d) + Z.b2z (pending p d').
Proof.
  unfold pend. revert t; induction l as [|x l IH]; intros [|t] H; [done|done| |]; cbn in H.
  - injection H as ->. change (<[0%nat:=d']> (d :: l)) with (d' :: l). cbn [List.filter]. destruct (pending p d), (pending p d'); cbn [length Z.b2z]; lia.
  - specialize (IH t H). change (<[S t:=d']> (x :: l)) with (x :: <[t:=d']> l). cbn [List.filter]. destruct (pending p x); cbn [length]; lia.
Qed.
Lemma pend_none p l t d : pend p l = 0 -> l !! t = Some d -> pending p d = false.
Proof.
  unfold pend. intros H Ht. destruct (pending p d) eqn:E; [|done]. exfalso.
  assert (Hin : In d (List.filter (pending p) l)) by (apply filter_In; split; [by eapply elem_of_list_In, elem_of_list_lookup_2|done]).
  destruct (List.filter (pending p) l); [done|cbn in H; lia].
Qed.
Lemma refusals_app g p a b : refusals g p (a ++ b) = refusals g p a + refusals g p b.
Proof. unfold refusals. rewrite List.filter_app, app_length. lia. Qed.
Lemma todo_in g progs s t z todo pc : RInv g progs (el_ring s) -> m_prods (el_ring s) !! t = Some (Prod pc (Claim false [z] :: todo)) -> exists l, progs !! t = Some l /\ z ∈ l.
Proof.
  intros R Ht. pose proof (l_len _ _ (ri_l _ _ _ R)) as Hl. rewrite fmap_length in Hl. pose proof (lookup_lt_Some _ _ _ Ht) as Hlt. rewrite Hl in Hlt. apply lookup_lt_is_Some in Hlt as [l Hp].
  exists l. split; [done|]. destruct (l_prog _ _ (ri_l _ _ _ R) t _ (el_claims l) Ht) as (past & E & _); [by rewrite list_lookup_fmap, Hp|].
  assert (Hin : Claim false [z] ∈ el_claims l) by (rewrite E; apply elem_of_app; right; left). apply elem_of_list_fmap in Hin as (y & [= ->] & Hy). done.
Qed.
Record DInv (g : elcfg) (progs : list (list Z)) (s : elst) : Prop := {
  d_len : length (el_disc s) = length (ec_names g);
  d_pr : forall p, pend p (el_dpc s) <= refusals g p (el_log s);
  d_le : forall p d, el_disc s !! p = Some d -> 0 <= d <= refusals g p (el_log s) - pend p (el_dpc s);
  d_w : forall t p v, el_dpc s !! t = Some (DWrite p v) -> 0 <= v <= refusals g p (el_log s) - pend p (el_dpc s);
  d_own : forall t d p, el_dpc s !! t = Some d -> pending p d = true -> exists l z, progs !! t = Some l /\ z ∈ l /\ (ec_pub g z).1 = p;
  d_eq : forall p d, one_user g progs p -> el_disc s !! p = Some d ->
     d = refusals g p (el_log s) - pend p (el_dpc s) /\ forall t v, el_dpc s !! t = Some (DWrite p v) -> v = d
}.
Lemma dinv_same g progs s s' : DInv g progs s -> el_disc s' = el_disc s -> el_dpc s' = el_dpc s -> (forall p, refusals g p (el_log s') = refusals g p (el_log s)) -> DInv g progs s'.
Proof. intros [D1 D2 D3 D4 D5 D6] E1 E2 E3. constructor; rewrite ?E1, ?E2; intros; rewrite ?E3; eauto. Qed.
Lemma dinv_step g progs s a : RInv g progs (el_ring s) -> DInv g progs s -> DInv g progs (el_step g s a).
Proof.
  intros R D.
  assert (Frame : forall s' w, el_disc s' = el_disc s -> el_dpc s' = el_dpc s -> el_log s' = el_log s ++ w -> (forall t z, VRefuse t z ∉ w) -> DInv g progs s').
  { intros s' w E1 E2 E3 H. apply (dinv_same g progs s); [done..|]. intros p. rewrite E3, refusals_app. enough (refusals g p w = 0) by lia.
    clear -H. unfold refusals. induction w as [|e w IH]; [done|]. cbn. destruct e; try (apply IH; intros ?? Hx; eapply H; by right). exfalso. eapply H. left. }
  assert (Frame0 : forall s', el_disc s' = el_disc s -> el_dpc s' = el_dpc s -> el_log s' = el_log s -> DInv g progs s').
  { intros s' E1 E2 E3. apply (Frame s' []); [done|done|by rewrite app_nil_r|intros; apply not_elem_of_nil]. }
  destruct a as [t ok|th|n|u cb|u cb]; cbn [el_step].
  - destruct (el_dpc s !! t) as [[|p|p v]|] eqn:Hd.
    + destruct (el_prod_case g progs s t ok R) as [|dc d d' Hd' Hdn|m' _ Hcur Hv Hl Hcs Hw Hfr Hre|m' lo z todo w _ Hcur Hv Hl Hcs Ht Hw Hwarn Hwp|m' z todo _ Ht Hp Hcur Hpub Hcs Hv1 Hv2 Hl Hw|m' pc z todo _ Ht Hp Hcur Hv Hcs Hl Hw Hnw].
      * done.
      * congruence.
      * by apply Frame0.
      * eapply Frame; [done|done|reflexivity|]. destruct Hwarn as [->|[-> _]]; intros; set_solver.
      * eapply Frame; [done|done|reflexivity|]; intros; set_solver.
      * assert (Hr : forall p, refusals g p (el_log s ++ [VRefuse t z]) = refusals g p (el_log s) + Z.b2z (bool_decide ((ec_pub g z).1 = p))).
        { intros p. rewrite refusals_app. f_equal. unfold refusals. cbn. by destruct (bool_decide _). }
        assert (Hpe : forall p, pend p (<[t:=DRead (ec_pub g z).1]> (el_dpc s)) = pend p (el_dpc s) + Z.b2z (bool_decide ((ec_pub g z).1 = p))).
        { intros p. rewrite (pend_insert _ _ _ DNone) by done. cbn [pending Z.b2z]. lia. }
        destruct D as [D1 D2 D3 D4 D5 D6]. constructor; cbn [el_disc el_dpc el_log].
        -- done.
        -- intros p. rewrite Hr, Hpe. specialize (D2 p). lia.
        -- intros p d H. rewrite Hr, Hpe. specialize (D3 p d H). lia.
        -- intros u p v H. rewrite Hr, Hpe. apply list_lookup_insert_Some in H as [(-> & E & _)|[_ H]]; [done|]. specialize (D4 u p v H). lia.
        -- intros u d p H Hx. apply list_lookup_insert_Some in H as [(-> & <- & _)|[_ H]]; [|by eapply D5].
           cbn in Hx. apply bool_decide_eq_true in Hx. destruct (todo_in g progs s u z todo pc) as (l & H1 & H2); [done|done|]. eauto.
        -- intros p d Ho H. destruct (D6 p d Ho H) as [-> D6b]. split; [rewrite Hr, Hpe; lia|]. intros u v Hu. apply list_lookup_insert_Some in Hu as [(-> & E & _)|[_ Hu]]; [done|]. by eapply D6b.
    + unfold el_prod. rewrite Hd.
      assert (Hpe : forall q v, pend q (<[t:=DWrite p v]> (el_dpc s)) = pend q (el_dpc s)).
      { intros q v. rewrite (pend_insert _ _ _ (DRead p)) by done. cbn [pending]. lia. }
      destruct D as [D1 D2 D3 D4 D5 D6]. constructor; cbn [el_disc el_dpc el_log]; intros; rewrite ?Hpe; eauto.
      * apply list_lookup_insert_Some in H as [(-> & [= <- <-] & _)|[_ H]]; [|by eapply D4]. destruct (el_disc s !! p) as [d|] eqn:Ed; cbn; [by apply D3|]. specialize (D2 p). lia.
      * apply list_lookup_insert_Some in H as [(-> & <- & _)|[_ H]]; [|by eapply D5]. by eapply D5.
      * destruct (D6 p0 d H H0) as [E1 E2]. split; [done|]. intros u v Hu. apply list_lookup_insert_Some in Hu as [(-> & [= <- <-] & _)|[_ Hu]]; [by rewrite H0|by eapply E2].
    + unfold el_prod. rewrite Hd.
      assert (Hpe : forall q, pend q (<[t:=DNone]> (el_dpc s)) = pend q (el_dpc s) - Z.b2z (bool_decide (p = q))).
      { intros q. rewrite (pend_insert _ _ _ (DWrite p v)) by done. cbn [pending Z.b2z]. lia. }
      destruct D as [D1 D2 D3 D4 D5 D6]. constructor; cbn [el_disc el_dpc el_log]; intros; rewrite ?Hpe.
      * by rewrite insert_length.
      * specialize (D2 p0). lia.
      * specialize (D4 t p v Hd). apply list_lookup_insert_Some in H as [(-> & <- & _)|[Hne H]].
        -- rewrite bool_decide_true by done. cbn. lia.
        -- specialize (D3 _ _ H). lia.
      * apply list_lookup_insert_Some in H as [(-> & E & _)|[_ H]]; [done|]. specialize (D4 _ _ _ H). lia.
      * apply list_lookup_insert_Some in H as [(-> & <- & _)|[_ H]]; [done|]. by eapply D5.
      * apply list_lookup_insert_Some in H0 as [(-> & <- & Hlt)|[Hne H0]].
        -- apply lookup_lt_is_Some in Hlt as [d Hdd]. destruct (D6 p0 d H Hdd) as [E1 E2]. rewrite bool_decide_true by done. specialize (E2 t v Hd) as E3. cbn [Z.b2z]. split; [lia|].
           intros u w Hu. apply list_lookup_insert_Some in Hu as [(-> & E & _)|[Hut Hu]]; [done|]. exfalso.
           destruct (D5 u _ p0 Hu) as (l1 & z1 & A1 & A2 & A3); [by apply bool_decide_eq_true|]. destruct (D5 t _ p0 Hd) as (l2 & z2 & B1 & B2 & B3); [by apply bool_decide_eq_true|].
           apply Hut. by eapply (H t u).
        -- destruct (D6 p0 d H H0) as [E1 E2]. rewrite bool_decide_false by done. cbn [Z.b2z]. split; [lia|].
           intros u w Hu. apply list_lookup_insert_Some in Hu as [(-> & E & _)|[Hut Hu]]; [done|]. by eapply E2.
    + unfold el_prod. rewrite Hd. done.
  - unfold el_loop. destruct (m_cons (el_ring s) !! 0%nat) as [[sq [|j m|seq avail|nx avail|v] lg]|]; try (by apply Frame0).
    destruct (avail <? nx); [by apply Frame0|]. destruct (el_h s) as [|[|u todo]|u d [|cb cbs] todo]; try (by apply Frame0);
      [| |destruct th]; (eapply Frame; [done|done|reflexivity|]; intros; set_solver).
  - eapply Frame; [done|done|reflexivity|]; intros; set_solver.
  - destruct (el_subs s !! u) as [[n l]|]; [|done]. eapply Frame; [done|done|reflexivity|]; intros; set_solver.
  - destruct (el_subs s !! u) as [[n l]|]; [|done]. eapply Frame; [done|done|reflexivity|]; intros; set_solver.
Qed.
Lemma dinv_run g progs acts : 1 <= ec_k g <= 30 -> m_cursor (el_ring (el_run g (el_new g progs) acts)) < 2^31 -> DInv g progs (el_run g (el_new g progs) acts).
Proof.
  intros Hk. induction acts as [|a acts IH] using rev_ind; intros Hb.
  - assert (Hp : forall p, pend p (el_dpc (el_new g progs)) = 0) by (intros p; unfold pend; cbn; clear; induction progs; cbn; done).
    assert (Hn : forall t d, el_dpc (el_new g progs) !! t = Some d -> d = DNone) by (cbn; intros t d H; by apply lookup_replicate in H as [-> _]).
    constructor.
    + cbn. by rewrite replicate_length.
    + intros p. by rewrite Hp.
    + intros p d H. rewrite Hp. cbn in H. apply lookup_replicate in H as [-> _]. done.
    + intros t p v H. by apply Hn in H.
    + intros t d p H. by apply Hn in H as ->.
    + intros p d _ H. rewrite Hp. cbn in H. apply lookup_replicate in H as [-> _]. split; [done|]. intros t v Ht. by apply Hn in Ht.
  - rewrite el_run_snoc in *. assert (Hb0 : m_cursor (el_ring (el_run g (el_new g progs) acts)) < 2^31) by (pose proof (step_cursor_el g (el_run g (el_new g progs) acts) a); lia).
    eapply dinv_step; [by apply rinv_run|by apply IH].
Qed.

(** ** Release of the data: a slot holds data only between its publication and the end of its handling. *)
Definition WInv (g : elcfg) (s : elst) : Prop := no_throw (el_log s) ->
  (forall c idx, m_cons (el_ring s) = [c] -> w_data (el_wr s idx) <> None -> exists j, pos c < j <= m_cursor (el_ring s) /\ ring_index (ec_k g) j = idx /\ ~ fresh (el_ring s) j) /\
  (forall q, VWarn q ∉ el_log s).
Lemma no_throw_app a b : no_throw (a ++ b) -> no_throw a.
Proof. intros H q Hq. apply (H q). apply elem_of_app. by left. Qed.
Lemma winv_prod g progs s t ok : 1 <= ec_k g <= 30 -> RInv g progs (el_ring s) -> WInv g s -> WInv g (el_prod g s t ok).
Proof.
  intros Hk R W. destruct (cons0 _ _ _ R) as [c Hc]. destruct (win g progs _ c Hk R Hc) as (W1 & W2 & W3 & W4).
  destruct (el_prod_case g progs s t ok R) as [|dc d d' Hd Hdn|m' Hd Hcur Hv Hl Hcs Hw Hfr Hre|m' lo z todo w Hd Hcur Hv Hl Hcs Ht Hw Hwarn Hwp|m' z todo Hd Ht Hp Hcur Hpub Hcs Hv1 Hv2 Hl Hw|m' pc z todo Hd Ht Hp Hcur Hv Hcs Hl Hw Hnw].
  - done.
  - exact W.
  - intros Hn. destruct (W Hn) as [A B]. split; [|done]. cbn. rewrite Hcs, Hcur. intros c0 idx H0 H1. destruct (A c0 idx H0 H1) as (j & J1 & J2 & J3). exists j. split; [done|]. split; [done|]. intros H. by apply J3, Hfr.
  - intros Hn. cbn [el_log el_ring el_wr] in *. destruct (W (no_throw_app _ _ Hn)) as [A B].
    pose proof (i_prod _ _ _ (ri_m _ _ _ R) t _ Ht) as Hok. cbn [prod_ok] in Hok. destruct Hok as (_ & K1 & K2 & K3 & _).
    change (cl_n (Claim false [z])) with 1 in K2. specialize (K3 0%nat z eq_refl) as [K3 K4]. rewrite Z.add_0_r in K3, K4.
    assert (Hlo : pos c < lo).
    { destruct (Z.lt_ge_cases (pos c) lo); [done|]. exfalso. assert (H0 : m_cons (el_ring s) !! 0%nat = Some c) by (by rewrite Hc).
      destruct (i_cons _ _ _ (ri_m _ _ _ R) 0%nat c H0) as (A' & (B' & _) & D & F & _). unfold pos in *.
      assert (m_pub (el_ring s) lo = true); [|congruence].
      destruct (co_pc c); try (apply D; lia); destruct F as (F1 & _ & F3); apply F3; lia. }
    assert (Hemp : w_data (el_wr s (ring_index (ec_k g) lo)) = None).
    { destruct (w_data (el_wr s (ring_index (ec_k g) lo))) eqn:Ew; [|done]. exfalso. destruct (A c (ring_index (ec_k g) lo) Hc) as (j & J1 & J2 & J3); [by rewrite Ew|].
      apply (ring_idx_inj g j lo (m_cursor (el_ring s)) Hk) in J2; [|lia|lia]. subst j. apply J3. by exists t, (Claim false [z] :: todo). }
    destruct Hwarn as [->|[_ Hx]]; [|done]. rewrite app_nil_r. split; [|done]. rewrite Hcs, Hcur. intros c0 idx H0 H1. rewrite Hc in H0. injection H0 as <-.
    assert (Hmono : forall j, fresh m' j -> fresh (el_ring s) j) by (eapply fresh_ins; [exact Hwp|done]).
    destruct (decide (idx = ring_index (ec_k g) lo)) as [->|Hne].
    + exists lo. split; [lia|]. split; [done|]. intros (u & l & Hu). rewrite Hwp in Hu. apply list_lookup_insert_Some in Hu as [(_ & Hx & _)|[Hne Hu]]; [done|].
      destruct l as [|c' l]; [apply (l_idle _ _ (ri_l _ _ _ R)) in Hu; done|]. destruct (ri_one _ _ _ R u _ c' Hu) as [z' ->]; [left|].
      eapply (i_disj _ _ _ (ri_m _ _ _ R) t u _ _ lo); [done|exact Ht|exact Hu|unfold owns, cl_n; cbn; lia|unfold owns, cl_n; cbn; lia].
    + rewrite fupd_ne in H1 by done. destruct (A c idx Hc H1) as (j & J1 & J2 & J3). exists j. split; [done|]. split; [done|]. intros H. by apply J3, Hmono.
  - intros Hn. cbn [el_log el_ring el_wr] in *. destruct (W (no_throw_app _ _ Hn)) as [A B]. split; [|intros q [H|H%elem_of_list_singleton]%elem_of_app; [by apply B in H|done]].
    rewrite Hcs, Hcur. intros c0 idx H0 H1. destruct (A c0 idx H0 H1) as (j & J1 & J2 & J3). exists j. split; [lia|]. split; [done|].
    intros (u & l & Hu). rewrite Hp in Hu. apply list_lookup_insert_Some in Hu as [(_ & Hx & _)|[_ Hu]]; [injection Hx as Hx; lia|]. apply J3. by exists u, l.
  - intros Hn. cbn [el_log el_ring el_wr] in *. destruct (W (no_throw_app _ _ Hn)) as [A B]. split; [|intros q [H|H%elem_of_list_singleton]%elem_of_app; [by apply B in H|done]].
    rewrite Hcs, Hcur. intros c0 idx H0 H1. destruct (A c0 idx H0 H1) as (j & J1 & J2 & J3). exists j. split; [lia|]. split; [done|].
    intros H. apply J3. revert H. eapply fresh_ins; [exact Hp|done].
Qed.
Lemma winv_loop g progs s th : 1 <= ec_k g <= 30 -> RInv g progs (el_ring s) -> EInv g s -> WInv g s -> WInv g (el_loop g s th).
Proof.
  intros Hk R E W. destruct (cons0 _ _ _ R) as [c Hc].
  assert (Frame : forall s' w, el_ring s' = el_ring s -> el_wr s' = el_wr s -> el_log s' = el_log s ++ w -> (forall q, VWarn q ∉ w) -> WInv g s').
  { intros s' w E1 E2 E3 Hw Hn. rewrite E1, E2, E3 in *. destruct (W (no_throw_app _ _ Hn)) as [A B]. split; [done|]. intros q [H|H]%elem_of_app; [by apply B in H|by apply Hw in H]. }
  assert (Frame0 : forall s', el_ring s' = el_ring s -> el_wr s' = el_wr s -> el_log s' = el_log s -> WInv g s').
  { intros s' E1 E2 E3. apply (Frame s' []); [done|done|by rewrite app_nil_r|intros; apply not_elem_of_nil]. }
  unfold el_loop. rewrite Hc. cbn [lookup list_lookup].
  destruct (cons_single (el_rg g) (el_ring s) c false Hc) as [c' Hc'].
  destruct (cons_pos _ _ _ (ri_m _ _ _ R) c false c') as (P1 & P2 & P3); [by rewrite Hc|by rewrite Hc'|].
  destruct (cons_log (el_rg g) (el_ring s) 0 false) as (L1 & L2 & L3 & L4).
  assert (Fr : forall j, fresh (cons_step (el_rg g) (el_ring s) 0 false) j <-> fresh (el_ring s) j) by (intros j; unfold fresh; by rewrite L2).
  assert (Hout : (forall nx avail, co_pc c = CHandle nx avail -> avail < nx) -> WInv g (El (cons_step (el_rg g) (el_ring s) 0 false) (el_wr s) (el_disc s) (el_dpc s) (el_h s) (el_subs s) (el_log s))).
  { intros Ho Hn. cbn [el_log el_ring el_wr] in *. destruct (W Hn) as [A B]. split; [|done]. intros c0 idx H0 H1. rewrite Hc' in H0. injection H0 as <-. rewrite (P3 Ho), L4.
    destruct (A c idx Hc H1) as (j & J1 & J2 & J3). exists j. rewrite Fr. done. }
  destruct c as [sq pc lg]. destruct pc as [|j mm|seq avail|nx avail|v]; try (by apply Hout).
  destruct (Z.ltb_spec avail nx) as [Hlt|Hge]; [apply Hout; by intros ?? [= <- <-]|].
  destruct (el_h s) as [|[|u todo]|u d [|cb cbs] todo] eqn:Eh; try (by apply Frame0).
  - eapply Frame; [done|done|reflexivity|by intros ? ?%elem_of_list_singleton].
  - intros Hn. cbn [el_log el_ring el_wr] in *. destruct (W (no_throw_app _ _ Hn)) as [A B]. split; [|intros q [H|H%elem_of_list_singleton]%elem_of_app; [by apply B in H|done]].
    intros c0 idx H0 H1. rewrite Hc' in H0. injection H0 as <-. rewrite (P2 nx avail eq_refl Hge), L4.
    destruct (decide (idx = ring_index (ec_k g) nx)) as [->|Hne]; [by rewrite fupd_eq in H1|]. rewrite fupd_ne in H1 by done.
    destruct (A _ idx Hc H1) as (j & J1 & J2 & J3). exists j. rewrite Fr. split; [|done]. unfold pos in J1. cbn in J1. assert (j <> nx) by (by intros ->). lia.
  - destruct th.
    + intros Hn. exfalso. apply (Hn nx). cbn. set_solver.
    + eapply Frame; [done|done|reflexivity|by intros ? ?%elem_of_list_singleton].
Qed.
Lemma winv_run g progs acts : 1 <= ec_k g <= 30 -> m_cursor (el_ring (el_run g (el_new g progs) acts)) < 2^31 -> WInv g (el_run g (el_new g progs) acts).
Proof.
  intros Hk. induction acts as [|a acts IH] using rev_ind; intros Hb.
  - intros _. split; [done|]. intros q. apply not_elem_of_nil.
  - rewrite el_run_snoc in *. set (s := el_run g (el_new g progs) acts) in *.
    assert (Hb0 : m_cursor (el_ring s) < 2^31) by (pose proof (step_cursor_el g s a); lia).
    specialize (IH Hb0). pose proof (rinv_run g progs acts Hk Hb0) as R. pose proof (einv_run g progs acts Hk Hb0) as E. fold s in R, E.
    assert (Frame : forall s' e, el_ring s' = el_ring s -> el_wr s' = el_wr s -> el_log s' = el_log s ++ [e] -> (forall q, VWarn q <> e) -> WInv g s').
    { intros s' w E1 E2 E3 Hw Hn. rewrite E1, E2, E3 in *. destruct (IH (no_throw_app _ _ Hn)) as [A B]. split; [done|]. intros q [H|H%elem_of_list_singleton]%elem_of_app; [by apply B in H|by apply Hw in H]. }
    destruct a as [t ok|th|n|u cb|u cb]; cbn [el_step]; [by eapply winv_prod|by eapply winv_loop|..].
    + by eapply Frame.
    + destruct (el_subs s !! u) as [[n l]|]; [|done]. by eapply Frame.
    + destruct (el_subs s !! u) as [[n l]|]; [|done]. by eapply Frame.
Qed.
