(** Calls happen while their event is handled; what has been handled. *)
From stdpp Require Import prelude strings list_numbers.
From Coq Require Import ZArith Lia ZifyBool.
From Verif Require Import Base MultiRing_Model MultiRing_Spec MultiRing_Proofs MultiRing_Log EventLoop_Model EventLoop_Spec EventLoop_Proofs EventLoop_Calls EventLoop_Every.
Local Open Scope Z_scope.

Lemma split_app {A} (h w h1 : list A) e h2 : h ++ w = h1 ++ e :: h2 -> (exists h2', h = h1 ++ e :: h2') \/ (exists w1, h1 = h ++ w1 /\ w = w1 ++ e :: h2).
Proof.
  revert h1. induction h as [|x h IH]; intros h1 E; [right; by exists h1|]. destruct h1 as [|y h1]; cbn in E.
  - injection E as -> E. left. by exists h.
  - injection E as -> E. destruct (IH h1 E) as [[h2' ->]|(w1 & -> & ->)]; [left; by exists h2'|right; by exists w1].
Qed.
(** What a step adds to the log: one event, or a call and the throw that ends it. *)
Lemma log_step g s a : exists w, el_log (el_step g s a) = el_log s ++ w /\ (w = [] \/ (exists e, w = [e]) \/ exists q u cb d, w = [VCall q u cb d; VThrew q]).
Proof.
  assert (E0 : forall s', el_log s' = el_log s -> exists w, el_log s' = el_log s ++ w /\ (w = [] \/ (exists e, w = [e]) \/ exists q u cb d, w = [VCall q u cb d; VThrew q])).
  { intros s' E. exists []. rewrite app_nil_r. auto. }
  assert (E1 : forall s' e, el_log s' = el_log s ++ [e] -> exists w, el_log s' = el_log s ++ w /\ (w = [] \/ (exists e, w = [e]) \/ exists q u cb d, w = [VCall q u cb d; VThrew q])).
  { intros s' e E. exists [e]. split; [done|]. right. left. by exists e. }
  destruct a as [t ok|th|n|u cb|u cb]; cbn [el_step].
  - unfold el_prod. destruct (el_dpc s !! t) as [[|p|p v]|]; try (by apply E0).
    destruct (m_prods (el_ring s) !! t) as [[[| |cur|cur i m|cur m|cur|lo [|i]|lo i] [|[b [|z [|z' l]]] todo]]|]; try (by apply E0);
      try (destruct (drop _ _) as [|[x [lo' vs| |]] [|]]; first [by apply E0|by eapply E1]).
    destruct (w_data _); [by eapply E1|]. apply E0. apply app_nil_r.
  - unfold el_loop. destruct (m_cons (el_ring s) !! 0%nat) as [[sq [|j m|seq avail|nx avail|v] lg]|]; try (by apply E0).
    destruct (avail <? nx); [by apply E0|]. destruct (el_h s) as [|[|u todo]|u d [|cb cbs] todo]; try (by apply E0); try (by eapply E1).
    destruct th; [|by eapply E1]. cbn. eexists. split; [reflexivity|]. right. right. eauto 10.
  - by eapply E1.
  - destruct (el_subs s !! u) as [[n l]|]; [by eapply E1|by apply E0].
  - destruct (el_subs s !! u) as [[n l]|]; [by eapply E1|by apply E0].
Qed.
(** The log up to the end of a handling is the log of an initial part of the run. *)
Lemma done_prefix g s0 acts : el_log s0 = [] -> forall a q b, el_log (el_run g s0 acts) = a ++ VDone q :: b -> exists pre suf, acts = pre ++ suf /\ el_log (el_run g s0 pre) = a ++ [VDone q].
Proof.
  intros H0. induction acts as [|x acts IH] using rev_ind; intros a q b E.
  - cbn in E. rewrite H0 in E. by destruct a.
  - rewrite el_run_snoc in E. destruct (log_step g (el_run g s0 acts) x) as (w & Ew & Hw). rewrite Ew in E.
    destruct (split_app _ _ _ _ _ E) as [[h2' E']|(w1 & -> & E')].
    + destruct (IH _ _ _ E') as (pre & suf & -> & Hp). exists pre, (suf ++ [x]). split; [by rewrite app_assoc|done].
    + exists (acts ++ [x]), []. split; [by rewrite app_nil_r|]. rewrite el_run_snoc, Ew, <-app_assoc. f_equal.
      destruct Hw as [->|[[e ->]|(q' & u & cb & d & ->)]].
      * by destruct w1.
      * destruct w1 as [|y [|]]; cbn in E'; [by injection E' as -> _|done|done].
      * destruct w1 as [|y [|y' [|]]]; done.
Qed.
(** Calls for event q are made between the dispatch of q and the next dispatch. *)
Definition during (h : list elev) : Prop := forall h1 q u cb d h2, h = h1 ++ VCall q u cb d :: h2 -> nd h1 = q + 1.
Lemma during_run g progs acts : 1 <= ec_k g <= 30 -> m_cursor (el_ring (el_run g (el_new g progs) acts)) < 2^31 -> during (el_log (el_run g (el_new g progs) acts)).
Proof.
  intros Hk. induction acts as [|a acts IH] using rev_ind; intros Hb.
  - intros h1 q u cb d h2 E. cbn in E. by destruct h1.
  - rewrite el_run_snoc in *. set (s := el_run g (el_new g progs) acts) in *.
    assert (Hb0 : m_cursor (el_ring s) < 2^31) by (pose proof (step_cursor_el g s a); lia).
    specialize (IH Hb0). pose proof (rinv_run g progs acts Hk Hb0) as R. pose proof (einv_run g progs acts Hk Hb0) as E. fold s in R, E.
    assert (Frame : forall s' w, el_log s' = el_log s ++ w -> (forall q u cb d, VCall q u cb d ∉ w) -> during (el_log s')).
    { intros s' w Ew Hw h1 q u cb d h2 El. rewrite Ew in El. destruct (split_app _ _ _ _ _ El) as [[h2' E']|(w1 & -> & ->)]; [by eapply IH|]. exfalso. eapply Hw. apply elem_of_app. right. left. }
    destruct a as [t ok|th|n|u cb|u cb]; cbn [el_step].
    + destruct (el_prod_subs g s t ok) as (_ & w & Ew & _ & _ & H2 & _). by eapply Frame.
    + destruct (cons0 _ _ _ R) as [c Hc]. unfold el_loop. rewrite Hc. cbn [lookup list_lookup].
      assert (F0 : forall s', el_log s' = el_log s -> during (el_log s')) by (by intros s' ->).
      destruct c as [sq pc lg]. destruct pc as [|j mm|seq avail|nx avail|v]; try (by apply F0).
      destruct (Z.ltb_spec avail nx) as [Hlt|Hge]; [by apply F0|].
      destruct (front g progs s sq nx avail lg Hk R E Hc Hge) as [Hfr Hnx].
      destruct (el_h s) as [|[|u todo]|u d [|cb cbs] todo] eqn:Eh; try (by apply F0).
      * eapply Frame; [reflexivity|by intros ???? ?%elem_of_list_singleton].
      * eapply Frame; [reflexivity|by intros ???? ?%elem_of_list_singleton].
      * assert (Hb' : el_h s <> HNone) by (by rewrite Eh). destruct (last_disp g s sq nx avail lg E Hc ltac:(lia) Hb') as [Hnd Hld].
        destruct th; cbn [el_log]; intros h1 q v x d' h2 El; (destruct (split_app _ _ _ _ _ El) as [[h2' E']|(w1 & -> & E')]; [by eapply IH|]).
        -- destruct w1 as [|y [|y' [|]]]; try done. injection E' as -> _ _ _ _. by rewrite app_nil_r.
        -- destruct w1 as [|y [|]]; try done. injection E' as -> _ _ _ _. by rewrite app_nil_r.
    + eapply Frame; [reflexivity|by intros ???? ?%elem_of_list_singleton].
    + destruct (el_subs s !! u) as [[n l]|]; [|done]. eapply Frame; [reflexivity|by intros ???? ?%elem_of_list_singleton].
    + destruct (el_subs s !! u) as [[n l]|]; [|done]. eapply Frame; [reflexivity|by intros ???? ?%elem_of_list_singleton].
Qed.
(** Everything before the position of the loop has been handled to its end, or its handling was left by an exception. *)
Definition handled (q : Z) (h : list elev) : Prop := VDone q ∈ h \/ VThrew q ∈ h.
Lemma handled_app q a b : handled q a -> handled q (a ++ b).
Proof. intros [H|H]; [left|right]; apply elem_of_app; by left. Qed.
Lemma handled_run g progs acts : 1 <= ec_k g <= 30 -> m_cursor (el_ring (el_run g (el_new g progs) acts)) < 2^31 ->
  let s := el_run g (el_new g progs) acts in forall c q, m_cons (el_ring s) = [c] -> 0 <= q <= pos c -> handled q (el_log s).
Proof.
  intros Hk. cbn. induction acts as [|a acts IH] using rev_ind; intros Hb.
  - cbn. intros c q [= <-] H. unfold pos in H. cbn in H. lia.
  - rewrite el_run_snoc in *. set (s := el_run g (el_new g progs) acts) in *.
    assert (Hb0 : m_cursor (el_ring s) < 2^31) by (pose proof (step_cursor_el g s a); lia).
    specialize (IH Hb0). pose proof (rinv_run g progs acts Hk Hb0) as R. pose proof (einv_run g progs acts Hk Hb0) as E. fold s in R, E.
    destruct (log_step g s a) as (w & Ew & _).
    assert (Same : m_cons (el_ring (el_step g s a)) = m_cons (el_ring s) -> forall c q, m_cons (el_ring (el_step g s a)) = [c] -> 0 <= q <= pos c -> handled q (el_log (el_step g s a))).
    { intros -> c q Hc Hq. rewrite Ew. apply handled_app. by eapply IH. }
    destruct a as [t ok|th|n|u cb|u cb].
    + apply Same. cbn [el_step]. by destruct (el_prod_case g progs s t ok R).
    + destruct (cons0 _ _ _ R) as [c Hc].
      assert (Hpos : forall th c', m_cons (cons_step (el_rg g) (el_ring s) 0 th) = [c'] -> (forall nx avail, co_pc c = CHandle nx avail -> avail < nx) -> pos c' = pos c).
      { intros b c' Hc' Ho. destruct (cons_pos _ _ _ (ri_m _ _ _ R) c b c') as (P1 & P2 & P3); [by rewrite Hc|by rewrite Hc'|]. by apply P3. }
      assert (Hpos2 : forall b c' nx avail, co_pc c = CHandle nx avail -> nx <= avail -> m_cons (cons_step (el_rg g) (el_ring s) 0 b) = [c'] -> pos c' = nx).
      { intros b c' nx avail Hp Hle Hc'. destruct (cons_pos _ _ _ (ri_m _ _ _ R) c b c') as (P1 & P2 & P3); [by rewrite Hc|by rewrite Hc'|]. by eapply P2. }
      clear Same Ew. cbn [el_step]. unfold el_loop. rewrite Hc. cbn [lookup list_lookup].
      assert (F0 : forall c' q, m_cons (cons_step (el_rg g) (el_ring s) 0 false) = [c'] -> (forall nx avail, co_pc c = CHandle nx avail -> avail < nx) -> 0 <= q <= pos c' -> handled q (el_log s)).
      { intros c' q Hc' Ho Hq. rewrite (Hpos false c' Hc' Ho) in Hq. by eapply IH. }
      destruct c as [sq pc lg]. destruct pc as [|j mm|seq avail|nx avail|v]; cbn [el_ring el_log] in *; try (intros c' q Hc' Hq; by eapply F0).
      destruct (Z.ltb_spec avail nx) as [Hlt|Hge]; [intros c' q Hc' Hq; eapply F0; [exact Hc'|by intros ?? [= <- <-]|done]|].
      destruct (el_h s) as [|[|u todo]|u d [|cb cbs] todo] eqn:Eh; cbn [el_ring el_log]; try (intros c' q Hc' Hq; rewrite Hc in Hc'; injection Hc' as <-; rewrite <-?Eh; by eapply IH).
      * intros c' q Hc' Hq. rewrite Hc in Hc'; injection Hc' as <-. apply handled_app. by eapply IH.
      * intros c' q Hc' Hq. rewrite (Hpos2 _ _ _ _ eq_refl Hge Hc') in Hq. destruct (decide (q = nx)) as [->|].
        -- left. apply elem_of_app. right. left.
        -- apply handled_app. eapply IH; [exact Hc|]. unfold pos. cbn. lia.
      * destruct th; cbn [el_ring el_log]; intros c' q Hc' Hq.
        -- rewrite (Hpos2 _ _ _ _ eq_refl Hge Hc') in Hq. destruct (decide (q = nx)) as [->|].
           ++ right. apply elem_of_app. right. right. left.
           ++ apply handled_app. eapply IH; [exact Hc|]. unfold pos. cbn. lia.
        -- rewrite Hc in Hc'; injection Hc' as <-. apply handled_app. by eapply IH.
    + by apply Same.
    + apply Same. cbn [el_step]. by destruct (el_subs s !! u) as [[]|].
    + apply Same. cbn [el_step]. by destruct (el_subs s !! u) as [[]|].
Qed.

Lemma done_pos g progs acts : 1 <= ec_k g <= 30 -> m_cursor (el_ring (el_run g (el_new g progs) acts)) < 2^31 ->
  let s := el_run g (el_new g progs) acts in forall c q, m_cons (el_ring s) = [c] -> VDone q ∈ el_log s -> q <= pos c.
Proof.
  intros Hk. cbn. induction acts as [|a acts IH] using rev_ind; intros Hb.
  - cbn. by intros c q _ ?%elem_of_nil.
  - rewrite el_run_snoc in *. set (s := el_run g (el_new g progs) acts) in *.
    assert (Hb0 : m_cursor (el_ring s) < 2^31) by (pose proof (step_cursor_el g s a); lia).
    specialize (IH Hb0). pose proof (rinv_run g progs acts Hk Hb0) as R. fold s in R. destruct (cons0 _ _ _ R) as [c Hc].
    assert (Same : forall s' w, m_cons (el_ring s') = m_cons (el_ring s) -> el_log s' = el_log s ++ w -> (forall q, VDone q ∉ w) -> forall c q, m_cons (el_ring s') = [c] -> VDone q ∈ el_log s' -> q <= pos c).
    { intros s' w -> Ew Hw c' q Hc' Hq. rewrite Ew in Hq. apply elem_of_app in Hq as [Hq|Hq]; [by eapply IH|by apply Hw in Hq]. }
    destruct a as [t ok|th|n|u cb|u cb]; cbn [el_step].
    + destruct (el_prod_subs g s t ok) as (_ & w & Ew & _ & _ & _ & H2). eapply Same; [|exact Ew|exact H2]. by destruct (el_prod_case g progs s t ok R).
    + assert (Ring : forall b w, (forall q, VDone q ∈ w -> exists avail, co_pc c = CHandle q avail /\ q <= avail) ->
        forall c' q, m_cons (cons_step (el_rg g) (el_ring s) 0 b) = [c'] -> VDone q ∈ el_log s ++ w -> q <= pos c').
      { intros b w Hw c' q Hc' Hq. destruct (cons_pos _ _ _ (ri_m _ _ _ R) c b c') as (P1 & P2 & P3); [by rewrite Hc|by rewrite Hc'|].
        apply elem_of_app in Hq as [Hq|Hq]; [specialize (IH c q Hc Hq); lia|]. destruct (Hw q Hq) as (avail & H1 & H2). specialize (P2 _ _ H1 H2). lia. }
      assert (Ring0 : forall c' q, m_cons (cons_step (el_rg g) (el_ring s) 0 false) = [c'] -> VDone q ∈ el_log s -> q <= pos c').
      { intros c' q Hc' Hq. apply (Ring false [] ltac:(by intros ? ?%elem_of_nil) c' q Hc'). by rewrite app_nil_r. }
      unfold el_loop. rewrite Hc. cbn [lookup list_lookup]. destruct c as [sq pc lg]. destruct pc as [|j mm|seq avail|nx avail|v]; cbn [el_ring el_log]; try exact Ring0.
      destruct (Z.ltb_spec avail nx) as [Hlt|Hge]; [exact Ring0|].
      destruct (el_h s) as [|[|u todo]|u d [|cb cbs] todo] eqn:Eh; cbn [el_ring el_log]; try exact IH.
      * eapply (Same (El (el_ring s) (el_wr s) (el_disc s) (el_dpc s) HNone (el_subs s) (el_log s ++ [_]))); [done|reflexivity|by intros ? ?%elem_of_list_singleton].
      * apply Ring. intros q [= ->]%elem_of_list_singleton. by exists avail.
      * destruct th; cbn [el_ring el_log].
        -- apply Ring. intros q [Hx|[Hx|Hx%elem_of_nil]%elem_of_cons]%elem_of_cons; done.
        -- eapply (Same (El (el_ring s) (el_wr s) (el_disc s) (el_dpc s) HNone (el_subs s) (el_log s ++ [_]))); [done|reflexivity|by intros ? ?%elem_of_list_singleton].
    + eapply Same; [done|reflexivity|by intros ? ?%elem_of_list_singleton].
    + destruct (el_subs s !! u) as [[n l]|]; [|done]. eapply Same; [done|reflexivity|by intros ? ?%elem_of_list_singleton].
    + destruct (el_subs s !! u) as [[n l]|]; [|done]. eapply Same; [done|reflexivity|by intros ? ?%elem_of_list_singleton].
Qed.
