(** Every registered listener is called; the discard counters; publications in order. *)
From stdpp Require Import prelude strings list_numbers.
From Coq Require Import ZArith Lia ZifyBool.
From Verif Require Import Base MultiRing_Model MultiRing_Spec MultiRing_Proofs MultiRing_Log EventLoop_Model EventLoop_Spec EventLoop_Proofs EventLoop_Calls.
Local Open Scope Z_scope.

(** Listener cb of subscriber u is still to be called in the handling under way, or has been. *)
Definition waiting (h : hpc) (u cb : nat) (called : nat) : Prop :=
  (1 <= called)%nat \/
  match h with
  | HNone => False
  | HSubs todo => u ∈ todo
  | HCalls u' _ cbs todo => u ∈ todo \/ (u = u' /\ cb ∈ cbs)
  end.
Definition every (s : elst) : Prop := forall h1 q n d h2, el_log s = h1 ++ VDispatch q n d :: h2 ->
  forall u cb, sub_names h1 !! u = Some n -> is_reg u cb h1 = true -> VUnreg u cb ∉ h2 ->
    (VDone q ∈ h2 -> (1 <= calls q u cb h2)%nat) /\
    (dispatched h2 = [] -> el_h s <> HNone -> waiting (el_h s) u cb (calls q u cb h2)).
Lemma is_reg_keep u cb h h2 : is_reg u cb h = true -> VUnreg u cb ∉ h2 -> is_reg u cb (h ++ h2) = true.
Proof.
  intros H. induction h2 as [|e h2 IH] using rev_ind; intros Hn; [by rewrite app_nil_r|].
  rewrite app_assoc, is_reg_snoc. rewrite IH by set_solver. destruct e; cbn [reg_step]; try done.
  rewrite bool_decide_false; [done|]. intros [-> ->]. apply Hn. set_solver.
Qed.
Lemma every_frame s s' w : every s -> el_h s' = el_h s -> el_log s' = el_log s ++ w -> (forall q n d, VDispatch q n d ∉ w) -> (forall q, VDone q ∉ w) -> every s'.
Proof.
  intros V Eh El Hd Hn h1 q n d h2 E u cb H1 H2 H3. rewrite El in E.
  assert (Hs : exists h2', h2 = h2' ++ w /\ el_log s = h1 ++ VDispatch q n d :: h2').
  { clear -E Hd. revert h2 E. induction w as [|e w IH] using rev_ind; intros h2 E; [exists h2; by rewrite ?app_nil_r in *|].
    rewrite app_assoc in E. apply snoc_decomp in E as [(-> & _ & E)|(h2' & -> & E)].
    - exfalso. apply (Hd q n d). apply elem_of_app. right. rewrite <-E. left.
    - destruct (IH ltac:(set_solver) h2' E) as (h & -> & E'). exists h. split; [by rewrite app_assoc|done]. }
  destruct Hs as (h2' & -> & E'). destruct (V h1 q n d h2' E' u cb H1 H2 ltac:(set_solver)) as [V1 V2]. rewrite calls_app. split.
  - intros Hx. apply elem_of_app in Hx as [Hx|Hx]; [|by apply Hn in Hx]. specialize (V1 Hx). lia.
  - rewrite dispatched_app. intros [Hx _]%app_eq_nil. rewrite Eh. intros Hy. specialize (V2 Hx Hy). destruct V2 as [V2|V2]; [left; lia|by right].
Qed.
(** The last dispatched event is the one whose suffix dispatches nothing. *)
Lemma disp_last h1 q n d h2 : dispatched h2 = [] -> last (dispatched (h1 ++ VDispatch q n d :: h2)) = Some (q, n, d).
Proof. intros H. rewrite dispatched_app. cbn [dispatched omap list_omap]. change (omap _ h2) with (dispatched h2). rewrite H, last_app. done. Qed.
Lemma every_loop g progs s th : 1 <= ec_k g <= 30 -> RInv g progs (el_ring s) -> EInv g s -> TInv s -> every s -> every (el_loop g s th).
Proof.
  intros Hk R E T V. destruct (cons0 _ _ _ R) as [c Hc]. unfold el_loop. rewrite Hc. cbn [lookup list_lookup].
  assert (F0 : forall s', el_h s' = el_h s -> el_log s' = el_log s -> every s').
  { intros s' E1 E2. apply (every_frame s s' []); [done|done|by rewrite app_nil_r|intros; apply not_elem_of_nil|intros; apply not_elem_of_nil]. }
  destruct c as [sq pc lg]. destruct pc as [|j mm|seq avail|nx avail|v]; try (by apply F0).
  destruct (Z.ltb_spec avail nx) as [Hlt|Hge]; [by apply F0|].
  destruct (front g progs s sq nx avail lg Hk R E Hc Hge) as [Hfr Hnx].
  destruct (el_h s) as [|[|u todo]|u d [|cb cbs] todo] eqn:Eh.
  - rewrite Hfr. cbn [w_name w_data full]. intros h1 q n d h2 El u cb H1 H2 H3. cbn [el_log el_h] in *.
    apply snoc_decomp in El as [(-> & -> & El)|(h2' & -> & El)].
    + injection El as -> -> ->. split; [by intros ?%elem_of_nil|]. intros _ _. right. apply subs_for_spec.
      rewrite (t_names _ T), list_lookup_fmap in H1. destruct (el_subs s !! u) as [[m l]|] eqn:Eu; [|done]. cbn in H1. injection H1 as ->. exists u, (ev_name g (m_vals (el_ring s) nx), l). done.
    + destruct (V h1 q n d h2' El u cb H1 H2 ltac:(set_solver)) as [V1 _]. rewrite calls_app. split; [|intros Hx; by rewrite dispatched_app in Hx; apply app_eq_nil in Hx as [_ Hx]].
      intros Hx. apply elem_of_app in Hx as [Hx|Hx]; [|by apply elem_of_list_singleton in Hx]. specialize (V1 Hx). lia.
  - assert (Hb : el_h s <> HNone) by (by rewrite Eh). destruct (last_disp g s sq nx avail lg E Hc ltac:(lia) Hb) as [Hnd Hld].
    intros h1 q n d h2 El u cb H1 H2 H3. cbn [el_log el_h] in *. apply snoc_decomp in El as [(_ & _ & El)|(h2' & -> & El)]; [done|].
    destruct (V h1 q n d h2' El u cb H1 H2 ltac:(set_solver)) as [V1 V2]. rewrite calls_app. split; [|done].
    intros Hx. apply elem_of_app in Hx as [Hx|Hx]; [specialize (V1 Hx); lia|]. apply elem_of_list_singleton in Hx as [= ->].
    assert (Hd : dispatched h2' = []).
    { pose proof (e_disp _ _ E _ Hc) as D. assert (Hi : dispatched (el_log s) !! length (dispatched h1) = Some (nx, n, d)).
      { rewrite El, dispatched_app, lookup_app_r, Nat.sub_diag by lia. done. }
      rewrite D, list_lookup_fmap in Hi. apply fmap_Some in Hi as (z & Hz & Hi). apply lookup_seqZ in Hz as [-> Hz]. injection Hi as Hi _ _.
      unfold nd in Hnd. rewrite El, dispatched_app, app_length in Hnd. cbn [dispatched omap list_omap length] in Hnd. change (omap _ h2') with (dispatched h2') in Hnd.
      destruct (dispatched h2') as [|y l]; [done|]. exfalso. cbn [length] in Hnd. lia. }
    specialize (V2 Hd Hb). rewrite Eh in V2. destruct V2 as [V2|V2]; [lia|by apply elem_of_nil in V2].
  - intros h1 q n d h2 El v cb H1 H2 H3. cbn [el_log el_h] in *. destruct (V h1 q n d h2 El v cb H1 H2 H3) as [V1 V2]. split; [done|]. intros Hx _.
    specialize (V2 Hx ltac:(by rewrite Eh)). rewrite Eh in V2. destruct V2 as [V2|V2]; [by left|]. right. cbn in V2 |- *. apply elem_of_cons in V2 as [->|V2]; [|by left].
    right. split; [done|]. pose proof (is_reg_keep u cb h1 (VDispatch q n d :: h2) H2 ltac:(set_solver)) as Hr. rewrite <-El in Hr.
    destruct (el_subs s !! u) as [[m l]|] eqn:Eu; [by eapply (t_reg _ T)|]. rewrite (t_out _ T) in Hr by done. done.
  - intros h1 q n d' h2 El v cb H1 H2 H3. cbn [el_log el_h] in *. destruct (V h1 q n d' h2 El v cb H1 H2 H3) as [V1 V2]. split; [done|]. intros Hx _.
    specialize (V2 Hx ltac:(by rewrite Eh)). rewrite Eh in V2. destruct V2 as [V2|[V2|[_ V2]]]; [by left|by right|by apply elem_of_nil in V2].
  - assert (Hb : el_h s <> HNone) by (by rewrite Eh). destruct (last_disp g s sq nx avail lg E Hc ltac:(lia) Hb) as [Hnd Hld].
    assert (Hc1 : forall h', (h' = HNone \/ h' = HCalls u d cbs todo) -> every (El (el_ring s) (el_wr s) (el_disc s) (el_dpc s) h' (el_subs s) (el_log s ++ [VCall nx u cb d]))).
    { intros h' Hh' h1 q n d' h2 El v x H1 H2 H3. cbn [el_log el_h] in *. apply snoc_decomp in El as [(_ & _ & El)|(h2' & -> & El)]; [done|].
      destruct (V h1 q n d' h2' El v x H1 H2 ltac:(set_solver)) as [V1 V2]. rewrite calls_app, calls_call. split.
      - intros Hx. apply elem_of_app in Hx as [Hx|Hx]; [specialize (V1 Hx); lia|by apply elem_of_list_singleton in Hx].
      - rewrite dispatched_app. intros [Hx _]%app_eq_nil Hy. destruct Hh' as [->| ->]; [done|]. specialize (V2 Hx Hb). rewrite Eh in V2.
        assert (q = nx). { rewrite El, disp_last in Hld by done. by injection Hld. } subst q.
        destruct V2 as [V2|[V2|[-> V2]]]; [left; lia|by right; left|]. apply elem_of_cons in V2 as [->|V2]; [|right; right; done].
        left. rewrite decide_True by done. lia. }
    destruct th.
    + eapply every_frame with (w := [VThrew nx]); [apply (Hc1 HNone); by left|done| |by intros ??? ?%elem_of_list_singleton|by intros ? ?%elem_of_list_singleton].
      cbn. by rewrite <-app_assoc.
    + apply Hc1. by right.
Qed.
Lemma every_run g progs acts : 1 <= ec_k g <= 30 -> m_cursor (el_ring (el_run g (el_new g progs) acts)) < 2^31 -> every (el_run g (el_new g progs) acts).
Proof.
  intros Hk. induction acts as [|a acts IH] using rev_ind; intros Hb.
  - intros h1 q n d h2 E. cbn in E. by destruct h1.
  - rewrite el_run_snoc in *. set (s := el_run g (el_new g progs) acts) in *.
    assert (Hb0 : m_cursor (el_ring s) < 2^31) by (pose proof (step_cursor_el g s a); lia).
    specialize (IH Hb0). pose proof (rinv_run g progs acts Hk Hb0) as R. pose proof (einv_run g progs acts Hk Hb0) as E. pose proof (tinv_run g progs acts) as T. fold s in R, E, T.
    destruct a as [t ok|th|n|u cb|u cb]; cbn [el_step].
    + assert (Eh : el_h (el_prod g s t ok) = el_h s) by (by destruct (el_prod_case g progs s t ok R)).
      destruct (el_prod_subs g s t ok) as (_ & w & Ew & _ & H1 & _ & H2). by eapply every_frame.
    + by eapply every_loop.
    + eapply every_frame; [exact IH|done|reflexivity|by intros ??? ?%elem_of_list_singleton|by intros ? ?%elem_of_list_singleton].
    + destruct (el_subs s !! u) as [[n l]|]; [|done]. eapply every_frame; [exact IH|done|reflexivity|by intros ??? ?%elem_of_list_singleton|by intros ? ?%elem_of_list_singleton].
    + destruct (el_subs s !! u) as [[n l]|]; [|done]. eapply every_frame; [exact IH|done|reflexivity|by intros ??? ?%elem_of_list_singleton|by intros ? ?%elem_of_list_singleton].
Qed.
