(** Which listeners are called, and the discard counters. *)
From stdpp Require Import prelude strings list_numbers.
From Coq Require Import ZArith Lia ZifyBool.
From Verif Require Import Base MultiRing_Model MultiRing_Spec MultiRing_Proofs MultiRing_Log EventLoop_Model EventLoop_Spec EventLoop_Proofs.
Local Open Scope Z_scope.

Lemma str_app_len a b : String.length (String.append a b) = (String.length a + String.length b)%nat.
Proof. induction a as [|c a IH]; [done|]. simpl. f_equal. exact IH. Qed.
Lemma str_app_inj_r a b x : String.append a x = String.append b x -> a = b.
Proof.
  revert b; induction a as [|c a IH]; intros [|e b] H; [done| | |].
  - exfalso. apply (f_equal String.length) in H. rewrite !str_app_len in H. simpl in H. lia.
  - exfalso. apply (f_equal String.length) in H. rewrite !str_app_len in H. simpl in H. lia.
  - simpl in H. injection H as -> H. f_equal. by apply IH.
Qed.
Lemma subs_for_spec name l : forall i u, u ∈ subs_for name i l <-> exists k x, u = (i + k)%nat /\ l !! k = Some x /\ x.1 = name.
Proof.
  induction l as [|[n ls] l IH]; intros i u; cbn [subs_for].
  - split; [by intros ?%elem_of_nil|]. by intros (k & x & _ & H & _).
  - assert (Hl : u ∈ subs_for name (S i) l <-> exists k x, u = (i + S k)%nat /\ l !! k = Some x /\ x.1 = name).
    { rewrite IH. split; intros (k & x & -> & H); exists k, x; (split; [lia|done]). }
    assert (Hr : (exists k x, u = (i + k)%nat /\ ((n, ls) :: l) !! k = Some x /\ x.1 = name) <-> (u = i /\ n = name) \/ exists k x, u = (i + S k)%nat /\ l !! k = Some x /\ x.1 = name).
    { split.
      - intros ([|k] & x & -> & H & E); cbn in H; [injection H as <-; left; split; [lia|done]|right; eauto].
      - intros [[-> ->]|(k & x & -> & H)]; [exists 0%nat, (name, ls); split; [lia|done]|exists (S k), x; done]. }
    rewrite Hr. destruct (bool_decide _) eqn:E.
    + apply bool_decide_eq_true, str_app_inj_r in E. rewrite elem_of_cons, Hl. naive_solver.
    + apply bool_decide_eq_false in E. rewrite Hl. split; [by right|]. intros [[_ ->]|]; [by destruct E|done].
Qed.
Lemma subs_for_nodup name l : forall i, NoDup (subs_for name i l).
Proof.
  induction l as [|[n ls] l IH]; intros i; cbn [subs_for]; [constructor|]. destruct (bool_decide _); [|done].
  constructor; [|done]. intros H. apply subs_for_spec in H as (k & x & H & _). lia.
Qed.
Lemma calls_app q u cb a b : calls q u cb (a ++ b) = (calls q u cb a + calls q u cb b)%nat.
Proof. unfold calls. by rewrite List.filter_app, app_length. Qed.
Lemma calls_call q u cb q' u' cb' d : calls q u cb [VCall q' u' cb' d] = if decide (q' = q /\ u' = u /\ cb' = cb) then 1%nat else 0%nat.
Proof. unfold calls. cbn. destruct (decide (q' = q /\ u' = u /\ cb' = cb)); [rewrite bool_decide_true by done|rewrite bool_decide_false by done]; done. Qed.
Lemma calls_in q u cb h : (0 < calls q u cb h)%nat -> exists d, VCall q u cb d ∈ h.
Proof.
  unfold calls. induction h as [|e h IH]; cbn; [lia|]. destruct e; cbn; try (intros H; destruct (IH H) as [d' Hd]; exists d'; by right).
  case_bool_decide as Hq; [|intros H; destruct (IH H) as [d' Hd]; exists d'; by right]. destruct Hq as (-> & -> & ->). intros _. exists data. left.
Qed.
Lemma names_app a b : sub_names (a ++ b) = sub_names a ++ sub_names b.
Proof. apply omap_app. Qed.
Lemma is_reg_snoc u cb h e : is_reg u cb (h ++ [e]) = reg_step u cb (is_reg u cb h) e.
Proof. unfold is_reg. by rewrite fold_left_app. Qed.
Lemma is_reg_in u cb h : is_reg u cb h = true -> VReg u cb ∈ h.
Proof.
  induction h as [|e h IH] using rev_ind; [done|]. rewrite is_reg_snoc, elem_of_app. destruct e; cbn [reg_step]; try (intros H; left; by apply IH).
  - intros [H|H]%orb_true_iff; [left; by apply IH|]. apply bool_decide_eq_true in H as [-> ->]. right. set_solver.
  - intros [H _]%andb_true_iff. left. by apply IH.
Qed.
Definition regs (h : list elev) : list (nat * nat) := omap (fun e => match e with VReg u cb => Some (u, cb) | _ => None end) h.
Lemma regs_app a b : regs (a ++ b) = regs a ++ regs b.
Proof. apply omap_app. Qed.
Lemma regs_in u cb h : VReg u cb ∈ h -> (u, cb) ∈ regs h.
Proof. intros H. apply elem_of_list_omap. by exists (VReg u cb). Qed.

(** ** The tables of subscribers and listeners. *)
Record TInv (s : elst) : Prop := {
  t_names : sub_names (el_log s) = (el_subs s).*1;
  t_reg : forall u n l, el_subs s !! u = Some (n, l) -> forall cb, cb ∈ l <-> is_reg u cb (el_log s) = true;
  t_out : forall u cb, el_subs s !! u = None -> is_reg u cb (el_log s) = false;
  t_nodup : unique_listeners (el_log s) -> forall u n l, el_subs s !! u = Some (n, l) -> NoDup l
}.
(** Log events that are not about the tables. *)
Definition neutral (e : elev) : Prop := match e with VNewSub _ | VReg _ _ | VUnreg _ _ => False | _ => True end.
Lemma tinv_neutral s s' w : TInv s -> el_subs s' = el_subs s -> el_log s' = el_log s ++ w -> Forall neutral w -> TInv s'.
Proof.
  intros [T1 T2 T3 T4] Es El Hw.
  assert (Hn : sub_names w = []) by (clear -Hw; induction Hw as [|e w He _ IH]; [done|]; by destruct e).
  assert (Hg : regs w = []) by (clear -Hw; induction Hw as [|e w He _ IH]; [done|]; by destruct e).
  assert (Hr : forall u cb b, fold_left (reg_step u cb) w b = b) by (clear -Hw; induction Hw as [|e w He _ IH]; intros u cb b; [done|]; cbn; rewrite IH; by destruct e).
  constructor; rewrite Es, El.
  - by rewrite names_app, Hn, app_nil_r.
  - intros u n l H cb. unfold is_reg. rewrite fold_left_app, Hr. by eapply T2.
  - intros u cb H. unfold is_reg. rewrite fold_left_app, Hr. by apply T3.
  - unfold unique_listeners. change (omap _ (el_log s ++ w)) with (regs (el_log s ++ w)). rewrite regs_app, Hg, app_nil_r. exact T4.
Qed.
Lemma el_prod_subs g s t ok : el_subs (el_prod g s t ok) = el_subs s /\ exists w, el_log (el_prod g s t ok) = el_log s ++ w /\ Forall neutral w /\ (forall q n d, VDispatch q n d ∉ w) /\ (forall q u cb d, VCall q u cb d ∉ w) /\ (forall q, VDone q ∉ w).
Proof.
  assert (E : forall s', el_subs s' = el_subs s -> el_log s' = el_log s -> el_subs s' = el_subs s /\ exists w, el_log s' = el_log s ++ w /\ Forall neutral w /\ (forall q n d, VDispatch q n d ∉ w) /\ (forall q u cb d, VCall q u cb d ∉ w) /\ (forall q, VDone q ∉ w)).
  { intros s' E1 E2. split; [done|]. exists []. rewrite app_nil_r. split; [done|]. split; [constructor|]. repeat split; intros; apply not_elem_of_nil. }
  assert (E' : forall s' e, el_subs s' = el_subs s -> el_log s' = el_log s ++ [e] -> match e with VAccept _ _ _ | VRefuse _ _ | VWarn _ => True | _ => False end ->
    el_subs s' = el_subs s /\ exists w, el_log s' = el_log s ++ w /\ Forall neutral w /\ (forall q n d, VDispatch q n d ∉ w) /\ (forall q u cb d, VCall q u cb d ∉ w) /\ (forall q, VDone q ∉ w)).
  { intros s' e E1 E2 E3. split; [done|]. exists [e]. split; [done|]. split; [constructor; [by destruct e|done]|].
    repeat split; intros; intros ->%elem_of_list_singleton || (intros Hx%elem_of_list_singleton; by subst e); done. }
  unfold el_prod. destruct (el_dpc s !! t) as [[|p|p v]|]; try by apply E.
  destruct (m_prods (el_ring s) !! t) as [[[| |cur|cur i m|cur m|cur|lo [|i]|lo i] [|[b [|z [|z' l]]] todo]]|]; try (by apply E);
    try (destruct (drop _ _) as [|[x [lo' vs| |]] [|]]; first [by apply E|by eapply E']).
  destruct (w_data _); [by eapply E'|]. apply E; [done|apply app_nil_r].
Qed.
Lemma el_loop_subs g s th : el_subs (el_loop g s th) = el_subs s /\ exists w, el_log (el_loop g s th) = el_log s ++ w /\ Forall neutral w.
Proof.
  assert (E : forall s', el_subs s' = el_subs s -> el_log s' = el_log s -> el_subs s' = el_subs s /\ exists w, el_log s' = el_log s ++ w /\ Forall neutral w).
  { intros s' E1 E2. split; [done|]. exists []. by rewrite app_nil_r. }
  unfold el_loop. destruct (m_cons (el_ring s) !! 0%nat) as [[sq [|j m|seq avail|nx avail|v] lg]|]; try (by apply E).
  destruct (avail <? nx); [by apply E|]. destruct (el_h s) as [|[|u todo]|u d [|cb cbs] todo]; try (by apply E).
  - split; [done|]. eexists. split; [reflexivity|]. by repeat constructor.
  - split; [done|]. eexists. split; [reflexivity|]. by repeat constructor.
  - destruct th; (split; [done|]; eexists; split; [reflexivity|]; by repeat constructor).
Qed.
Lemma tinv_step g s a : TInv s -> TInv (el_step g s a).
Proof.
  intros T. destruct a as [t ok|th|n|u cb|u cb]; cbn [el_step].
  - destruct (el_prod_subs g s t ok) as (E1 & w & E2 & H & _). by eapply tinv_neutral.
  - destruct (el_loop_subs g s th) as (E1 & w & E2 & H). by eapply tinv_neutral.
  - destruct T as [T1 T2 T3 T4]. constructor; cbn [el_subs el_log].
    + rewrite names_app, fmap_app, T1. done.
    + intros u m l H cb. rewrite is_reg_snoc. cbn [reg_step]. apply lookup_app_Some in H as [H|[Hlen H]]; [by eapply T2|].
      destruct (u - length (el_subs s))%nat; cbn in H; [|done]. injection H as <- <-. rewrite T3; [|by apply lookup_ge_None].
      split; [by intros ?%elem_of_nil|done].
    + intros u cb H. rewrite is_reg_snoc. cbn [reg_step]. apply T3. apply lookup_ge_None in H. rewrite app_length in H. apply lookup_ge_None. lia.
    + intros Hu u m l H. unfold unique_listeners in Hu, T4. change (omap _ (el_log s ++ [VNewSub n])) with (regs (el_log s ++ [VNewSub n])) in Hu. rewrite regs_app, app_nil_r in Hu.
      apply lookup_app_Some in H as [H|[Hlen H]]; [by eapply T4|].
      destruct (u - length (el_subs s))%nat; cbn in H; [|done]. injection H as <- <-. constructor.
  - destruct (el_subs s !! u) as [[n l]|] eqn:Eu; [|done]. destruct T as [T1 T2 T3 T4]. constructor; cbn [el_subs el_log].
    + rewrite names_app, app_nil_r, list_fmap_insert, T1. cbn. symmetry. apply list_insert_id. by rewrite list_lookup_fmap, Eu.
    + intros v m k H cb'. rewrite is_reg_snoc. cbn [reg_step]. apply list_lookup_insert_Some in H as [(-> & E & _)|[Hne H]].
      * injection E as <- <-. rewrite elem_of_app, elem_of_list_singleton, orb_true_iff, bool_decide_eq_true, (T2 _ _ _ Eu). naive_solver.
      * rewrite orb_true_iff, bool_decide_eq_true, (T2 _ _ _ H). naive_solver.
    + intros v cb' H. rewrite is_reg_snoc. cbn [reg_step]. apply lookup_ge_None in H. rewrite insert_length in H.
      rewrite T3 by (by apply lookup_ge_None). apply bool_decide_eq_false. intros [-> _]. apply lookup_lt_Some in Eu. lia.
    + intros Hu v m k H. unfold unique_listeners in Hu, T4. change (omap _ (el_log s ++ [VReg u cb])) with (regs (el_log s ++ [VReg u cb])) in Hu. rewrite regs_app in Hu.
      apply NoDup_app in Hu as (Hu1 & Hu2 & _). specialize (T4 Hu1). apply list_lookup_insert_Some in H as [(-> & E & _)|[Hne H]]; [|by eapply T4].
      injection E as <- <-. apply NoDup_app. split; [by eapply T4|]. split; [|apply NoDup_singleton]. intros x Hx [= ->]%elem_of_list_singleton.
      apply (Hu2 (v, cb)); [|cbn; set_solver]. apply regs_in, is_reg_in. by eapply T2.
  - destruct (el_subs s !! u) as [[n l]|] eqn:Eu; [|done]. destruct T as [T1 T2 T3 T4]. constructor; cbn [el_subs el_log].
    + rewrite names_app, app_nil_r, list_fmap_insert, T1. cbn. symmetry. apply list_insert_id. by rewrite list_lookup_fmap, Eu.
    + intros v m k H cb'. rewrite is_reg_snoc. cbn [reg_step]. apply list_lookup_insert_Some in H as [(-> & E & _)|[Hne H]].
      * injection E as <- <-. rewrite elem_of_list_filter, andb_true_iff, negb_true_iff, bool_decide_eq_false, (T2 _ _ _ Eu). naive_solver.
      * rewrite andb_true_iff, negb_true_iff, bool_decide_eq_false, (T2 _ _ _ H). naive_solver.
    + intros v cb' H. rewrite is_reg_snoc. cbn [reg_step]. apply lookup_ge_None in H. rewrite insert_length in H.
      rewrite T3 by (by apply lookup_ge_None). done.
    + intros Hu v m k H. unfold unique_listeners in Hu, T4. change (omap _ (el_log s ++ [VUnreg u cb])) with (regs (el_log s ++ [VUnreg u cb])) in Hu. rewrite regs_app, app_nil_r in Hu.
      specialize (T4 Hu). apply list_lookup_insert_Some in H as [(-> & E & _)|[Hne H]]; [|by eapply T4].
      injection E as <- <-. apply NoDup_filter. by eapply T4.
Qed.
Lemma tinv_run g progs acts : TInv (el_run g (el_new g progs) acts).
Proof.
  induction acts as [|a acts IH] using rev_ind; [|rewrite el_run_snoc; by apply tinv_step].
  constructor; cbn; try done. 
Qed.

(** ** The calls. *)
Definition nd (h : list elev) : Z := Z.of_nat (length (dispatched h)).
Record CInv (s : elst) : Prop := {
  k_call : forall q u cb d, VCall q u cb d ∈ el_log s -> 0 <= q < nd (el_log s) /\
     exists n, dispatched (el_log s) !! Z.to_nat q = Some (q, n, d) /\ sub_names (el_log s) !! u = Some n /\ VReg u cb ∈ el_log s;
  k_subs : forall todo, el_h s = HSubs todo -> NoDup todo /\
     (forall u, u ∈ todo -> (exists n d, last (dispatched (el_log s)) = Some (nd (el_log s) - 1, n, d) /\ sub_names (el_log s) !! u = Some n) /\
        forall cb, calls (nd (el_log s) - 1) u cb (el_log s) = 0%nat);
  k_calls : forall u d cbs todo, el_h s = HCalls u d cbs todo -> NoDup (u :: todo) /\
     (exists n, last (dispatched (el_log s)) = Some (nd (el_log s) - 1, n, d) /\ sub_names (el_log s) !! u = Some n) /\
     (forall v, v ∈ todo -> (exists n, last (dispatched (el_log s)) = Some (nd (el_log s) - 1, n, d) /\ sub_names (el_log s) !! v = Some n) /\ forall cb, calls (nd (el_log s) - 1) v cb (el_log s) = 0%nat) /\
     (forall cb, cb ∈ cbs -> VReg u cb ∈ el_log s) /\
     (unique_listeners (el_log s) -> NoDup cbs /\ forall cb, cb ∈ cbs -> calls (nd (el_log s) - 1) u cb (el_log s) = 0%nat);
  k_once : unique_listeners (el_log s) -> forall q u cb, (calls q u cb (el_log s) <= 1)%nat
}.
Lemma unique_prefix a b : unique_listeners (a ++ b) -> unique_listeners a.
Proof. unfold unique_listeners. change (omap _ (a ++ b)) with (regs (a ++ b)). rewrite regs_app. by intros (H & _)%NoDup_app. Qed.
Lemma calls_none w q u cb : (forall q u cb d, VCall q u cb d ∉ w) -> calls q u cb w = 0%nat.
Proof. intros H. destruct (calls q u cb w) eqn:E; [done|]. destruct (calls_in q u cb w) as [d Hd]; [lia|]. by apply H in Hd. Qed.
Lemma disp_none w : (forall q n d, VDispatch q n d ∉ w) -> dispatched w = [].
Proof.
  intros H. destruct (dispatched w) as [|[[q n] d] l] eqn:E; [done|].
  assert (Hin : (q, n, d) ∈ dispatched w) by (rewrite E; left). apply elem_of_list_omap in Hin as (e & He & Hx). destruct e; try done. injection Hx as -> -> ->. by apply H in He.
Qed.
(** Steps that dispatch nothing, call nothing and leave the handler alone. *)
Lemma cinv_frame s s' w : CInv s -> el_h s' = el_h s -> el_log s' = el_log s ++ w -> (forall q n d, VDispatch q n d ∉ w) -> (forall q u cb d, VCall q u cb d ∉ w) -> CInv s'.
Proof.
  intros [K1 K2 K3 K4] Eh El Hd Hc. pose proof (disp_none w Hd) as Dw.
  assert (Dl : dispatched (el_log s') = dispatched (el_log s)) by (by rewrite El, dispatched_app, Dw, app_nil_r).
  assert (Nl : nd (el_log s') = nd (el_log s)) by (unfold nd; by rewrite Dl).
  assert (Cl : forall q u cb, calls q u cb (el_log s') = calls q u cb (el_log s)) by (intros; rewrite El, calls_app, (calls_none w _ _ _ Hc); lia).
  assert (Sn : forall u n, sub_names (el_log s) !! u = Some n -> sub_names (el_log s') !! u = Some n).
  { intros u n H. rewrite El, names_app, lookup_app_l; [done|]. by eapply lookup_lt_Some. }
  assert (Rg : forall e, e ∈ el_log s -> e ∈ el_log s') by (intros e H; rewrite El; apply elem_of_app; by left).
  assert (Un : unique_listeners (el_log s') -> unique_listeners (el_log s)) by (rewrite El; apply unique_prefix).
  constructor; rewrite ?Nl, ?Dl.
  - intros q u cb d H. rewrite El in H. apply elem_of_app in H as [H|H]; [|by apply Hc in H]. destruct (K1 q u cb d H) as (H1 & n & H2 & H3 & H4). eauto 8.
  - intros todo H. rewrite Eh in H. destruct (K2 todo H) as (H1 & H2). split; [done|]. intros u Hu. destruct (H2 u Hu) as ((n & d & H3 & H4) & H5). split; [eauto 8|]. intros cb. by rewrite Cl.
  - intros u d cbs todo H. rewrite Eh in H. destruct (K3 u d cbs todo H) as (H1 & (n & H2 & H2') & H3 & H4 & H5). split; [done|]. split; [eauto|]. split.
    + intros v Hv. destruct (H3 v Hv) as ((m & G1 & G2) & G3). split; [eauto|]. intros cb. by rewrite Cl.
    + split; [auto|]. intros Hu. destruct (H5 (Un Hu)) as [G1 G2]. split; [done|]. intros cb Hcb. rewrite Cl. by apply G2.
  - intros Hu q u cb. rewrite Cl. by apply K4, Un.
Qed.
Lemma last_disp g s sq nx avail lg : EInv g s -> m_cons (el_ring s) = [Cons sq (CHandle nx avail) lg] -> 0 <= nx -> el_h s <> HNone ->
  nd (el_log s) = nx + 1 /\ last (dispatched (el_log s)) = Some (nx, ev_name g (m_vals (el_ring s) nx), Some (ev_data g (m_vals (el_ring s) nx))).
Proof.
  intros E Hc H0 Hb. pose proof (e_disp _ _ E _ Hc) as D. unfold pos in D. cbn [co_pc] in D. assert (busy (el_h s) = 1) as Eb by (by destruct (el_h s)). rewrite Eb in D.
  replace (nx - 1 + 1 + 1) with (nx + 1) in D by lia. unfold nd. rewrite D. split; [rewrite fmap_length, seqZ_length; lia|].
  rewrite seqZ_snoc, fmap_app, last_app by lia. done.
Qed.
Lemma nd_idle g s c : EInv g s -> m_cons (el_ring s) = [c] -> el_h s = HNone -> -1 <= pos c -> nd (el_log s) = pos c + 1.
Proof. intros E Hc Hh Hp. pose proof (e_disp _ _ E _ Hc) as D. rewrite Hh in D. cbn [busy] in D. unfold nd. rewrite D, fmap_length, seqZ_length. lia. Qed.
Lemma cinv_loop g progs s th : 1 <= ec_k g <= 30 -> RInv g progs (el_ring s) -> EInv g s -> TInv s -> CInv s -> CInv (el_loop g s th).
Proof.
  intros Hk R E T K. destruct (cons0 _ _ _ R) as [c Hc]. destruct (win g progs _ c Hk R Hc) as (W1 & W2 & W3 & W4).
  unfold el_loop. rewrite Hc. cbn [lookup list_lookup].
  assert (F0 : forall s', el_h s' = el_h s -> el_log s' = el_log s -> CInv s').
  { intros s' E1 E2. apply (cinv_frame s s' []); [done|done|by rewrite app_nil_r|intros; apply not_elem_of_nil|intros; apply not_elem_of_nil]. }
  destruct c as [sq pc lg]. destruct pc as [|j mm|seq avail|nx avail|v]; try (by apply F0).
  destruct (Z.ltb_spec avail nx) as [Hlt|Hge]; [by apply F0|].
  destruct (front g progs s sq nx avail lg Hk R E Hc Hge) as [Hfr Hnx].
  destruct (el_h s) as [|[|u todo]|u d [|cb cbs] todo] eqn:Eh.
  - pose proof (nd_idle g s _ E Hc Eh) as Hnd. unfold pos in Hnd. cbn [co_pc] in Hnd. rewrite Hfr. cbn [w_name w_data full].
    set (nm := ev_name g (m_vals (el_ring s) nx)). set (dt := ev_data g (m_vals (el_ring s) nx)).
    assert (Dl : dispatched (el_log s ++ [VDispatch nx nm (Some dt)]) = dispatched (el_log s) ++ [(nx, nm, Some dt)]) by (by rewrite dispatched_app).
    assert (Nl : nd (el_log s ++ [VDispatch nx nm (Some dt)]) = nx + 1) by (unfold nd in *; rewrite Dl, app_length; cbn; lia).
    assert (Cl : forall q u cb, calls q u cb (el_log s ++ [VDispatch nx nm (Some dt)]) = calls q u cb (el_log s)) by (intros; rewrite calls_app; unfold calls; cbn; lia).
    assert (Sn : sub_names (el_log s ++ [VDispatch nx nm (Some dt)]) = sub_names (el_log s)) by (by rewrite names_app, app_nil_r).
    constructor; cbn [el_h el_log]; rewrite ?Nl, ?Dl, ?Sn.
    + intros q u cb d H. apply elem_of_app in H as [H|H]; [|by apply elem_of_list_singleton in H]. destruct (k_call _ K q u cb d H) as (H1 & n & H2 & H3 & H4).
      split; [lia|]. exists n. split; [rewrite lookup_app_l; [done|by eapply lookup_lt_Some]|]. split; [done|]. apply elem_of_app. by left.
    + intros todo [= <-]. split; [apply subs_for_nodup|]. intros u Hu. apply subs_for_spec in Hu as (k & [n ls] & -> & Hk' & En). cbn in En. subst n. split.
      * exists nm, (Some dt). rewrite last_app. cbn. split; [do 3 f_equal; lia|]. rewrite (t_names _ T), list_lookup_fmap. rewrite Hk'. done.
      * intros cb. rewrite Cl. destruct (calls (nx + 1 - 1) (0 + k) cb (el_log s)) eqn:Ec; [done|]. destruct (calls_in (nx + 1 - 1) (0 + k)%nat cb (el_log s)) as [d Hd]; [lia|].
        apply (k_call _ K) in Hd as (Hd & _). lia.
    + done.
    + intros Hu q u cb. rewrite Cl. apply (k_once _ K). by eapply unique_prefix.
  - eapply cinv_frame with (s := El (el_ring s) (el_wr s) (el_disc s) (el_dpc s) HNone (el_subs s) (el_log s)); cbn; [|done|reflexivity|by intros ??? ?%elem_of_list_singleton|by intros ???? ?%elem_of_list_singleton].
    constructor; cbn [el_h el_log]; try done; apply K.
  - assert (Hb : el_h s <> HNone) by (by rewrite Eh). destruct (last_disp g s sq nx avail lg E Hc ltac:(lia) Hb) as [Hnd Hld]. rewrite Hfr. cbn [w_data full].
    destruct (k_subs _ K _ Eh) as (K1 & K2). constructor; cbn [el_h el_log]; try done; try apply K.
    intros u' d' cbs' todo' [= <- <- <- <-]. split; [done|].
    assert (Hn : forall v, v ∈ u :: todo -> exists n, last (dispatched (el_log s)) = Some (nd (el_log s) - 1, n, Some (ev_data g (m_vals (el_ring s) nx))) /\ sub_names (el_log s) !! v = Some n).
    { intros v Hv. destruct (K2 v Hv) as ((n & d & H1 & H2) & _). exists n. split; [|done]. rewrite H1 in Hld |- *. injection Hld as H3 H4 ->. done. }
    split; [apply Hn; set_solver|]. split; [intros v Hv; split; [apply Hn; set_solver|apply K2; set_solver]|].
    destruct (el_subs s !! u) as [[n l]|] eqn:Eu; cbn [snd].
    + split; [intros cb Hcb; by eapply is_reg_in, (t_reg _ T)|]. intros Hu. split; [by eapply (t_nodup _ T)|]. intros cb _. apply K2. set_solver.
    + split; [by intros cb ?%elem_of_nil|]. intros _. split; [constructor|by intros cb ?%elem_of_nil].
  - destruct (k_calls _ K _ _ _ _ Eh) as (K1 & K2 & K3 & _). constructor; cbn [el_h el_log]; try done; try apply K.
    intros t [= <-]. apply NoDup_cons in K1 as [_ K1]. split; [done|]. intros v Hv. destruct (K3 v Hv) as ((n & H1 & H2) & H3). split; [eauto|done].
  - assert (Hb : el_h s <> HNone) by (by rewrite Eh). destruct (last_disp g s sq nx avail lg E Hc ltac:(lia) Hb) as [Hnd Hld].
    destruct (k_calls _ K _ _ _ _ Eh) as (K1 & (n & K2 & K2') & K3 & K4 & K5).
    assert (Hc1 : forall h', (h' = HNone \/ h' = HCalls u d cbs todo) -> CInv (El (el_ring s) (el_wr s) (el_disc s) (el_dpc s) h' (el_subs s) (el_log s ++ [VCall nx u cb d]))).
    { intros h' Hh'. set (w := VCall nx u cb d).
      assert (Dl : dispatched (el_log s ++ [w]) = dispatched (el_log s)) by (by rewrite dispatched_app, app_nil_r).
      assert (Nl : nd (el_log s ++ [w]) = nx + 1) by (unfold nd in *; by rewrite Dl).
      assert (Sn : sub_names (el_log s ++ [w]) = sub_names (el_log s)) by (by rewrite names_app, app_nil_r).
      assert (Cl : forall q v x, calls q v x (el_log s ++ [w]) = (calls q v x (el_log s) + if decide (nx = q /\ u = v /\ cb = x) then 1 else 0)%nat) by (intros; unfold w; by rewrite calls_app, calls_call).
      constructor; cbn [el_h el_log]; rewrite ?Nl, ?Dl, ?Sn.
      - intros q v x e H. apply elem_of_app in H as [H|H].
        + destruct (k_call _ K q v x e H) as (H1 & m & H2 & H3 & H4). split; [lia|]. exists m. split; [done|]. split; [done|]. apply elem_of_app. by left.
        + apply elem_of_list_singleton in H as [= -> -> -> ->]. split; [lia|]. exists n. split.
          * rewrite Hnd in K2. replace (nx + 1 - 1) with nx in K2 by lia. rewrite last_lookup in K2. unfold nd in Hnd. replace (Z.to_nat nx) with (pred (length (dispatched (el_log s)))) by lia. done.
          * split; [done|]. apply elem_of_app. left. apply K4. set_solver.
      - intros t ->. destruct Hh' as [H|H]; done.
      - intros u' d' cbs' todo' ->. destruct Hh' as [H|H]; [done|]. injection H as -> -> -> ->. split; [done|].
        rewrite Hnd in K2, K3, K5. replace (nx + 1 - 1) with nx in * by lia. split; [eauto|]. split.
        + intros v Hv. destruct (K3 v Hv) as ((m & G1 & G2) & G3). split; [eauto|]. intros x. rewrite Cl, G3. rewrite decide_False; [done|].
          intros (_ & -> & _). apply NoDup_cons in K1 as [K1 _]. done.
        + split; [intros x Hx; apply elem_of_app; left; apply K4; set_solver|]. intros Hu. destruct (K5 (unique_prefix _ _ Hu)) as [G1 G2]. apply NoDup_cons in G1 as [G1 G1'].
          split; [done|]. intros x Hx. rewrite Cl, G2 by set_solver. rewrite decide_False; [done|]. intros (_ & _ & ->). done.
      - intros Hu q v x. rewrite Cl. pose proof (k_once _ K (unique_prefix _ _ Hu) q v x). destruct (decide _) as [(<- & <- & <-)|]; [|lia].
        destruct (K5 (unique_prefix _ _ Hu)) as [_ G2]. rewrite Hnd in G2. replace (nx + 1 - 1) with nx in G2 by lia. rewrite G2 by set_solver. lia. }
    destruct th.
    + eapply cinv_frame with (w := [VThrew nx]); [apply (Hc1 HNone); by left|done| |by intros ??? ?%elem_of_list_singleton|by intros ???? ?%elem_of_list_singleton].
      cbn. by rewrite <-app_assoc.
    + apply Hc1. by right.
Qed.
Lemma cinv_run g progs acts : 1 <= ec_k g <= 30 -> m_cursor (el_ring (el_run g (el_new g progs) acts)) < 2^31 -> CInv (el_run g (el_new g progs) acts).
Proof.
  intros Hk. induction acts as [|a acts IH] using rev_ind; intros Hb.
  - constructor; cbn; try done; [intros ???? ?%elem_of_nil; done|]. intros. unfold calls. cbn. lia.
  - rewrite el_run_snoc in *. set (s := el_run g (el_new g progs) acts) in *.
    assert (Hb0 : m_cursor (el_ring s) < 2^31) by (pose proof (step_cursor_el g s a); lia).
    specialize (IH Hb0). pose proof (rinv_run g progs acts Hk Hb0) as R. pose proof (einv_run g progs acts Hk Hb0) as E. pose proof (tinv_run g progs acts) as T. fold s in R, E, T.
    destruct a as [t ok|th|n|u cb|u cb]; cbn [el_step].
    + assert (Eh : el_h (el_prod g s t ok) = el_h s) by (by destruct (el_prod_case g progs s t ok R)).
      destruct (el_prod_subs g s t ok) as (_ & w & Ew & _ & H1 & H2 & _). by eapply cinv_frame.
    + by eapply cinv_loop.
    + eapply cinv_frame; [exact IH|done|reflexivity|by intros ??? ?%elem_of_list_singleton|by intros ???? ?%elem_of_list_singleton].
    + destruct (el_subs s !! u) as [[n l]|]; [|done]. eapply cinv_frame; [exact IH|done|reflexivity|by intros ??? ?%elem_of_list_singleton|by intros ???? ?%elem_of_list_singleton].
    + destruct (el_subs s !! u) as [[n l]|]; [|done]. eapply cinv_frame; [exact IH|done|reflexivity|by intros ??? ?%elem_of_list_singleton|by intros ???? ?%elem_of_list_singleton].
Qed.
