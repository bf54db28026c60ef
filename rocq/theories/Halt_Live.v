From stdpp Require Import prelude list_numbers.
From Coq Require Import ZArith Lia ZifyBool.
From Verif Require Import Base Halt_Model Halt_Proofs.
Local Open Scope Z_scope.

(** ** Bound on the events still to be published. *)
Global Instance hop_eq : EqDecision hop. Proof. solve_decision. Defined.
Global Instance rpc_eq : EqDecision rpc. Proof. solve_decision. Defined.
Definition pubs (c : caller) : nat := length (filter (fun o => o = OPub) (c_todo c)).
Definition bound (s : hst) : Z := h_cursor s + Z.of_nat (sum_list_with pubs (h_callers s)).
Lemma sum_insert {A} (f : A -> nat) (l : list A) t x x' : l !! t = Some x -> (sum_list_with f (<[t:=x']> l) + f x = sum_list_with f l + f x')%nat.
Proof. revert t; induction l as [|a l IH]; intros [|t] H; try done; simpl in *; [injection H as ->; lia|]. specialize (IH t H). lia. Qed.
Lemma sum_insert_same {A} (f : A -> nat) (l : list A) t x x' : l !! t = Some x -> f x' = f x -> sum_list_with f (<[t:=x']> l) = sum_list_with f l.
Proof. intros H E. pose proof (sum_insert f l t x x' H). lia. Qed.
Lemma bound_step g s a : bound (hstep g s a) = bound s.
Proof.
  unfold bound. destruct a as [o w|t]; cbn [hstep].
  - unfold run_step. destruct (h_run s);
      repeat match goal with |- context [if ?b then _ else _] => destruct b end; try done.
    + by destruct w, (h_strat g).
    + by destruct w, (h_strat g).
    + by destruct o.
  - unfold call_step. destruct (h_callers s !! t) as [[[] todo]|] eqn:Ht; [| | | |done].
    + destruct todo as [|[] rest]; [done| | | |].
      * cbn. by rewrite (sum_insert_same pubs _ _ _ _ Ht).
      * cbn. pose proof (sum_insert pubs _ _ _ (Caller (sig_pc g) rest) Ht) as H. unfold pubs in *. cbn [c_todo] in H. rewrite filter_cons_True in H by done. cbn in H. lia.
      * destruct (h_running s); [|done]. cbn. by rewrite (sum_insert_same pubs _ _ _ _ Ht).
      * destruct (finished (h_run s)); [|done]. cbn. by rewrite (sum_insert_same pubs _ _ _ _ Ht).
    + cbn. by rewrite (sum_insert_same pubs _ _ _ _ Ht).
    + cbn. by rewrite (sum_insert_same pubs _ _ _ _ Ht).
    + destruct (h_owned s); [done|]. cbn. by rewrite (sum_insert_same pubs _ _ _ _ Ht).
Qed.
Lemma bound_le s : h_cursor s <= bound s.
Proof. unfold bound. lia. Qed.

(** ** Signals in progress. *)
Definition is_sig (c : caller) : bool := match c_pc c with CSig => true | _ => false end.
Definition is_exch (c : caller) : bool := match c_pc c with CExch => true | _ => false end.
Definition csigb (s : hst) : bool := existsb is_sig (h_callers s).
Lemma csigb_true s : csigb s = true <-> csig s.
Proof.
  unfold csigb. rewrite existsb_exists. split.
  - intros (c & Hc & E). apply elem_of_list_In, elem_of_list_lookup in Hc as [t Ht]. exists t, c. split; [done|]. unfold is_sig in E. by destruct (c_pc c).
  - intros (t & c & Ht & E). exists c. split; [apply elem_of_list_In; by eapply elem_of_list_lookup_2|]. unfold is_sig. by rewrite E.
Qed.
Definition woken_step (s : hst) (a : hact) : bool :=
  match a with
  | HCall t => match h_callers s !! t with Some c => if csigb s then is_sig c else is_exch c | None => false end
  | HRun _ _ => false
  end.
Definition helpful (s : hst) (a : hact) : bool :=
  match h_run s with RAsleep false => woken_step s a | _ => match a with HRun _ _ => true | HCall _ => false end end.
(** What a step of another thread does while the consumer is asleep. *)
Lemma call_asleep g s t : WInv g s -> h_run s = RAsleep false ->
  let s' := call_step g s t in
  (h_run s' = RAsleep true) \/
  (h_run s' = RAsleep false /\ (csigb s = true -> csigb s' = true) /\
   (woken_step s (HCall t) = true -> csigb s = false /\ h_needed s = true /\ csigb s' = true) /\
   (woken_step s (HCall t) = false -> csigb s' = csigb s -> forall b, woken_step s b = true -> woken_step s' b = true)).
Proof.
  intros W Hpc. cbv zeta. pose proof W as [W1 W2 W3 W4 W5 W6]. rewrite Hpc in W1, W6. cbn in W1.
  assert (Hgen : forall c c' running' alerted' needed' cursor', h_callers s !! t = Some c -> is_sig c = false ->
     let s' := c_set s t c' running' alerted' needed' cursor' (h_run s) in
     (csigb s = true -> csigb s' = true) /\ (is_exch c = false -> csigb s' = csigb s -> forall b, woken_step s b = true -> woken_step s' b = true)).
  { intros c c' running' alerted' needed' cursor' Ht Hc. cbv zeta. set (s' := c_set _ _ _ _ _ _ _ _).
    assert (H1 : csigb s = true -> csigb s' = true).
    { rewrite !csigb_true. intros H. apply (at_ins _ s s' t c c' Ht eq_refl H). unfold is_sig in Hc. intros E. by rewrite E in Hc. }
    split; [done|]. intros He Es b Hb. unfold woken_step in *. destruct b as [|u]; [done|]. rewrite Es. cbn [h_callers s' c_set].
    destruct (decide (u = t)) as [->|Hne]; [|by rewrite list_lookup_insert_ne]. rewrite Ht in Hb. rewrite Hc, He in Hb. by destruct (csigb s). }
  unfold call_step. destruct (h_callers s !! t) as [[pc todo]|] eqn:Ht.
  2:{ right. split; [done|]. split; [done|]. split; [unfold woken_step; by rewrite Ht|auto]. }
  assert (Hs : forall s', h_run s' = RAsleep false -> pc <> CSig -> pc <> CExch -> (exists c' running' alerted' needed' cursor', s' = c_set s t c' running' alerted' needed' cursor' (h_run s)) \/ s' = s ->
    (h_run s' = RAsleep true) \/
    (h_run s' = RAsleep false /\ (csigb s = true -> csigb s' = true) /\
     (woken_step s (HCall t) = true -> csigb s = false /\ h_needed s = true /\ csigb s' = true) /\
     (woken_step s (HCall t) = false -> csigb s' = csigb s -> forall b, woken_step s b = true -> woken_step s' b = true))).
  { intros s' Hr Hn1 Hn2 H. right. split; [done|].
    assert (Hw : woken_step s (HCall t) = false) by (unfold woken_step; rewrite Ht; unfold is_sig, is_exch; cbn; destruct pc, (csigb s); done).
    destruct H as [(c' & r' & a' & n' & cu' & ->)| ->]; [|rewrite Hw; done].
    assert (Hsig : is_sig (Caller pc todo) = false) by (unfold is_sig; cbn; by destruct pc).
    assert (Hex : is_exch (Caller pc todo) = false) by (unfold is_exch; cbn; by destruct pc).
    destruct (Hgen _ c' r' a' n' cu' eq_refl Hsig) as [H1 H2].
    rewrite Hw. split; [done|]. split; [done|]. intros _. by apply H2. }
  destruct pc.
  - destruct todo as [|[] rest]; [apply Hs; auto|apply Hs; cbn; eauto 8|apply Hs; cbn; eauto 8| |].
    + destruct (h_running s); apply Hs; cbn; eauto 8.
    + rewrite Hpc. apply Hs; cbn; eauto 8.
  - apply Hs; cbn; eauto 8.
  - right. split; [done|]. destruct (Hgen _ (Caller (if h_needed s then CSig else CIdle) todo) (h_running s) (h_alerted s) false (h_cursor s) eq_refl eq_refl) as [H1 _].
    split; [done|]. assert (Hl : lite g) by (apply W5; by exists t, (Caller CExch todo)).
    unfold woken_step at 1 2. rewrite Ht. unfold is_sig, is_exch. cbn [c_pc]. destruct (csigb s) eqn:Ec.
    + split; [done|]. intros _ Es b Hb. unfold woken_step in *. destruct b as [|u]; [done|]. rewrite Es. rewrite Ec in Hb. cbn [h_callers c_set].
      destruct (decide (u = t)) as [->|Hne]; [by rewrite Ht in Hb|by rewrite list_lookup_insert_ne].
    + split; [|done]. intros _. destruct W6 as [_ W6]. destruct (W6 Hl) as [En|Hcs]; [|apply csigb_true in Hcs; congruence]. split; [done|]. split; [done|].
      apply csigb_true. eapply at_new; [exact Ht|reflexivity|]. cbn. by rewrite En.
  - left. rewrite W1. cbn. by rewrite Hpc.
Qed.
Lemma call_awake g s t : h_run s <> RAsleep false -> h_run (call_step g s t) = h_run s.
Proof.
  intros H. unfold call_step. destruct (h_callers s !! t) as [[[] [|[] ?]]|]; try done; try (by destruct (h_running s)); try (by destruct (finished (h_run s)));
    destruct (h_owned s); try done; cbn; destruct (h_run s) as [| | | | | | | |[]| | | | | | | | | |]; done.
Qed.
Lemma call_next g s t : h_next (call_step g s t) = h_next s.
Proof.
  unfold call_step. destruct (h_callers s !! t) as [[[] [|[] ?]]|]; try done; try (by destruct (h_running s)); try (by destruct (finished (h_run s)));
    by destruct (h_owned s).
Qed.

(** ** After halt(). *)
Record Halted (g : hcfg) (s : hst) : Prop := {
  hd_w : WInv g s; hd_q : QInv s;
  hd_run : h_running s = false; hd_al : h_alerted s = true;
  hd_pc : match h_run s with RCas | RClear => False | _ => True end
}.
Definition dmax (s : hst) : nat := (5 + Z.to_nat (bound s + 1 - h_next s))%nat.
Definition hrank (s : hst) : nat :=
  match h_run s with
  | RDone | RThrew => 0
  | RStop | RFail => 1
  | RAlert => 2
  | RCheck | RDepAl | RAl => 3
  | RHandle nx avail => 4 + Z.to_nat (avail + 1 - nx)
  | RDep => dmax s
  | RCur => 1 + dmax s
  | RNeed => 2 + dmax s
  | RCur2 | RLock => 3 + dmax s
  | RFast | RRelock _ => 4 + dmax s
  | RAsleep true => 5 + dmax s
  | RAsleep false => (if csigb s then 6 else 7) + dmax s
  | RCas | RClear => 0
  end.
Lemma halted_step g s a : (h_tso g = true -> h_strat g <> LiteBlocking) -> Halted g s -> Halted g (hstep g s a).
Proof.
  intros Ht [H1 H2 H3 H4 H5]. pose proof (winv_step g s a Ht H1) as W. pose proof (qinv_step g s a H2) as Q. constructor; [done|done| | |]; clear W Q.
  - destruct a as [o w|t]; cbn [hstep].
    + unfold run_step. destruct (h_run s); try done; repeat match goal with |- context [if ?b then _ else _] => destruct b eqn:? end; try done; destruct w, (h_strat g), o; done.
    + unfold call_step. destruct (h_callers s !! t) as [[[] [|[] ?]]|]; try done; repeat match goal with |- context [if ?b then _ else _] => destruct b eqn:? end; done.
  - destruct a as [o w|t]; cbn [hstep].
    + unfold run_step. destruct (h_run s); try done; repeat match goal with |- context [if ?b then _ else _] => destruct b eqn:? end; try done; destruct w, (h_strat g), o; done.
    + unfold call_step. destruct (h_callers s !! t) as [[[] [|[] ?]]|]; try done; repeat match goal with |- context [if ?b then _ else _] => destruct b eqn:? end; done.
  - destruct a as [o w|t]; cbn [hstep].
    + unfold run_step. destruct (h_run s) as [| | | | | | | |wk|to| | | |nx avail| | | | |] eqn:E; try done; repeat match goal with |- context [if ?b then _ else _] => destruct b eqn:? end; try done; destruct w, (h_strat g), o; cbn; rewrite ?E; done.
    + destruct (decide (h_run s = RAsleep false)) as [E|E]; [|by rewrite call_awake].
      destruct (call_asleep g s t H1 E) as [->|[-> _]]; done.
Qed.
Lemma hrank_run g s o w : Halted g s -> helpful s (HRun o w) = true -> hrank s <> 0%nat -> (hrank (run_step g s o w) < hrank s)%nat.
Proof.
  intros [H1 [Q1 Q2 _] H3 H4 H5] Hh Hr. assert (Hb : bound (run_step g s o w) = bound s) by apply (bound_step g s (HRun o w)).
  pose proof (bound_le s) as Hle. unfold helpful in Hh. unfold hrank in *. unfold dmax in *. rewrite Hb. clear Hb.
  unfold run_step. destruct (h_run s) as [| | | | | | | |wk|to| | | |nx avail| | | | |] eqn:E; try done; rewrite ?H3, ?H4; try (cbn; lia).
  - destruct (_ <? _); cbn; lia.
  - destruct (h_strat g); cbn; lia.
  - destruct (h_tso g); cbn; lia.
  - destruct (_ <? _); cbn; lia.
  - destruct wk; [|done]. destruct w, (h_strat g); cbn; lia.
  - destruct to; [cbn; lia|]. destruct (h_strat g); cbn; lia.
  - destruct (_ <? _); cbn; lia.
  - destruct (Z.ltb_spec (h_cursor s) (h_next s)); cbn; lia.
  - destruct (Z.leb_spec nx avail); [destruct o; cbn; lia|cbn; lia].
Qed.
Lemma hrank_call g s t : Halted g s -> hrank s <> 0%nat ->
  (hrank (call_step g s t) <= hrank s)%nat /\
  (helpful s (HCall t) = true -> (hrank (call_step g s t) < hrank s)%nat) /\
  (hrank (call_step g s t) = hrank s -> forall b, helpful s b = true -> helpful (call_step g s t) b = true).
Proof.
  intros H Hr. assert (Hb : bound (call_step g s t) = bound s) by apply (bound_step g s (HCall t)). assert (Hn := call_next g s t).
  assert (Hd : dmax (call_step g s t) = dmax s) by (unfold dmax; by rewrite Hb, Hn).
  destruct (decide (h_run s = RAsleep false)) as [E|E].
  - unfold hrank, helpful in *. rewrite Hd, E in *. destruct (call_asleep g s t (hd_w _ _ H) E) as [->|(-> & H1 & H2 & H3)].
    + destruct (csigb s); (split; [lia|]); (split; [lia|lia]).
    + destruct (woken_step s (HCall t)) eqn:Ew.
      * destruct (H2 eq_refl) as (E1 & _ & E2). rewrite E1, E2. split; [lia|]. split; [lia|lia].
      * split; [destruct (csigb s); [rewrite H1 by done; lia|destruct (csigb _); lia]|]. split; [done|]. intros Hrk. apply H3; [done|].
        destruct (csigb s); [by apply H1|]. destruct (csigb _); [lia|done].
  - pose proof (call_awake g s t E) as E2. unfold hrank, helpful in *. rewrite E2, Hd in *.
    split. { destruct (h_run s) as [| | | | | | | |[]| | | | | | | | | |]; try done. }
    split. { destruct (h_run s) as [| | | | | | | |[]| | | | | | | | | |]; done. }
    intros _ b. destruct (h_run s) as [| | | | | | | |[]| | | | | | | | | |]; done.
Qed.
(** A round gives a step to every thread. *)
Definition all_threads (n : nat) (l : list hact) : Prop := (exists o w, HRun o w ∈ l) /\ (forall t, (t < n)%nat -> HCall t ∈ l).
Lemma callers_length g s a : length (h_callers (hstep g s a)) = length (h_callers s).
Proof.
  destruct a as [o w|t]; cbn [hstep].
  - unfold run_step. destruct (h_run s); repeat match goal with |- context [if ?b then _ else _] => destruct b end; try done; destruct w, (h_strat g), o; done.
  - unfold call_step. destruct (h_callers s !! t) as [[[] [|[] ?]]|]; repeat match goal with |- context [if ?b then _ else _] => destruct b end; cbn; rewrite ?insert_length; done.
Qed.
Lemma round_helpful g n l s : WInv g s -> (match h_run s with RAsleep false => h_alerted s = true \/ h_next s <= h_cursor s | _ => True end) ->
  length (h_callers s) = n -> all_threads n l -> Exists (fun a => helpful s a = true) l.
Proof.
  intros W Hw Hn [(o & w & Hr) Hc]. unfold helpful. apply Exists_exists. destruct (h_run s) as [| | | | | | | |[]| | | | | | | | | |] eqn:E; try (by exists (HRun o w)).
  pose proof (w_sig _ _ W) as Hs. rewrite E in Hs. destruct Hs as [Hs _]. destruct (Hs Hw) as (t & c & Ht & Hp).
  destruct (csigb s) eqn:Ec.
  - pose proof (proj1 (csigb_true s) Ec) as (u & d & Hu & Hd). exists (HCall u). split; [apply Hc; rewrite <-Hn; by eapply lookup_lt_Some|].
    unfold woken_step. rewrite Hu, Ec. unfold is_sig. by rewrite Hd.
  - exists (HCall t). split; [apply Hc; rewrite <-Hn; by eapply lookup_lt_Some|]. unfold woken_step. rewrite Ht, Ec.
    destruct Hp as [Hp|Hp]; [unfold is_exch; by rewrite Hp|]. assert (csigb s = true) by (apply csigb_true; by exists t, c). congruence.
Qed.
Lemma halt_stops g s rounds : (h_tso g = true -> h_strat g <> LiteBlocking) -> Halted g s -> Forall (all_threads (length (h_callers s))) rounds -> (hrank s <= length rounds)%nat ->
  finished (h_run (hrun g s (concat rounds))) = true.
Proof.
  intros Ht H Hr Hlen. set (n := length (h_callers s)) in *.
  destruct (fair_progress (hstep g) (fun s => Halted g s /\ length (h_callers s) = n) hrank helpful) with (rounds := rounds) (s := s) as (pre & suf & E & H0).
  - intros s0 a [I In] H0. split; [split; [by apply halted_step|by rewrite callers_length]|]. destruct a as [o w|t]; cbn [hstep].
    + destruct (helpful s0 (HRun o w)) eqn:Eh; [pose proof (hrank_run g s0 o w I Eh H0); lia|]. unfold helpful in Eh. unfold run_step.
      destruct (h_run s0) as [| | | | | | | |[]| | | | | | | | | |] eqn:Ep; try done. unfold hrank. rewrite Ep. unfold dmax.
      destruct w, (h_strat g); cbn; rewrite ?Ep; unfold csigb, bound; cbn; destruct (existsb _ _); lia.
    + by apply hrank_call.
  - intros s0 a [I In] H0 Hh. destruct a as [o w|t]; cbn [hstep]; [by apply hrank_run|by apply hrank_call].
  - intros s0 a [I In] H0 Hs b Hb. destruct a as [o w|t]; cbn [hstep] in *; [|by apply (hrank_call g s0 t I H0)].
    destruct (helpful s0 (HRun o w)) eqn:Eh; [pose proof (hrank_run g s0 o w I Eh H0); lia|].
    unfold helpful in Eh. unfold run_step in *. destruct (h_run s0) as [| | | | | | | |[]| | | | | | | | | |] eqn:Ep; try done.
    unfold hrank in Hs. rewrite Ep in Hs. unfold helpful in Hb. rewrite Ep in Hb.
    destruct w, (h_strat g) eqn:Eg; unfold helpful; rewrite ?Ep; try done; cbn in Hs; unfold csigb, dmax, bound in Hs; cbn in Hs; destruct (existsb _ _); lia.
  - done.
  - eapply Forall_impl; [exact Hr|]. intros l Hl s0 [I In] H0. apply (round_helpful g n); [apply I| |done|done].
    destruct (h_run s0) as [| | | | | | | |[]| | | | | | | | | |]; try done. left. apply I.
  - done.
  - rewrite E, hrun_app.
    assert (Hfin : finished (h_run (hrun g s pre)) = true).
    { change (fold_left (hstep g) pre s) with (hrun g s pre) in H0. unfold hrank in H0.
      assert (Hd : Halted g (hrun g s pre)). { clear -Ht H. revert s H. induction pre as [|a pre IH]; intros s H; [done|]. cbn. apply IH. by apply halted_step. }
      pose proof (hd_pc _ _ Hd). destruct (h_run (hrun g s pre)) as [| | | | | | | |[]| | | | | | | | | |]; try done; destruct (csigb _); done. }
    clear -Hfin. set (s1 := hrun g s pre) in *. clearbody s1. revert s1 Hfin. induction suf as [|a suf IH]; intros s1 Hf; [done|]. cbn. apply IH.
    destruct a as [o w|t]; cbn [hstep]; [unfold run_step; by destruct (h_run s1) eqn:Ep; rewrite ?Ep|]. rewrite call_awake; [done|]. by intros E; rewrite E in Hf.
Qed.

(** ** Without halt(): no wake-up is lost. *)
Definition calm_caller (c : caller) : Prop := c_pc c <> CAlert /\ OHalt ∉ c_todo c.
Record Awake (g : hcfg) (T : Z) (s : hst) : Prop := {
  aw_w : WInv g s; aw_q : QInv s;
  aw_calm : forall t c, h_callers s !! t = Some c -> calm_caller c;
  aw_al : h_alerted s = false;
  aw_pc : match h_run s with RAlert | RStop | RDone => False | RCas => h_running s = false | _ => True end;
  aw_T : T <= h_cursor s
}.
Definition wphase (s : hst) : nat :=
  match h_run s with
  | RHandle nx avail => if nx <=? avail then 1 else 8
  | RDep => 2 | RDepAl | RCur | RCur2 => 3 | RNeed => 4 | RLock => 5 | RFast | RRelock false => 6 | RCheck => 7 | RRelock true => 8
  | RAsleep true => 9 | RAsleep false => if csigb s then 10 else 11 | RAl => 12 | RClear => 13 | RCas => 14
  | _ => 0
  end.
Definition wrank (T : Z) (s : hst) : nat :=
  match h_run s with
  | RFail | RThrew | RStop | RDone | RAlert => 0
  | _ => if T <? h_next s then 0 else Z.to_nat (T + 1 - h_next s) * 20 + wphase s
  end.
Lemma calm_step g s a : (forall t c, h_callers s !! t = Some c -> calm_caller c) -> forall t c, h_callers (hstep g s a) !! t = Some c -> calm_caller c.
Proof.
  intros H. destruct a as [o w|u]; cbn [hstep].
  - assert (E : h_callers (run_step g s o w) = h_callers s); [|by rewrite E].
    unfold run_step. destruct (h_run s); repeat match goal with |- context [if ?b then _ else _] => destruct b end; try done; destruct w, (h_strat g), o; done.
  - intros t c Hc. unfold call_step in Hc. destruct (h_callers s !! u) as [[pc todo]|] eqn:Hu; [|by eapply H].
    pose proof (H u _ Hu) as [H1 H2]. cbn in H1, H2.
    assert (Hins : forall c', calm_caller c' -> <[u := c']> (h_callers s) !! t = Some c -> calm_caller c).
    { intros c' Hc' Hi. apply list_lookup_insert_case in Hi as [[-> ->]|[_ Hi]]; [done|by eapply H]. }
    destruct pc; [destruct todo as [|[] rest]| | |].
    + by eapply H.
    + exfalso. apply H2. left.
    + apply not_elem_of_cons in H2 as [_ H2]. eapply Hins, Hc. split; [unfold sig_pc; cbn; by destruct (h_strat g)|done].
    + apply not_elem_of_cons in H2 as [_ H2]. destruct (h_running s); [|by eapply H]. by eapply Hins, Hc.
    + apply not_elem_of_cons in H2 as [_ H2]. destruct (finished (h_run s)); [|by eapply H]. by eapply Hins, Hc.
    + done.
    + eapply Hins, Hc. split; [|done]. cbn. by destruct (h_needed s).
    + destruct (h_owned s); [by eapply H|]. by eapply Hins, Hc.
Qed.
Lemma awake_step g T s a : (h_tso g = true -> h_strat g <> LiteBlocking) -> Awake g T s -> Awake g T (hstep g s a).
Proof.
  intros Ht [H1 H2 H3 H4 H5 H6]. pose proof (winv_step g s a Ht H1) as W. pose proof (qinv_step g s a H2) as Q. pose proof (calm_step g s a H3) as C. constructor; [done|done|done| | |]; clear W Q C.
  - destruct a as [o w|t]; cbn [hstep].
    + unfold run_step. destruct (h_run s); try done; repeat match goal with |- context [if ?b then _ else _] => destruct b eqn:? end; try done; destruct w, (h_strat g), o; done.
    + unfold call_step. destruct (h_callers s !! t) as [[pc todo]|] eqn:Hu; [|done]. destruct (H3 t _ Hu) as [Hc _]. cbn in Hc.
      destruct pc; [destruct todo as [|[] ?]| | |]; try done; repeat match goal with |- context [if ?b then _ else _] => destruct b eqn:? end; done.
  - destruct a as [o w|t]; cbn [hstep].
    + unfold run_step. destruct (h_run s) as [| | | | | | | |wk|to| | | |nx avail| | | | |] eqn:E; rewrite ?H4; try done; repeat match goal with |- context [if ?b then _ else _] => destruct b eqn:? end; try done;
        destruct w, (h_strat g), o; cbn; rewrite ?E; done.
    + destruct (decide (h_run s = RAsleep false)) as [E|E].
      * destruct (call_asleep g s t H1 E) as [->|[-> _]]; done.
      * rewrite call_awake by done. destruct (h_run s) eqn:Ep; try done. unfold call_step.
        destruct (h_callers s !! t) as [[[] [|[] ?]]|] eqn:Hu; try done; repeat match goal with |- context [if ?b then _ else _] => destruct b eqn:? end; done.
  - destruct a as [o w|t]; cbn [hstep].
    + unfold run_step. destruct (h_run s); repeat match goal with |- context [if ?b then _ else _] => destruct b eqn:? end; try done; destruct w, (h_strat g), o; done.
    + unfold call_step. destruct (h_callers s !! t) as [[[] [|[] ?]]|] eqn:Hu; try done; repeat match goal with |- context [if ?b then _ else _] => destruct b eqn:? end; cbn; try done. lia.
Qed.
Lemma wrank_run g T s o w : Awake g T s -> helpful s (HRun o w) = true -> wrank T s <> 0%nat -> (wrank T (run_step g s o w) < wrank T s)%nat.
Proof.
  intros [H1 [Q1 Q2 _] H3 H4 H5 H6] Hh Hr. unfold helpful in Hh. unfold wrank in *.
  destruct (h_run s) as [| | | | | | | |wk|to| | | |nx avail| | | | |] eqn:E; try done; destruct (Z.ltb_spec T (h_next s)) as [|HT]; try done;
    unfold run_step; unfold wphase; rewrite E, ?H4.
  - rewrite H5. cbn [h_run h_next r_set r_goto]. destruct (Z.ltb_spec T (h_next s)); lia.
  - cbn [h_run h_next r_set r_goto]. destruct (Z.ltb_spec T (h_next s)); lia.
  - destruct (h_strat g); cbn [h_run h_next r_set r_goto]; destruct (Z.ltb_spec T (h_next s)); lia.
  - destruct (Z.ltb_spec (h_cursor s) (h_next s)); [lia|]. cbn [h_run h_next r_set r_goto]. destruct (Z.ltb_spec T (h_next s)); lia.
  - destruct (h_strat g); cbn [h_run h_next r_lock r_set r_goto]; destruct (Z.ltb_spec T (h_next s)); lia.
  - destruct (h_tso g); cbn [h_run h_next r_set r_goto]; destruct (Z.ltb_spec T (h_next s)); lia.
  - destruct (Z.ltb_spec (h_cursor s) (h_next s)); [lia|]. cbn [h_run h_next r_unlock r_set r_goto]. destruct (Z.ltb_spec T (h_next s)); lia.
  - cbn [h_run h_next r_unlock r_set r_goto]. destruct (csigb _), (Z.ltb_spec T (h_next s)); lia.
  - destruct wk; [|done]. destruct w, (h_strat g); cbn [h_run h_next r_set r_goto]; destruct (Z.ltb_spec T (h_next s)); lia.
  - destruct to; [|destruct (h_strat g)]; cbn [h_run h_next r_unlock r_lock r_set r_goto]; destruct (Z.ltb_spec T (h_next s)); lia.
  - destruct (Z.ltb_spec (h_cursor s) (h_next s)); [lia|]. cbn [h_run h_next r_unlock r_set r_goto]. destruct (Z.ltb_spec T (h_next s)); lia.
  - destruct (Z.ltb_spec (h_cursor s) (h_next s)); [lia|]. cbn [h_run h_next r_unlock r_set r_goto]. destruct (Z.ltb_spec T (h_next s)); [lia|]. destruct (Z.leb_spec (h_next s) (h_cursor s)); lia.
  - cbn [h_run h_next r_set r_goto]. destruct (Z.ltb_spec T (h_next s)); lia.
  - destruct Q1 as (-> & Q3 & Q4). destruct (Z.leb_spec (h_next s) avail).
    + destruct o; cbn [h_run h_next r_seq]; try lia.
      * destruct (Z.ltb_spec T (h_next s + 1)); [lia|]. destruct (Z.leb_spec (h_next s + 1) avail); lia.
      * destruct (Z.ltb_spec T (h_next s + 1)); lia.
    + cbn [h_run h_next r_seq]. destruct (Z.ltb_spec T (h_next s)); lia.
Qed.
Lemma wrank_call g T s t : Awake g T s -> wrank T s <> 0%nat ->
  (wrank T (call_step g s t) <= wrank T s)%nat /\
  (helpful s (HCall t) = true -> (wrank T (call_step g s t) < wrank T s)%nat) /\
  (wrank T (call_step g s t) = wrank T s -> forall b, helpful s b = true -> helpful (call_step g s t) b = true).
Proof.
  intros H Hr. assert (Hn := call_next g s t).
  destruct (decide (h_run s = RAsleep false)) as [E|E].
  - unfold wrank, wphase, helpful in *. rewrite Hn, E in *. destruct (T <? h_next s) eqn:ET; [done|]. destruct (call_asleep g s t (aw_w _ _ _ H) E) as [->|(-> & H1 & H2 & H3)].
    + destruct (csigb s); (split; [lia|]); (split; [lia|lia]).
    + destruct (woken_step s (HCall t)) eqn:Ew.
      * destruct (H2 eq_refl) as (E1 & _ & E2). rewrite E1, E2. split; [lia|]. split; [lia|lia].
      * split; [destruct (csigb s); [rewrite H1 by done; lia|destruct (csigb _); lia]|]. split; [done|]. intros Hrk. apply H3; [done|].
        destruct (csigb s); [by apply H1|]. destruct (csigb _); [lia|done].
  - pose proof (call_awake g s t E) as E2. unfold wrank, wphase, helpful in *. rewrite E2, Hn in *.
    split. { destruct (h_run s) as [| | | | | | | |[]|[]| | | | | | | | |]; try done; destruct (_ <? _); lia. }
    split. { destruct (h_run s) as [| | | | | | | |[]| | | | | | | | | |]; done. }
    intros _ b. destruct (h_run s) as [| | | | | | | |[]| | | | | | | | | |]; done.
Qed.
Lemma next_mono g s a : QInv s -> h_next s <= h_next (hstep g s a).
Proof.
  intros [Q1 Q2 Q3]. destruct a as [o w|t]; cbn [hstep]; [|rewrite call_next; lia].
  unfold run_step. destruct (h_run s); repeat match goal with |- context [if ?b then _ else _] => destruct b end; cbn; try lia; destruct w, (h_strat g), o; cbn; lia.
Qed.
Definition failed (pc : rpc) : bool := match pc with RFail | RThrew => true | _ => false end.
Lemma failed_stays g s a : failed (h_run s) = true -> failed (h_run (hstep g s a)) = true.
Proof.
  intros H. destruct a as [o w|t]; cbn [hstep]; [unfold run_step; by destruct (h_run s) eqn:E; rewrite ?E|]. rewrite call_awake; [done|]. intros E. by rewrite E in H.
Qed.
Lemma wakes g T s rounds : (h_tso g = true -> h_strat g <> LiteBlocking) -> Awake g T s -> Forall (all_threads (length (h_callers s))) rounds -> (wrank T s <= length rounds)%nat ->
  T < h_next (hrun g s (concat rounds)) \/ failed (h_run (hrun g s (concat rounds))) = true.
Proof.
  intros Ht H Hr Hlen. set (n := length (h_callers s)) in *.
  assert (Hasl : forall s0 o w, Awake g T s0 -> helpful s0 (HRun o w) = false -> wrank T s0 <> 0%nat ->
    (wrank T (run_step g s0 o w) < wrank T s0)%nat \/ run_step g s0 o w = s0).
  { intros s0 o w I Eh H0. unfold helpful in Eh. unfold run_step. unfold wrank in *.
    destruct (h_run s0) as [| | | | | | | |[]| | | | | | | | | |] eqn:Ep; try done. destruct (T <? h_next s0) eqn:ET; [done|]. unfold wphase. rewrite Ep.
    destruct w, (h_strat g); try (by right); left; cbn [h_run h_next r_set r_goto]; rewrite ET; destruct (csigb _); lia. }
  destruct (fair_progress (hstep g) (fun s => Awake g T s /\ length (h_callers s) = n) (wrank T) helpful) with (rounds := rounds) (s := s) as (pre & suf & E & H0).
  - intros s0 a [I In] H0. split; [split; [by apply awake_step|by rewrite callers_length]|]. destruct a as [o w|t]; cbn [hstep].
    + destruct (helpful s0 (HRun o w)) eqn:Eh; [pose proof (wrank_run g T s0 o w I Eh H0); lia|]. destruct (Hasl s0 o w I Eh H0) as [? | ->]; lia.
    + by apply wrank_call.
  - intros s0 a [I In] H0 Hh. destruct a as [o w|t]; cbn [hstep]; [by apply wrank_run|by apply wrank_call].
  - intros s0 a [I In] H0 Hs b Hb. destruct a as [o w|t]; cbn [hstep] in *; [|by apply (wrank_call g T s0 t I H0)].
    destruct (helpful s0 (HRun o w)) eqn:Eh; [pose proof (wrank_run g T s0 o w I Eh H0); lia|]. destruct (Hasl s0 o w I Eh H0) as [? | ->]; [lia|done].
  - done.
  - eapply Forall_impl; [exact Hr|]. intros l Hl s0 [I In] H0. apply (round_helpful g n); [apply I| |done|done].
    unfold wrank in H0. pose proof (aw_T _ _ _ I). destruct (h_run s0) as [| | | | | | | |[]| | | | | | | | | |]; try done. right. destruct (Z.ltb_spec T (h_next s0)); [done|lia].
  - done.
  - rewrite E, hrun_app. assert (Hd : Awake g T (hrun g s pre)). { clear -Ht H. revert s H. induction pre as [|a pre IH]; intros s H; [done|]. cbn. apply IH. by apply awake_step. }
    assert (Hfin : T < h_next (hrun g s pre) \/ failed (h_run (hrun g s pre)) = true).
    { change (fold_left (hstep g) pre s) with (hrun g s pre) in H0. unfold wrank, wphase in H0. pose proof (aw_pc _ _ _ Hd) as Hp.
      destruct (h_run (hrun g s pre)) as [| | | | | | | |[]|[]| | | |nx avail| | | | |]; try done; try (by right);
        left; destruct (Z.ltb_spec T (h_next (hrun g s pre))); try done; lia. }
    apply aw_q in Hd. clear -Hfin Hd. set (s1 := hrun g s pre) in *. clearbody s1. revert s1 Hfin Hd. induction suf as [|a suf IH]; intros s1 Hf Hd; [done|]. cbn. apply IH; [|by apply qinv_step].
    destruct Hf as [Hf|Hf]; [left; pose proof (next_mono g s1 a Hd); lia|right; by apply failed_stays].
Qed.
