(** * C79: stopping a consumer returns. On Halt_Model.v: the program [OAwaitRunning; OHalt; OJoin] is what EventLoop::stop (event_loop.h 127-140: without the wait, see below),
    DataMultiplexerListener::stop (data_multiplexer_listener.h 97-110) and the destructor of DataMultiplexerSubscriber (data_multiplexer_subscriber.h 109-122) execute. *)
From stdpp Require Import prelude list_numbers.
From Coq Require Import ZArith Lia ZifyBool.
From Verif Require Import Base Halt_Model Halt_Proofs Halt_Live Halt_Props.
Local Open Scope Z_scope.

Global Instance hout_eq_dec : EqDecision hout. Proof. solve_decision. Defined.
Global Instance wake_eq_dec : EqDecision wake. Proof. solve_decision. Defined.
Global Instance hact_eq_dec : EqDecision hact. Proof. solve_decision. Defined.
(** What stop() does; the data multiplexer waits for is_running() first. *)
Definition stop_ops : list hop := [OHalt; OJoin].
(** Before the halt: nobody has alerted the consumer, it is in its loop. *)
Record Alive (g : hcfg) (t : nat) (r : bool) (s : hst) : Prop := {
  al_w : WInv g s; al_q : QInv s;
  al_al : h_alerted s = false;
  al_pc : match h_run s with RAlert | RStop | RDone | RFail | RThrew => False | RCas => h_running s = false /\ r = true | _ => h_running s = r end;
  al_calm : forall u c, u <> t -> h_callers s !! u = Some c -> calm_caller c
}.
Lemma call_other g s u t : u <> t -> h_callers (call_step g s u) !! t = h_callers s !! t.
Proof. intros H. unfold call_step. destruct (h_callers s !! u) as [[[] [|[] ?]]|]; try done; repeat match goal with |- context [if ?b then _ else _] => destruct b end; cbn; rewrite ?list_lookup_insert_ne by done; done. Qed.
Lemma alive_step g t r s a : (h_tso g = true -> h_strat g <> LiteBlocking) -> no_other a -> a <> HCall t -> Alive g t r s -> Alive g t r (hstep g s a).
Proof.
  intros Ht Ho Ha [W Q A P C]. pose proof (winv_step g s a Ht W) as W'. pose proof (qinv_step g s a Q) as Q'. destruct a as [o w|u]; cbn [hstep] in *.
  - constructor; [done|done| | |by rewrite run_callers]; clear W' Q' W Q C; unfold run_step; destruct (h_run s) as [| | | | | | | |wk|to| | | |nx avail| | | | |] eqn:E; try done; rewrite ?A;
      try (match type of P with _ /\ _ => destruct P as [P ->] end; rewrite P; done); repeat match goal with |- context [if ?b then _ else _] => destruct b eqn:? end; try done; destruct w, (h_strat g), o; cbn; rewrite ?E; done.
  - assert (Hne : u <> t) by (intros ->; done). constructor; [done|done| | |].
    + unfold call_step. destruct (h_callers s !! u) as [[pc todo]|] eqn:Hu; [|done]. destruct (C u _ Hne Hu) as [Hc _]. cbn in Hc.
      destruct pc; [destruct todo as [|[] ?]| | |]; try done; repeat match goal with |- context [if ?b then _ else _] => destruct b eqn:? end; done.
    + assert (Er : h_running (call_step g s u) = h_running s).
      { unfold call_step. destruct (h_callers s !! u) as [[pc todo]|] eqn:Hu; [|done]. destruct (C u _ Hne Hu) as [Hc Hh]. cbn in Hc, Hh.
        destruct pc; [destruct todo as [|[] ?]| | |]; try done; repeat match goal with |- context [if ?b then _ else _] => destruct b eqn:? end; try done. exfalso. apply Hh. left. }
      destruct (decide (h_run s = RAsleep false)) as [E|E]; [|by rewrite call_awake, Er by done].
      rewrite Er. rewrite E in P. destruct (call_asleep g s u W E) as [->|[-> _]]; done.
    + intros v c Hv Hc. destruct (decide (u = v)) as [->|Huv]; [|rewrite call_other in Hc by done; by eapply C].
      unfold call_step in Hc. destruct (h_callers s !! v) as [[pc todo]|] eqn:Hu; [|by congruence].
      pose proof (C v _ Hv Hu) as [H1 H2]. cbn in H1, H2. assert (Hl : (v < length (h_callers s))%nat) by (by eapply lookup_lt_Some).
      assert (Hk : forall c', calm_caller c' -> <[v := c']> (h_callers s) !! v = Some c -> calm_caller c) by (intros c' Hc' Hi; rewrite list_lookup_insert in Hi by done; by injection Hi as <-).
      assert (Hk' : h_callers s !! v = Some c -> calm_caller c) by (intros E; by apply (C v)).
      destruct pc; [destruct todo as [|[] rest]| | |].
      * auto.
      * exfalso. apply H2. left.
      * apply not_elem_of_cons in H2 as [_ H2]. eapply Hk, Hc. split; [unfold sig_pc; cbn; by destruct (h_strat g)|done].
      * apply not_elem_of_cons in H2 as [_ H2]. destruct (h_running s); [|auto]. by eapply Hk, Hc.
      * apply not_elem_of_cons in H2 as [_ H2]. destruct (finished (h_run s)); [|auto]. by eapply Hk, Hc.
      * done.
      * eapply Hk, Hc. split; [|done]. cbn. by destruct (h_needed s).
      * destruct (h_owned s); [auto|]. by eapply Hk, Hc.
Qed.
(** A step of the stopping thread before its halt. *)
Lemma alive_pre g t s c c' : Alive g t true s -> h_callers s !! t = Some c -> call_step g s t = c_set s t c' (h_running s) (h_alerted s) (h_needed s) (h_cursor s) (h_run s) ->
  WInv g (call_step g s t) -> QInv (call_step g s t) -> Alive g t true (call_step g s t).
Proof.
  intros [W Q A P C] Hc E W' Q'. constructor; [done|done|by rewrite E|by rewrite E|]. intros u d Hu Hd. rewrite call_other in Hd by done. by eapply C.
Qed.

(** The stages of stop(). *)
Inductive stage (g : hcfg) (t : nat) : nat -> hst -> Prop :=
| St0 s : Alive g t true s -> in_loop (h_run s) = true -> h_callers s !! t = Some (Caller CIdle (OAwaitRunning :: stop_ops)) -> stage g t 0 s
| St1 s : Alive g t true s -> in_loop (h_run s) = true -> h_callers s !! t = Some (Caller CIdle [OHalt; OJoin]) -> stage g t 1 s
| St2 s : Alive g t false s -> in_loop (h_run s) = true -> h_callers s !! t = Some (Caller CAlert [OJoin]) -> stage g t 2 s
| St3 s c : Halted g s -> h_callers s !! t = Some c -> (c_todo c = [OJoin] /\ c_pc c <> CAlert \/ c = Caller CIdle []) -> stage g t 3 s.
Lemma alive_loop g t r s a : Alive g t r (hstep g s a) -> in_loop (h_run s) = true -> in_loop (h_run (hstep g s a)) = true.
Proof.
  intros [_ _ _ P _] H. assert (Hp : past_clear (h_run (hstep g s a)) = true) by (apply past_step; unfold in_loop in H; by destruct (h_run s)).
  unfold in_loop. destruct (h_run (hstep g s a)); done.
Qed.
Lemma stage_step g t i s a : (h_tso g = true -> h_strat g <> LiteBlocking) -> no_other a -> stage g t i s -> stage g t (if decide (a = HCall t) then Nat.min 3 (S i) else i) (hstep g s a).
Proof.
  intros Ht Ho H. case_decide as Ea.
  - subst a. cbn [hstep]. destruct H as [s A L E|s A L E|s A L E|s c A E Hc].
    + pose proof (winv_step g s (HCall t) Ht (al_w _ _ _ _ A)) as W. pose proof (qinv_step g s (HCall t) (al_q _ _ _ _ A)) as Q. cbn [hstep] in W, Q.
      assert (Hr : h_running s = true) by (pose proof (al_pc _ _ _ _ A); unfold in_loop in L; by destruct (h_run s)).
      assert (Es : call_step g s t = c_set s t (Caller CIdle [OHalt; OJoin]) (h_running s) (h_alerted s) (h_needed s) (h_cursor s) (h_run s)) by (unfold call_step; by rewrite E, Hr).
      apply St1; [by eapply alive_pre|by rewrite Es|]. rewrite Es. cbn. by rewrite list_lookup_insert by (by eapply lookup_lt_Some).
    + pose proof (winv_step g s (HCall t) Ht (al_w _ _ _ _ A)) as W. pose proof (qinv_step g s (HCall t) (al_q _ _ _ _ A)) as Q. cbn [hstep] in W, Q.
      assert (Es : call_step g s t = c_set s t (Caller CAlert [OJoin]) false (h_alerted s) (h_needed s) (h_cursor s) (h_run s)) by (unfold call_step; by rewrite E).
      apply St2; [|by rewrite Es|rewrite Es; cbn; by rewrite list_lookup_insert by (by eapply lookup_lt_Some)].
      destruct A as [_ _ A P C]. constructor; [done|done|by rewrite Es| |].
      * rewrite Es. cbn. unfold in_loop in L. by destruct (h_run s).
      * intros u d Hu Hd. rewrite call_other in Hd by done. by eapply C.
    + pose proof (winv_step g s (HCall t) Ht (al_w _ _ _ _ A)) as W. pose proof (qinv_step g s (HCall t) (al_q _ _ _ _ A)) as Q. cbn [hstep] in W, Q.
      assert (Es : call_step g s t = c_set s t (Caller (sig_pc g) [OJoin]) (h_running s) true (h_needed s) (h_cursor s) (h_run s)) by (unfold call_step; by rewrite E).
      eapply (St3 _ _ _ (Caller (sig_pc g) [OJoin])); [|rewrite Es; cbn; by rewrite list_lookup_insert by (by eapply lookup_lt_Some)|].
      * destruct A as [_ _ A P C]. constructor; [done|done|..]; rewrite Es; cbn; unfold in_loop in L; destruct (h_run s); done.
      * left. split; [done|]. cbn. unfold sig_pc. by destruct (h_strat g).
    + assert (Hl : (t < length (h_callers s))%nat) by (by eapply lookup_lt_Some). pose proof (halted_step g s (HCall t) Ht A) as A'. cbn [hstep] in A'.
      unfold call_step in *. rewrite E in *. destruct c as [pc todo]. cbn in Hc. destruct Hc as [[-> Hc]|[= -> ->]]; [|by eapply St3; [done..|right]].
      destruct pc; [|done| |].
      * destruct (finished (h_run s)); [|by eapply St3; [done..|left]]. eapply St3; [done|cbn; by rewrite list_lookup_insert|by right].
      * eapply St3; [done|cbn; by rewrite list_lookup_insert|left]. split; [done|]. cbn. by destruct (h_needed s).
      * destruct (h_owned s); [by eapply St3; [done..|left]|]. eapply St3; [done|cbn; by rewrite list_lookup_insert|by left].
  - assert (Ec : h_callers (hstep g s a) !! t = h_callers s !! t) by (destruct a as [o w|u]; cbn [hstep]; [by rewrite run_callers|apply call_other; by intros ->]).
    destruct H as [s A L E|s A L E|s A L E|s c A E Hc].
    + pose proof (alive_step g t _ s a Ht Ho Ea A) as A'. apply St0; [done|by eapply alive_loop|congruence].
    + pose proof (alive_step g t _ s a Ht Ho Ea A) as A'. apply St1; [done|by eapply alive_loop|congruence].
    + pose proof (alive_step g t _ s a Ht Ho Ea A) as A'. apply St2; [done|by eapply alive_loop|congruence].
    + eapply St3; [by apply halted_step|rewrite Ec; done|done].
Qed.
Lemma stage_run g t i s acts : (h_tso g = true -> h_strat g <> LiteBlocking) -> Forall no_other acts -> stage g t i s -> exists j, stage g t j (hrun g s acts) /\ (i <= j)%nat /\ (HCall t ∈ acts -> (Nat.min 3 (S i) <= j)%nat).
Proof.
  intros Ht. revert i s. induction acts as [|a acts IH]; intros i s Ho H; [exists i; split; [done|]; split; [done|]; by intros ?%elem_of_nil|]. apply Forall_cons in Ho as [Ho1 Ho2].
  assert (Hi : (i <= 3)%nat) by (destruct H; lia). pose proof (stage_step g t i s a Ht Ho1 H) as H'. cbn [hrun fold_left]. destruct (IH _ _ Ho2 H') as (j & Hj & Hij & Hin). exists j. split; [done|]. case_decide as Ea; [lia|]. split; [lia|]. intros [E|Hx]%elem_of_cons; [by destruct Ea|]. auto.
Qed.
Lemma stage_rounds g t i s rounds n : (h_tso g = true -> h_strat g <> LiteBlocking) -> Forall no_other (concat rounds) -> (t < n)%nat -> Forall (all_threads n) rounds -> stage g t i s -> exists j, stage g t j (hrun g s (concat rounds)) /\ (Nat.min 3 (i + length rounds) <= j)%nat.
Proof.
  intros Ht Ho Hn. revert i s. induction rounds as [|l rounds IH]; intros i s Hf H; [exists i; split; [done|]; cbn [length]; lia|]. cbn in Ho. apply Forall_app in Ho as [Ho1 Ho2]. apply Forall_cons in Hf as [Hf1 Hf2].
  destruct (stage_run g t i s l Ht Ho1 H) as (j & Hj & Hij & Hin). cbn [concat]. rewrite hrun_app. destruct (IH Ho2 j _ Hf2 Hj) as (k & Hk & Hjk). exists k. split; [done|]. specialize (Hin (proj2 Hf1 t Hn)). cbn [length]. lia.
Qed.
(** Once run() has ended, the stopping thread finishes its signal and its join. *)
Definition srank (s : hst) (t : nat) : nat := match h_callers s !! t with Some (Caller CExch _) => 3 | Some (Caller CSig _) => 2 | Some (Caller CIdle [OJoin]) => 1 | _ => 0 end.
Lemma fin_step g s a : finished (h_run s) = true -> finished (h_run (hstep g s a)) = true.
Proof. intros Hf. destruct a as [o w|u]; cbn [hstep]; [unfold run_step; by destruct (h_run s) eqn:Ep; rewrite ?Ep|]. rewrite call_awake; [done|]. intros E. by rewrite E in Hf. Qed.
Lemma stop_tail g t s rounds n : (h_tso g = true -> h_strat g <> LiteBlocking) -> (t < n)%nat -> Forall (all_threads n) rounds -> Forall no_other (concat rounds) -> stage g t 3 s -> finished (h_run s) = true -> (srank s t <= length rounds)%nat ->
  h_callers (hrun g s (concat rounds)) !! t = Some (Caller CIdle []).
Proof.
  intros Ht Hn. revert s. induction rounds as [|l rounds IH]; intros s Hf Ho H Hfin Hr.
  - cbn in *. inversion H as [| | |? c A E Hc]; subst. unfold srank in Hr. rewrite E in Hr. destruct c as [pc todo]. cbn in Hc. destruct Hc as [[-> Hc]|[= -> ->]]; [|done]. destruct pc; done || lia.
  - cbn [concat] in *. apply Forall_app in Ho as [Ho1 Ho2]. apply Forall_cons in Hf as [Hf1 Hf2]. rewrite hrun_app. cbn in Hr.
    assert (G : forall l s, Forall no_other l -> stage g t 3 s -> finished (h_run s) = true -> stage g t 3 (hrun g s l) /\ finished (h_run (hrun g s l)) = true /\ (srank (hrun g s l) t <= srank s t)%nat /\ (HCall t ∈ l -> srank s t <> 0%nat -> (srank (hrun g s l) t < srank s t)%nat)).
    { clear -Ht. induction l as [|a l IH]; intros s Ho H Hfin; [split; [done|]; split; [done|]; split; [done|]; by intros ?%elem_of_nil|]. apply Forall_cons in Ho as [Ho1 Ho2]. cbn [hrun fold_left].
      pose proof (stage_step g t 3 s a Ht Ho1 H) as H'. replace (if decide (a = HCall t) then Nat.min 3 4 else 3%nat) with 3%nat in H' by (by case_decide).
      pose proof (fin_step g s a Hfin) as Hfin'. destruct (IH (hstep g s a) Ho2 H' Hfin') as (G1 & G2 & G3 & G4).
      assert (Hs : (srank (hstep g s a) t <= srank s t)%nat /\ (a = HCall t -> srank s t <> 0%nat -> (srank (hstep g s a) t < srank s t)%nat)).
      { destruct (decide (a = HCall t)) as [->|Ea].
        - inversion H as [| | |? c A E Hc]; subst. assert (Hl : (t < length (h_callers s))%nat) by (by eapply lookup_lt_Some).
          assert (How : h_owned s = false) by (rewrite (w_own _ _ (hd_w _ _ A)); by destruct (h_run s)).
          unfold srank. cbn [hstep]. unfold call_step. rewrite E. destruct c as [pc todo]. cbn in Hc. destruct Hc as [[-> Hc]|[= -> ->]]; [|by rewrite E; lia].
          destruct pc; [|done| |].
          + rewrite Hfin. cbn [h_callers c_set]. rewrite list_lookup_insert by done. lia.
          + cbn [h_callers c_set]. rewrite list_lookup_insert by done. destruct (h_needed s); lia.
          + rewrite How. cbn [h_callers c_set]. rewrite list_lookup_insert by done. lia.
        - split; [|done]. unfold srank. assert (Ec : h_callers (hstep g s a) !! t = h_callers s !! t) by (destruct a as [o w|u]; cbn [hstep]; [by rewrite run_callers|apply call_other; by intros ->]). by rewrite Ec. }
      destruct Hs as [Hs1 Hs2]. split; [done|]. split; [done|]. change (fold_left (hstep g) l (hstep g s a)) with (hrun g (hstep g s a) l). split; [lia|].
      intros [E|Hin]%elem_of_cons Hz; [specialize (Hs2 (eq_sym E) Hz); lia|]. destruct (decide (srank (hstep g s a) t = 0%nat)); [lia|]. specialize (G4 Hin n). lia. }
    destruct (G l s Ho1 H Hfin) as (G1 & G2 & G3 & G4). apply IH; [done|done|done|done|]. destruct (decide (srank s t = 0%nat)) as [E|E]; [lia|]. specialize (G4 (proj2 Hf1 t Hn) E). lia.
Qed.
(** What holds before stop() is called. *)
Lemma alive_reach g progs acts t pre : (h_tso g = true -> h_strat g <> LiteBlocking) -> Forall no_other acts -> progs !! t = Some (pre ++ stop_ops) -> OHalt ∉ pre -> (forall u p, u <> t -> progs !! u = Some p -> OHalt ∉ p) ->
  let s := hrun g (hst_new progs) acts in
  (exists c, h_callers s !! t = Some c /\ (length (c_todo c) < 2)%nat) \/ (Alive g t true s /\ exists pre' pc, h_callers s !! t = Some (Caller pc (pre' ++ stop_ops)) /\ pc <> CAlert /\ OHalt ∉ pre').
Proof.
  intros Ht Ho Hp Hpre Hoth. cbv zeta. induction acts as [|a acts IH] using rev_ind.
  - right. split; [|exists pre, CIdle; cbn; rewrite list_lookup_fmap, Hp; done]. constructor; [by apply (winv_reach g progs [])|by apply (qinv_reach g progs [])|done|done|].
    intros u c Hu Hc. cbn in Hc. apply list_lookup_fmap_Some in Hc as (p & Hpp & ->). split; [done|]. cbn. by apply (Hoth u).
  - apply Forall_app in Ho as [Ho1 Ho2]. apply List.Forall_inv in Ho2. specialize (IH Ho1). rewrite hrun_snoc. set (s := hrun g (hst_new progs) acts) in *.
    assert (W : WInv g (hstep g s a)) by (unfold s; rewrite <-hrun_snoc; by apply winv_reach). assert (Q : QInv (hstep g s a)) by (unfold s; rewrite <-hrun_snoc; by apply qinv_reach). clearbody s.
    destruct (decide (a = HCall t)) as [->|Ea].
    + cbn [hstep] in *. destruct IH as [(c & E & Hlen)|(A & pre' & pc & E & Hpc & Hpre')].
      * left. assert (Hl : (t < length (h_callers s))%nat) by (by eapply lookup_lt_Some).
        unfold call_step. rewrite E. destruct c as [[] [|[] todo]]; cbn in Hlen; repeat match goal with |- context [if ?b then _ else _] => destruct b end; cbn [h_callers c_set]; rewrite ?list_lookup_insert by done; eexists; (split; [done|]); cbn; lia.
      * assert (Hl : (t < length (h_callers s))%nat) by (by eapply lookup_lt_Some).
        assert (K : forall c' pre2 pc2, c' = Caller pc2 (pre2 ++ stop_ops) -> pc2 <> CAlert -> OHalt ∉ pre2 -> call_step g s t = c_set s t c' (h_running s) (h_alerted s) (h_needed s) (h_cursor s) (h_run s) ->
          Alive g t true (call_step g s t) /\ exists pre' pc, h_callers (call_step g s t) !! t = Some (Caller pc (pre' ++ stop_ops)) /\ pc <> CAlert /\ OHalt ∉ pre').
        { intros c' pre2 pc2 -> H1 H2 Es. split; [by eapply alive_pre|]. exists pre2, pc2. rewrite Es. cbn [h_callers c_set]. by rewrite list_lookup_insert. }
        assert (K0 : call_step g s t = s -> Alive g t true (call_step g s t) /\ exists pre' pc, h_callers (call_step g s t) !! t = Some (Caller pc (pre' ++ stop_ops)) /\ pc <> CAlert /\ OHalt ∉ pre').
        { intros ->. split; [done|]. by exists pre', pc. }
        destruct pc as [| | |]; [|done| |].
        -- destruct pre' as [|o pre'].
           ++ cbn in E. left. exists (Caller CAlert [OJoin]). unfold call_step. rewrite E. cbn [stop_ops app h_callers c_set]. rewrite list_lookup_insert by done. split; [done|]. cbn. lia.
           ++ right. apply not_elem_of_cons in Hpre' as [Ho Hpre']. cbn in E. destruct o; [done| | |].
              ** (* publish *) assert (Es : call_step g s t = c_set s t (Caller (sig_pc g) (pre' ++ stop_ops)) (h_running s) (h_alerted s) (h_needed s) (h_cursor s + 1) (h_run s)) by (unfold call_step; by rewrite E).
                 split; [|exists pre', (sig_pc g); rewrite Es; cbn [h_callers c_set]; rewrite list_lookup_insert by done; split; [done|]; split; [unfold sig_pc; by destruct (h_strat g)|done]].
                 destruct A as [_ _ A P C]. constructor; [done|done|by rewrite Es|by rewrite Es|]. intros u d Hu Hd. rewrite call_other in Hd by done. by eapply C.
              ** destruct (h_running s) eqn:Er; [|apply K0; unfold call_step; by rewrite E, Er]. eapply (K _ pre' CIdle); [done..|]. unfold call_step. by rewrite E, Er.
              ** destruct (finished (h_run s)) eqn:Er; [|apply K0; unfold call_step; by rewrite E, Er]. eapply (K _ pre' CIdle); [done..|]. unfold call_step. by rewrite E, Er.
        -- right. assert (Es : call_step g s t = c_set s t (Caller (if h_needed s then CSig else CIdle) (pre' ++ stop_ops)) (h_running s) (h_alerted s) false (h_cursor s) (h_run s)) by (unfold call_step; by rewrite E).
           split; [|exists pre', (if h_needed s then CSig else CIdle); rewrite Es; cbn [h_callers c_set]; rewrite list_lookup_insert by done; split; [done|]; split; [by destruct (h_needed s)|done]].
           destruct A as [_ _ A P C]. constructor; [done|done|by rewrite Es|by rewrite Es|]. intros u d Hu Hd. rewrite call_other in Hd by done. by eapply C.
        -- right. destruct (h_owned s) eqn:Eo; [apply K0; unfold call_step; by rewrite E, Eo|].
           assert (Es : call_step g s t = c_set s t (Caller CIdle (pre' ++ stop_ops)) (h_running s) (h_alerted s) (h_needed s) (h_cursor s) (match h_run s with RAsleep _ => RAsleep true | pc => pc end)) by (unfold call_step; by rewrite E, Eo).
           split; [|exists pre', CIdle; rewrite Es; cbn [h_callers c_set]; rewrite list_lookup_insert by done; done].
           destruct A as [_ _ A P C]. constructor; [done|done|by rewrite Es|rewrite Es; cbn; by destruct (h_run s)|]. intros u d Hu Hd. rewrite call_other in Hd by done. by eapply C.
    + assert (Ec : h_callers (hstep g s a) !! t = h_callers s !! t) by (destruct a as [o w|u]; cbn [hstep]; [by rewrite run_callers|apply call_other; by intros ->]).
      rewrite Ec. destruct IH as [IH|(A & IH)]; [by left|right]. split; [by apply alive_step|done].
Qed.
(** ** C79 *)
(** stop() (or the destructor of a multiplexer subscriber) returns: called when the consumer's run() is past its clear_alert(), in every fair schedule, with every wait strategy, any
    number of other threads publishing, after a number of rounds bounded by the number of publications. Nobody else halts it, and no listener throws something that is no std::exception. *)
Theorem C79_stop_returns : forall g progs acts t pre rounds (await : bool), (h_tso g = true -> h_strat g <> LiteBlocking) ->
  progs !! t = Some (pre ++ stop_ops) -> OHalt ∉ pre -> (forall u p, u <> t -> progs !! u = Some p -> OHalt ∉ p) ->
  Forall no_other (acts ++ concat rounds) -> let s := hrun g (hst_new progs) acts in
  h_callers s !! t = Some (Caller CIdle ((if await then [OAwaitRunning] else []) ++ stop_ops)) -> in_loop (h_run s) = true ->
  Forall (all_threads (length progs)) rounds -> (18 + total_pubs progs <= length rounds)%nat ->
  h_callers (hrun g s (concat rounds)) !! t = Some (Caller CIdle []).
Proof.
  intros g progs acts t pre rounds await Ht Hp Hpre Hoth Ho s Hc Hl Hf Hlen. apply Forall_app in Ho as [Ho1 Ho2].
  assert (Hn : (t < length progs)%nat) by (by eapply lookup_lt_Some).
  assert (H0 : exists i, stage g t i s). { destruct (alive_reach g progs acts t pre Ht Ho1 Hp Hpre Hoth) as [(c & E & Hlt)|[A _]]; [|destruct await; eexists; [by apply St0|by apply St1]]. fold s in E. rewrite Hc in E. injection E as <-. destruct await; cbn in Hlt; lia. }
  destruct H0 as [i0 H0].
  rewrite <-(take_drop 3 rounds) in Ho2, Hf. rewrite <-(take_drop 3 rounds). set (r1 := take 3 rounds) in *. set (rs := drop 3 rounds) in *.
  assert (L1 : length r1 = 3%nat) by (unfold r1; rewrite take_length; lia). assert (L2 : length rs = (length rounds - 3)%nat) by (unfold rs; by rewrite drop_length).
  rewrite concat_app in *. apply Forall_app in Ho2 as [Ho2 Ho3]. apply Forall_app in Hf as [Hf1 Hf2]. rewrite hrun_app.
  destruct (stage_rounds g t i0 s r1 _ Ht Ho2 Hn Hf1 H0) as (j & Hj & Hj3). assert (j = 3%nat) as -> by (rewrite L1 in Hj3; destruct Hj; lia).
  set (s1 := hrun g s (concat r1)) in *. assert (Es : s1 = hrun g (hst_new progs) (acts ++ concat r1)) by (unfold s1, s; by rewrite hrun_app).
  rewrite <-(take_drop (12 + total_pubs progs) rs) in Ho3, Hf2. rewrite <-(take_drop (12 + total_pubs progs) rs). set (r2 := take (12 + total_pubs progs) rs) in *. set (r3 := drop (12 + total_pubs progs) rs) in *.
  assert (L3 : length r2 = (12 + total_pubs progs)%nat) by (unfold r2; rewrite take_length; lia). assert (L4 : (3 <= length r3)%nat) by (unfold r3; rewrite drop_length; lia).
  rewrite concat_app in *. apply Forall_app in Ho3 as [Ho3 Ho4]. apply Forall_app in Hf2 as [Hf2 Hf3]. rewrite hrun_app.
  assert (Hd : Halted g s1) by (by inversion Hj; subst).
  assert (Hn1 : length (h_callers s1) = length progs) by (rewrite Es, callers_run; cbn; by rewrite fmap_length).
  assert (Hfin : finished (h_run (hrun g s1 (concat r2))) = true).
  { apply halt_stops; [done|done|by rewrite Hn1|]. rewrite L3.
    assert (Hb : bound s1 = -1 + Z.of_nat (total_pubs progs)) by (rewrite Es, bound_run; apply bound_new).
    pose proof (bound_le s1). destruct (hd_q _ _ Hd) as [Q1 Q2 _]. unfold hrank, dmax. rewrite Hb in *. destruct (h_run s1) as [| | | | | | | |[]| | | | |nx avail| | | | |]; try lia. destruct (csigb s1); lia. }
  destruct (stage_rounds g t 3 s1 r2 _ Ht Ho3 Hn Hf2 Hj) as (j & Hj' & Hj3'). assert (j = 3%nat) as -> by (destruct Hj'; lia).
  eapply stop_tail; [done|exact Hn|done|done|done|done|]. etransitivity; [|exact L4]. unfold srank. repeat case_match; lia.
Qed.
(** A consumer whose run() has ended and whose running flag is down stays so, and a thread that waits for is_running() waits forever. *)
Lemma await_forever g s t rest acts : finished (h_run s) = true -> h_running s = false -> h_callers s !! t = Some (Caller CIdle (OAwaitRunning :: rest)) ->
  h_callers (hrun g s acts) !! t = Some (Caller CIdle (OAwaitRunning :: rest)).
Proof.
  intros H1 H2 H3. revert s H1 H2 H3. induction acts as [|a acts IH]; intros s H1 H2 H3; [done|]. cbn [hrun fold_left]. apply IH.
  - by apply fin_step.
  - destruct a as [o w|u]; cbn [hstep]; [unfold run_step; by destruct (h_run s) eqn:E; rewrite ?E|]. unfold call_step. destruct (h_callers s !! u) as [[[] [|[] ?]]|]; try done; repeat match goal with |- context [if ?b then _ else _] => destruct b eqn:? end; cbn; congruence.
  - destruct a as [o w|u]; cbn [hstep]; [by rewrite run_callers|]. destruct (decide (u = t)) as [->|Hne]; [|by rewrite call_other]. unfold call_step. by rewrite H3, H2, H3.
Qed.
(** If a listener has thrown something that is no std::exception, the consumer's thread has ended, and stop() and the destructor never return, whatever happens: they wait for is_running(). *)
Theorem C100_after_foreign_exception_refuted : forall g s t rest acts, h_run s = RThrew -> h_running s = false -> h_callers s !! t = Some (Caller CIdle (OAwaitRunning :: rest)) ->
  h_callers (hrun g s acts) !! t = Some (Caller CIdle (OAwaitRunning :: rest)).
Proof. intros g s t rest acts H1 H2 H3. apply await_forever; [by rewrite H1|done|done]. Qed.
(** A second stop() of a data multiplexer's listener (data_multiplexer_listener.h 97-110: _started is never reset, so it waits for is_running() again) never returns. *)
Theorem C100_second_stop_refuted : forall g s t rest acts, h_run s = RDone -> h_running s = false -> h_callers s !! t = Some (Caller CIdle (OAwaitRunning :: rest)) ->
  h_callers (hrun g s acts) !! t = Some (Caller CIdle (OAwaitRunning :: rest)).
Proof. intros g s t rest acts H1 H2 H3. apply await_forever; [by rewrite H1|done|done]. Qed.

(** The hypotheses are met: a data multiplexer's subscriber, asleep in the blocking strategy, is destroyed while another thread publishes. And the failure is reached. *)
Example C79_met : let g := HCfg Blocking true in let progs := [OAwaitRunning :: OAwaitRunning :: stop_ops; [OPub]] in let s := hrun g (hst_new progs) (repeat (HRun HOk WNone) 10 ++ [HCall 0]) in
  progs !! 0%nat = Some ([OAwaitRunning; OAwaitRunning] ++ stop_ops) /\ h_callers s !! 0%nat = Some (Caller CIdle ([OAwaitRunning] ++ stop_ops)) /\ h_run s = RAsleep false /\
  all_threads (length progs) [HRun HOk WNone; HCall 0; HCall 1].
Proof. cbv zeta. do 3 (split; [by vm_compute|]). split; [exists HOk, WNone; left|]. intros [|[|t]] Ht; [do 1 right; left|do 2 right; left|cbn in Ht; lia]. Qed.
Example C79_refuted_met : let g := HCfg Blocking false in let progs := [OAwaitRunning :: OAwaitRunning :: stop_ops; [OPub]] in
  let s := hrun g (hst_new progs) ([HRun HOk WNone; HCall 0; HCall 1; HCall 1] ++ repeat (HRun HOther WNone) 7) in
  h_run s = RThrew /\ h_running s = false /\ h_callers s !! 0%nat = Some (Caller CIdle (OAwaitRunning :: stop_ops)) /\ h_log s = [0].
Proof. cbv zeta. by vm_compute. Qed.
Example C79_second_met : let g := HCfg Blocking false in let progs := [(OAwaitRunning :: stop_ops) ++ (OAwaitRunning :: stop_ops)] in
  let s := hrun g (hst_new progs) (repeat (HRun HOk WNone) 10 ++ repeat (HCall 0) 4 ++ repeat (HRun HOk WNone) 8 ++ [HCall 0]) in
  h_run s = RDone /\ h_running s = false /\ h_callers s !! 0%nat = Some (Caller CIdle (OAwaitRunning :: stop_ops)).
Proof. cbv zeta. by vm_compute. Qed.
Print Assumptions C79_stop_returns.
Print Assumptions C100_second_stop_refuted.
Print Assumptions C100_after_foreign_exception_refuted.
