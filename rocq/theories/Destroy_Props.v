(** * C115, C116: destroying what has a consumer thread. *)
From Coq Require Import Lia.
From stdpp Require Import prelude.
From Verif Require Import Destroy_Model.
Global Instance dev_eq_dec : EqDecision dev. Proof. solve_decision. Defined.
Global Instance dact_eq_dec : EqDecision dact. Proof. solve_decision. Defined.
Global Instance dcall_eq_dec : EqDecision dcall. Proof. solve_decision. Defined.
(** An orderly program: it destroys the provider once, at its end, and not while it is started. *)
Fixpoint orderly (started : bool) (calls : list dcall) : Prop :=
  match calls with
  | [] => True
  | DStart :: r => orderly true r
  | DStop :: r => orderly false r
  | DDestroy :: r => started = false /\ r = []
  end.
(** For the multiplexer's subscribers the provider stops the thread itself: destroyed once, at the end. *)
Definition at_end (calls : list dcall) : Prop := exists pre, DDestroy ∉ pre /\ (calls = pre \/ calls = pre ++ [DDestroy]).
Definition harmless (log : list dev) : Prop := VFreedUse ∉ log /\ VTerminate ∉ log.
Lemma harmless_app l e : harmless l -> e <> VFreedUse -> e <> VTerminate -> harmless (l ++ [e]).
Proof. intros [H1 H2] H3 H4. split; intros [H|H%elem_of_list_singleton]%elem_of_app; congruence. Qed.
(** The invariant of an event loop used in an orderly way, no start having timed out. *)
Record DI (s : dst) : Prop := {
  di_term : d_term s = false;
  di_log : harmless (d_log s);
  di_calls : orderly (d_started s) (d_calls s);
  di_alive : d_alive s = true \/ (d_calls s = [] /\ d_started s = false /\ d_joinable s = false);
  di_join : d_joinable s = false -> d_ph s = PNone \/ d_ph s = PGone;
  di_pc : match d_pc s with
          | MIdle => d_joinable s = d_started s
          | MStarting => d_started s = true /\ d_joinable s = true /\ d_alive s = true
          | MJoining b => b = false /\ d_started s = false /\ d_joinable s = true /\ d_alive s = true
          | MAwait => False
          | MFree => d_joinable s = false /\ d_started s = false /\ d_calls s = []
          end
}.
Lemma di_step s a : a <> DGiveUp -> DI s -> DI (d_step false s a).
Proof.
  intros Ha [I1 I2 I3 I4 I5 I6]. destruct s as [ph jn st halt alive calls pc term log]. cbn in *. subst term. destruct a as [| |handle]; [|done|].
  - destruct pc as [| |b| |]; cbn.
    + destruct calls as [|[] r]; [constructor; cbn; auto|..].
      * assert (alive = true) as -> by (destruct I4 as [|(? & ? & ?)]; done).
        destruct st; cbn in *; subst jn; constructor; cbn; auto; try done; by apply harmless_app.
      * assert (alive = true) as -> by (destruct I4 as [|(? & ? & ?)]; done).
        destruct st; cbn in *; subst jn; constructor; cbn; auto; try done; by apply harmless_app.
      * destruct I3 as [-> ->]. subst jn. constructor; cbn; auto.
    + destruct I6 as (-> & -> & ->). destruct ph; cbn; constructor; cbn; auto; by apply harmless_app.
    + destruct I6 as (-> & -> & -> & ->). destruct ph; cbn; constructor; cbn; auto. by apply harmless_app.
    + done.
    + destruct I6 as (-> & -> & ->). constructor; cbn; auto. by apply harmless_app.
  - destruct ph; cbn; [constructor; cbn; auto|constructor; cbn; auto| |constructor; cbn; auto].
    + intros Hj. destruct (I5 Hj); done.
    + destruct handle; [|destruct halt]; constructor; cbn; auto.
      destruct I4 as [->|(_ & _ & Hj)]; [by apply harmless_app|]. destruct (I5 Hj); done.
Qed.
(** C115. An event loop that is stopped before it is destroyed: no use of freed objects, no termination, whatever the schedule. *)
Theorem C115_event_loop calls acts : orderly false calls -> DGiveUp ∉ acts -> harmless (d_log (d_run false calls acts)).
Proof.
  intros Ho Hg. assert (H : DI (d_new calls)). { constructor; cbn; auto. split; intros H; by apply elem_of_nil in H. }
  unfold d_run. revert H. generalize (d_new calls). clear Ho. induction acts as [|a acts IH]; intros s H; [apply H|]. cbn. apply IH; [intros Hx; apply Hg; by right|]. apply di_step; [|done]. intros ->. apply Hg. left.
Qed.
(** ... and the same for multiplexer subscribers, which are halted and joined by their destructor. *)
Record MI (s : dst) : Prop := {
  mi_term : d_term s = false;
  mi_log : harmless (d_log s);
  mi_calls : d_alive s = false -> d_calls s = [] /\ (d_ph s = PNone \/ d_ph s = PGone);
  mi_end : exists pre, DDestroy ∉ pre /\ (d_calls s = pre \/ d_calls s = pre ++ [DDestroy]);
  mi_join : d_joinable s = false -> d_ph s = PNone \/ d_ph s = PGone;
  mi_pc : match d_pc s with
          | MIdle => d_joinable s = d_started s
          | MStarting => d_started s = true /\ d_joinable s = true /\ d_alive s = true
          | MJoining b => d_started s = false /\ d_joinable s = true /\ d_alive s = true /\ (b = true -> d_calls s = [])
          | MAwait => d_started s = true /\ d_joinable s = true /\ d_calls s = [] /\ d_alive s = true
          | MFree => False
          end
}.
Lemma end_tail c r pre : DDestroy ∉ pre -> (c :: r = pre \/ c :: r = pre ++ [DDestroy]) -> (c <> DDestroy /\ exists pre', DDestroy ∉ pre' /\ (r = pre' \/ r = pre' ++ [DDestroy])) \/ (c = DDestroy /\ r = []).
Proof.
  intros Hn [<-|E].
  - left. split; [intros ->; apply Hn; left|]. exists r. split; [intros H; apply Hn; by right|by left].
  - destruct pre as [|x pre]; [right; by injection E as -> ->|]. injection E as -> ->. left. split; [intros ->; apply Hn; left|]. exists pre. split; [intros H; apply Hn; by right|by right].
Qed.
Lemma mi_step s a : a <> DGiveUp -> MI s -> MI (d_step true s a).
Proof.
  intros Ha [I1 I2 I3 I4 I5 I6]. destruct s as [ph jn st halt alive calls pc term log]. cbn in *. subst term. destruct I4 as (pre & Hp1 & Hp2). destruct a as [| |handle]; [|done|].
  - destruct pc as [| |b| |]; cbn.
    + destruct calls as [|c r]; [constructor; cbn; eauto|]. assert (Hal : alive = true) by (destruct alive; [done|]; by destruct I3).
      destruct (end_tail c r pre Hp1 Hp2) as [[Hc He]|[-> ->]].
      * destruct c; [| |done]; destruct st; cbn; subst jn alive; constructor; cbn; eauto; try (by apply harmless_app); done.
      * destruct st; subst jn alive; constructor; cbn; eauto; try (by apply harmless_app); try done; exists []; split; auto; apply not_elem_of_nil.
    + destruct I6 as (-> & -> & ->). destruct ph; cbn; constructor; cbn; eauto; by apply harmless_app.
    + destruct I6 as (-> & -> & -> & Hb). destruct ph; cbn; constructor; cbn; eauto; [destruct b; by apply harmless_app|]. destruct b; [|done]. intros _. auto.
    + destruct I6 as (-> & -> & -> & ->). destruct ph; cbn; constructor; cbn; eauto.
    + done.
  - destruct ph; cbn; [constructor; cbn; eauto|constructor; cbn; eauto| |constructor; cbn; eauto].
    + intros Hf. destruct (I3 Hf) as (_ & [|]); done.
    + intros Hj. destruct (I5 Hj); done.
    + destruct handle; [|destruct halt]; constructor; cbn; eauto.
      * destruct alive; [by apply harmless_app|]. destruct (I3 eq_refl) as (_ & [|]); done.
      * intros Hf. destruct (I3 Hf). auto.
Qed.
Theorem C115_multiplexer calls acts : at_end calls -> DGiveUp ∉ acts -> harmless (d_log (d_run true calls acts)).
Proof.
  intros Ho Hg. assert (H : MI (d_new calls)). { constructor; cbn; auto; [split; intros H; by apply elem_of_nil in H|done]. }
  unfold d_run. revert H. generalize (d_new calls). clear Ho. induction acts as [|a acts IH]; intros s H; [apply H|]. cbn. apply IH; [intros Hx; apply Hg; by right|]. apply mi_step; [|done]. intros ->. apply Hg. left.
Qed.
(** After the destruction the program's log never grows: no event is handled. *)
Definition finished (s : dst) : Prop := d_calls s = [] /\ d_pc s = MIdle /\ (d_ph s = PNone \/ d_ph s = PGone).
Lemma finished_step mux s a : finished s -> d_step mux s a = s.
Proof. destruct s as [ph jn st halt alive calls pc term log]. intros (E1 & E2 & E3). cbn in *. subst calls pc. destruct term, a; cbn; [done..|]. destruct E3 as [-> | ->]; done. Qed.
Lemma destroyed_once (mux : bool) s a : (if mux then MI s else DI s) -> a <> DGiveUp -> VDestroyed ∉ d_log s \/ finished s /\ (exists l, d_log s = l ++ [VDestroyed] /\ VDestroyed ∉ l) ->
  VDestroyed ∉ d_log (d_step mux s a) \/ finished (d_step mux s a) /\ (exists l, d_log (d_step mux s a) = l ++ [VDestroyed] /\ VDestroyed ∉ l).
Proof.
  intros HI Ha [Hn|[Hf Hl]]; [|right; by rewrite finished_step].
  assert (Hadd : forall e, e <> VDestroyed -> VDestroyed ∉ d_log s ++ [e]). { intros e He [|H%elem_of_list_singleton]%elem_of_app; congruence. }
  destruct s as [ph jn st halt alive calls pc term log]. destruct mux.
  - destruct HI as [I1 I2 I3 I4 I5 I6]. cbn in *. subst term. destruct a as [| |handle]; [|done|].
    + destruct pc as [| |b| |]; cbn in *.
      * destruct calls as [|c r]; [by left|]. destruct I4 as (pre & Hp1 & Hp2). destruct (end_tail c r pre Hp1 Hp2) as [[Hc He]|[-> ->]].
        -- left. destruct c; [| |done]; destruct st; cbn; subst jn; cbn; auto.
        -- destruct st; cbn; [by left|]. right. split; [|eauto]. split_and!; [done..|]. cbn. auto.
      * destruct ph; cbn; auto.
      * destruct ph; cbn; auto. destruct I6 as (_ & _ & _ & Hb). destruct b; cbn; [|auto]. right. split; [|eauto]. split_and!; cbn; auto.
      * left. destruct ph; done.
      * done.
    + left. destruct ph; cbn; auto. destruct handle; cbn; [|by destruct halt]. destruct alive; auto.
  - destruct HI as [I1 I2 I3 I4 I5 I6]. cbn in *. subst term. destruct a as [| |handle]; [|done|].
    + destruct pc as [| |b| |]; cbn in *.
      * left. destruct calls as [|[] r]; [done|..|done]; destruct st; cbn; subst jn; cbn; auto.
      * destruct ph; cbn; auto.
      * destruct I6 as (-> & _). destruct ph; cbn; auto.
      * done.
      * destruct I6 as (-> & _ & ->). cbn. right. split; [|eauto]. split_and!; cbn; auto.
    + left. destruct ph; cbn; auto. destruct handle; cbn; [|by destruct halt]. destruct alive; auto.
Qed.
Definition proper (mux : bool) (calls : list dcall) : Prop := if mux then at_end calls else orderly false calls.
Lemma inv_new (mux : bool) calls : proper mux calls -> if mux then MI (d_new calls) else DI (d_new calls).
Proof. destruct mux; cbn; intros Ho; constructor; cbn; auto; try (split; intros H; by apply elem_of_nil in H); done. Qed.
Lemma inv_run (mux : bool) acts s : DGiveUp ∉ acts -> (if mux then MI s else DI s) -> if mux then MI (fold_left (d_step mux) acts s) else DI (fold_left (d_step mux) acts s).
Proof.
  revert s. induction acts as [|a acts IH]; intros s Hg H; [done|]. cbn. apply IH; [intros Hx; apply Hg; by right|].
  assert (a <> DGiveUp) by (intros ->; apply Hg; left). destruct mux; [by apply mi_step|by apply di_step].
Qed.
Theorem C115_silent_after mux calls acts l1 l2 : proper mux calls -> DGiveUp ∉ acts -> d_log (d_run mux calls acts) = l1 ++ VDestroyed :: l2 -> l2 = [].
Proof.
  intros Ho Hg. apply inv_new in Ho. unfold d_run. revert Ho. assert (VDestroyed ∉ d_log (d_new calls) \/ finished (d_new calls) /\ (exists l, d_log (d_new calls) = l ++ [VDestroyed] /\ VDestroyed ∉ l)) as Hd by (left; apply not_elem_of_nil).
  revert Hd. generalize (d_new calls). induction acts as [|a acts IH]; intros s Hd H.
  - cbn. intros E. destruct Hd as [Hn|[_ (l & El & Hl)]]; [destruct Hn; rewrite E; apply elem_of_app; right; left|]. rewrite El in E.
    destruct l2 as [|x l2 _] using rev_ind; [done|]. rewrite app_comm_cons, app_assoc in E. apply app_inj_tail in E as [-> _]. destruct Hl. apply elem_of_app. right. left.
  - cbn. assert (Ha : a <> DGiveUp) by (intros ->; apply Hg; left). apply IH; [intros Hx; apply Hg; by right| |].
    + by apply destroyed_once.
    + destruct mux; [by apply mi_step|by apply di_step].
Qed.
(** Progress. In rounds in which each of the two threads takes part, an orderly program comes to its end and the destruction returns. *)
Definition link (s : dst) : Prop :=
  match d_pc s with MIdle => d_joinable s = d_started s | MStarting => d_started s = true | MJoining b => d_started s = false /\ d_joinable s = true | MAwait => d_started s = true | MFree => d_joinable s = false /\ d_started s = false end.
Lemma inv_link (mux : bool) s : (if mux then MI s else DI s) -> d_term s = false /\ link s.
Proof. intros H. unfold link. destruct mux; destruct H as [I1 _ _ _ _ I6]; split; try done; destruct (d_pc s); naive_solver. Qed.
Record PP (s : dst) : Prop := {
  pp_pc : match d_pc s with
          | MIdle => d_started s = true -> d_ph s = PLive
          | MStarting => d_ph s = PFresh \/ d_ph s = PLive
          | MAwait => d_ph s = PLive
          | MJoining b => d_ph s = PLive /\ d_halt s = true \/ d_ph s = PGone
          | MFree => True
          end;
  pp_run : d_ph s = PLive -> d_started s = true -> d_halt s = false
}.
Lemma pp_step mux s a : a <> DGiveUp -> d_term s = false -> link s -> PP s -> PP (d_step mux s a).
Proof.
  intros Ha Ht Hl [P1 P2]. destruct s as [ph jn st halt alive calls pc term log]. unfold link in Hl. cbn in *. subst term. destruct a as [| |handle]; [|done|].
  - destruct pc as [| |b| |]; cbn.
    + destruct calls as [|[] r]; [by constructor|..].
      * destruct st; subst jn; constructor; cbn; auto; done.
      * destruct mux; [by constructor|]. destruct st; subst jn; constructor; cbn; auto; done.
      * destruct mux; [|by constructor]. destruct st; constructor; cbn; auto; done.
    + destruct ph; constructor; cbn; auto.
    + destruct ph; constructor; cbn; auto. destruct Hl as [-> _]. done.
    + destruct ph; constructor; cbn; auto; done.
    + destruct jn; constructor; cbn; auto. destruct Hl as [_ ->]. done.
  - destruct ph; cbn; [by constructor| | |by constructor].
    + constructor; cbn; [|done]. destruct pc as [| |b| |]; auto. by destruct P1 as [[? ?]|?].
    + destruct handle; [by constructor|]. destruct halt; [|by constructor]. constructor; cbn; [|done].
      destruct pc as [| |b| |]; auto; [intros ->|subst st..]; by specialize (P2 eq_refl eq_refl).
Qed.
Definition ending (s : dst) : Prop := VDestroyed ∈ d_log s \/ d_pc s = MFree \/ d_pc s = MAwait \/ d_pc s = MJoining true \/ exists pre, d_calls s = pre ++ [DDestroy].
Lemma ending_step mux s a : a <> DGiveUp -> d_term s = false -> link s -> ending s -> ending (d_step mux s a).
Proof.
  intros Ha Ht Hl He. destruct s as [ph jn st halt alive calls pc term log]. unfold link, ending in *. cbn in *. subst term.
  assert (Hlog : forall e, VDestroyed ∈ log -> VDestroyed ∈ log ++ [e]) by (intros e H; apply elem_of_app; by left).
  destruct a as [| |handle]; [|done|].
  - destruct pc as [| |b| |]; cbn.
    + destruct He as [He|[?|[?|[?|[pre He]]]]]; [|done..|].
      * left. destruct calls as [|[] r]; [done|..]; destruct mux, st; cbn; subst jn; cbn; auto.
      * destruct pre as [|c pre]; subst calls.
        -- cbn. destruct mux; [|by right; left]. destruct st; [by right; right; left|]. left. cbn. apply elem_of_app. right. left.
        -- cbn. destruct c; [| |].
           ++ destruct st; subst jn; cbn; eauto 10.
           ++ destruct mux; [cbn; eauto 10|]. destruct st; cbn; eauto 10.
           ++ destruct mux; [|by right; left]. destruct st; [by right; right; left|]. left. cbn. apply elem_of_app. right. left.
    + destruct ph; cbn; auto. destruct He as [He|[?|[?|[?|[pre He]]]]]; eauto 10; done.
    + destruct ph; cbn; auto. destruct b; [left; apply elem_of_app; right; left|]. destruct He as [He|[?|[?|[?|[pre He]]]]]; eauto 10; done.
    + destruct ph; cbn; auto.
    + destruct Hl as [-> ->]. left. cbn. apply elem_of_app. right. left.
  - destruct ph; cbn; auto. destruct handle; cbn; [|by destruct halt]. destruct He as [He|He]; auto.
Qed.
(** What the steps decrease. *)
Definition d_left (s : dst) : nat :=
  6 * length (d_calls s) + match d_pc s with MIdle => 0 | MStarting => 1 | MJoining _ => 1 | MAwait => 2 | MFree => 1 end + match d_ph s with PFresh => 2 | PLive => 1 | _ => 0 end + (if d_term s then 0 else 1).
Lemma left_step mux s a : a <> DGiveUp -> d_left (d_step mux s a) <= d_left s.
Proof.
  intros Ha. destruct s as [ph jn st halt alive calls pc term log]. destruct term; [done|]. destruct a as [| |handle]; [|done|].
  - destruct pc as [| |b| |]; cbn.
    + destruct calls as [|[] r]; [done|..]; destruct mux, st, jn, ph; unfold d_left; cbn; lia.
    + destruct ph; unfold d_left; cbn; lia.
    + destruct ph; unfold d_left; cbn; lia.
    + destruct ph; unfold d_left; cbn; lia.
    + destruct jn; unfold d_left; cbn; lia.
  - destruct ph, handle, halt; unfold d_left; cbn; lia.
Qed.
(** Two states that differ in their logs only. *)
Definition same (s t : dst) : Prop := d_ph s = d_ph t /\ d_joinable s = d_joinable t /\ d_started s = d_started t /\ d_halt s = d_halt t /\ d_alive s = d_alive t /\ d_calls s = d_calls t /\ d_pc s = d_pc t /\ d_term s = d_term t.
Lemma same_left s t : same s t -> d_left s = d_left t.
Proof. intros (E1 & _ & _ & _ & _ & E2 & E3 & E4). unfold d_left. by rewrite E1, E2, E3, E4. Qed.
Lemma same_trans s t u : same s t -> same t u -> same s u.
Proof. unfold same. intuition congruence. Qed.
Lemma same_step mux s t a : same s t -> same (d_step mux s a) (d_step mux t a).
Proof.
  destruct s as [ph jn st halt alive calls pc term log], t. unfold same. cbn. intros (<- & <- & <- & <- & <- & <- & <- & <-).
  destruct term; [done|]. destruct a as [| |handle].
  - destruct pc as [| |b| |]; cbn; [destruct calls as [|[] r]; [done|..]; destruct mux, st, jn; done|destruct ph; done..|destruct jn; done].
  - destruct pc; try done. destruct mux; done.
  - destruct ph; cbn; try done. destruct handle; [done|]. destruct halt; done.
Qed.
Lemma keep_same mux s a : a <> DGiveUp -> d_left (d_step mux s a) = d_left s -> same (d_step mux s a) s.
Proof.
  intros Ha. destruct s as [ph jn st halt alive calls pc term log]. destruct term; [done|]. destruct a as [| |handle]; [|done|].
  - destruct pc as [| |b| |]; cbn.
    + destruct calls as [|[] r]; [done|..]; destruct mux, st, jn, ph; unfold d_left; cbn; intros; lia.
    + destruct ph; unfold d_left; cbn; intros; try lia; done.
    + destruct ph; unfold d_left; cbn; intros; try lia; done.
    + destruct ph; unfold d_left; cbn; intros; try lia; done.
    + destruct jn; unfold d_left; cbn; intros; lia.
  - destruct ph, handle, halt; unfold d_left; cbn; intros; try lia; done.
Qed.
Lemma unfinished_moves mux s : d_term s = false -> link s -> PP s -> d_calls s <> [] \/ d_pc s <> MIdle ->
  d_left (d_step mux s DMain) < d_left s \/ d_left (d_step mux s (DCons false)) < d_left s.
Proof.
  intros Ht Hl [P1 P2] Hu. destruct s as [ph jn st halt alive calls pc term log]. unfold link in Hl. cbn in *. subst term.
  destruct pc as [| |b| |]; cbn.
  - destruct calls as [|[] r]; [by destruct Hu|..]; left; destruct mux, st, jn, ph; unfold d_left; cbn; lia.
  - destruct P1 as [-> | ->]; [right|left]; unfold d_left; cbn; lia.
  - destruct P1 as [[-> ->] | ->]; [right|left]; unfold d_left; cbn; lia.
  - subst ph. left. unfold d_left; cbn; lia.
  - destruct Hl as [-> _]. left. unfold d_left; cbn; lia.
Qed.
Definition d_fair (round : list dact) : Prop := DMain ∈ round /\ DCons false ∈ round /\ DGiveUp ∉ round.
Lemma round_down mux round s : DGiveUp ∉ round -> d_left (fold_left (d_step mux) round s) <= d_left s /\
  (d_left (fold_left (d_step mux) round s) = d_left s -> same (fold_left (d_step mux) round s) s /\ forall a, a ∈ round -> d_left (d_step mux s a) = d_left s).
Proof.
  revert s. induction round as [|a r IH]; intros s Hg. { split; [done|]. intros _. split; [done|]. intros a Ha. by apply elem_of_nil in Ha. }
  assert (Ha : a <> DGiveUp) by (intros ->; apply Hg; left). cbn [fold_left]. destruct (IH (d_step mux s a)) as [H1 H2]; [intros Hx; apply Hg; by right|].
  pose proof (left_step mux s a Ha) as H3. split; [lia|]. intros E. assert (E1 : d_left (d_step mux s a) = d_left s) by lia. pose proof (keep_same mux s a Ha E1) as Hk.
  destruct H2 as [H4 H5]; [lia|]. split; [by eapply same_trans|]. intros b [->|Hb]%elem_of_cons; [done|].
  rewrite <- E1, <- (H5 b Hb). symmetry. apply same_left. by apply same_step.
Qed.
Lemma run_good (mux : bool) acts s : DGiveUp ∉ acts -> (if mux then MI s else DI s) -> PP s -> ending s ->
  let s' := fold_left (d_step mux) acts s in (if mux then MI s' else DI s') /\ PP s' /\ ending s'.
Proof.
  revert s. induction acts as [|a acts IH]; intros s Hg H1 H2 H3; [done|]. cbn. assert (Ha : a <> DGiveUp) by (intros ->; apply Hg; left). destruct (inv_link _ _ H1) as [Ht Hl].
  apply IH; [intros Hx; apply Hg; by right|destruct mux; [by apply mi_step|by apply di_step]|by apply pp_step|by apply ending_step].
Qed.
Theorem C115_returns mux calls rounds : proper mux calls -> (exists pre, calls = pre ++ [DDestroy]) -> Forall d_fair rounds -> 6 * length calls + 1 < length rounds ->
  VDestroyed ∈ d_log (d_run mux calls (concat rounds)).
Proof.
  intros Ho He Hf Hlen. apply inv_new in Ho. unfold d_run.
  assert (Hm : d_left (d_new calls) < length rounds) by (unfold d_left; cbn; lia). clear Hlen.
  assert (HP : PP (d_new calls)) by (constructor; cbn; done). assert (HE : ending (d_new calls)) by (unfold ending; cbn; eauto 10). clear He. revert Ho HP HE Hm.
  generalize (d_new calls). induction Hf as [|r rs (F1 & F2 & F3) Hf IH]; intros s Ho HP HE Hm; [cbn in Hm; lia|]. cbn [concat length] in *. rewrite fold_left_app.
  destruct (inv_link _ _ Ho) as [Ht Hl]. destruct (run_good mux r s F3 Ho HP HE) as (G1 & G2 & G3). destruct (round_down mux r s F3) as [R1 R2].
  destruct (decide (d_left (fold_left (d_step mux) r s) = d_left s)) as [E|E]; [|apply IH; auto; lia].
  destruct (R2 E) as [Hsame Hkeep].
  assert (Hfin : d_calls s = [] /\ d_pc s = MIdle).
  { destruct (decide (d_calls s = [])) as [?|?]; [|exfalso]; [destruct (d_pc s) eqn:Epc; [done|exfalso..]|].
    all: destruct (unfinished_moves mux s Ht Hl HP) as [H|H]; [rewrite ?Epc; auto; by right|rewrite (Hkeep _ F1) in H; lia|rewrite (Hkeep _ F2) in H; lia]. }
  assert (Hlog : forall a, a ∈ r ++ concat rs -> True) by done. clear Hlog. rewrite <- fold_left_app.
  assert (HD : VDestroyed ∈ d_log s) by (unfold ending in HE; rewrite (proj1 Hfin), (proj2 Hfin) in HE; destruct HE as [|[?|[?|[?|[pre Hx]]]]]; try done; by destruct pre).
  generalize (r ++ concat rs). intros acts. clear -HD. revert s HD. induction acts as [|a acts IH]; intros s HD; [done|]. cbn. apply IH.
  destruct s as [ph jn st halt alive calls pc term log]. cbn in *. assert (Hlog : forall e, VDestroyed ∈ log ++ [e]) by (intros e; apply elem_of_app; by left).
  destruct term; [done|]. destruct a as [| |handle]; cbn.
  - destruct pc as [| |b| |]; cbn; [destruct calls as [|[] ?]; [done|..]; destruct mux, st, jn; cbn; auto|destruct ph; cbn; auto..|destruct jn; cbn; auto].
  - destruct pc; cbn; auto. destruct mux; cbn; auto.
  - destruct ph; cbn; auto. destruct handle; cbn; auto. destruct halt; cbn; auto.
Qed.
(** ** C116 (refuted): destroying an event loop that is still started; starts that time out. *)
(** A program that destroys the event loop provider while it is started (its last start has not been followed by a stop). *)
Fixpoint unstopped (started : bool) (calls : list dcall) : Prop :=
  match calls with
  | [] => False
  | DStart :: r => unstopped true r
  | DStop :: r => unstopped false r
  | DDestroy :: r => started = true /\ r = []
  end.
Definition UP (s : dst) : Prop :=
  d_term s = true /\ VTerminate ∈ d_log s \/
  d_term s = false /\ d_pc s = MFree /\ d_joinable s = true \/
  d_term s = false /\ d_pc s <> MFree /\ d_pc s <> MAwait /\ d_pc s <> MJoining true /\ link s /\ (d_pc s = MStarting -> d_joinable s = true) /\ PP s /\ unstopped (d_started s) (d_calls s).
Lemma up_log s a : a <> DGiveUp -> UP s -> VDestroyed ∉ d_log s -> VDestroyed ∉ d_log (d_step false s a).
Proof.
  intros Ha H H0. assert (Hlog : forall e, e <> VDestroyed -> VDestroyed ∉ d_log s ++ [e]). { intros e He [|H1%elem_of_list_singleton]%elem_of_app; congruence. }
  destruct s as [ph jn st halt alive calls pc term log]. unfold UP in H. cbn in *. destruct term; [done|]. destruct H as [[? _]|H]; [done|]. destruct a as [| |handle]; [|done|].
  - destruct pc as [| |b| |]; cbn.
    + destruct calls as [|[] r]; [done|..|done]; destruct st, jn; cbn; auto.
    + destruct ph; cbn; auto.
    + destruct ph; cbn; auto. destruct b; [|auto]. naive_solver.
    + destruct ph; cbn; auto.
    + destruct jn; cbn; auto. naive_solver.
  - destruct ph; cbn; auto. destruct handle; cbn; [|by destruct halt]. destruct alive; auto.
Qed.
Lemma up_step s a : a <> DGiveUp -> UP s -> UP (d_step false s a).
Proof.
  intros Ha [[Ht Hv]|[(Ht & Hp & Hj)|(Ht & Hp & Hp2 & Hp3 & Hl & Hms & HP & Hu)]].
  - destruct s as [ph jn st halt alive calls pc term log]. cbn in Ht. subst term. cbn. by left.
  - destruct s as [ph jn st halt alive calls pc term log]. cbn in *. subst term pc jn. destruct a as [| |handle]; [|done|]; cbn.
    + left. split; [done|]. cbn. apply elem_of_app. right. left.
    + right. left. destruct ph; cbn; try done. destruct handle; cbn; [done|]. by destruct halt.
  - pose proof (pp_step false s a Ha Ht Hl HP) as HP'. right. destruct s as [ph jn st halt alive calls pc term log]. cbn in *. subst term. unfold link in Hl. destruct a as [| |handle]; [|done|]; cbn in *.
    + destruct pc as [| |b| |]; try done.
      * destruct calls as [|[] r]; cbn in *; [done|..].
        -- right. subst jn. destruct st; split_and!; try done.
        -- right. subst jn. destruct st; split_and!; try done.
        -- left. destruct Hu as [-> ->]. by subst jn.
      * right. specialize (Hms eq_refl). subst st jn. destruct ph; split_and!; try done.
      * right. destruct b; [done|]. destruct ph; split_and!; try done. cbn. destruct Hl as [-> _]. done.
    + right. destruct ph; cbn in *; [by split_and!..| |by split_and!]. destruct handle; [by split_and!|]. destruct halt; by split_and!.
Qed.
(** C116. An event loop provider that is destroyed while started: its destruction never returns, and in any schedule in which both threads take part it ends the program. *)
Lemma up_new calls : unstopped false calls -> UP (d_new calls).
Proof. intros Hu. right. right. cbn. split_and!; try done; by constructor. Qed.
Lemma up_run acts s : DGiveUp ∉ acts -> UP s -> VDestroyed ∉ d_log s -> UP (fold_left (d_step false) acts s) /\ VDestroyed ∉ d_log (fold_left (d_step false) acts s).
Proof.
  revert s. induction acts as [|a acts IH]; intros s Hg H1 H2; [done|]. cbn. assert (Ha : a <> DGiveUp) by (intros ->; apply Hg; left).
  apply IH; [intros Hx; apply Hg; by right|by apply up_step|by apply up_log].
Qed.
Theorem C116_destroy_started_never_returns_refuted calls acts : unstopped false calls -> DGiveUp ∉ acts -> VDestroyed ∉ d_log (d_run false calls acts).
Proof. intros Hu Hg. apply up_run; [done|by apply up_new|apply not_elem_of_nil]. Qed.
Lemma term_stays mux acts s : d_term s = true -> fold_left (d_step mux) acts s = s.
Proof. intros Ht. induction acts as [|a acts IH]; [done|]. cbn. destruct s as [ph jn st halt alive calls pc term log]. cbn in Ht. by subst term. Qed.
Theorem C116_destroy_started_terminates_refuted calls rounds : unstopped false calls -> Forall d_fair rounds -> 6 * length calls + 1 < length rounds ->
  VTerminate ∈ d_log (d_run false calls (concat rounds)).
Proof.
  intros Hu Hf Hlen. apply up_new in Hu. unfold d_run. assert (Hm : d_left (d_new calls) < length rounds) by (unfold d_left; cbn; lia). clear Hlen. revert Hu Hm.
  generalize (d_new calls). induction Hf as [|r rs (F1 & F2 & F3) Hf IH]; intros s HU Hm; [cbn in Hm; lia|]. cbn [concat length] in *. rewrite fold_left_app.
  destruct (d_term s) eqn:Ht. { rewrite !term_stays by (rewrite ?term_stays; done). destruct HU as [[_ ?]|[[? _]|[? _]]]; congruence. }
  destruct (round_down false r s F3) as [R1 R2].
  assert (HU' : UP (fold_left (d_step false) r s)). { clear -F3 HU. revert s HU. induction r as [|a r IH]; intros s HU; [done|]. cbn. apply IH; [intros Hx; apply F3; by right|]. apply up_step; [|done]. intros ->. apply F3. left. }
  destruct (decide (d_left (fold_left (d_step false) r s) = d_left s)) as [E|E]; [|apply IH; auto; lia]. exfalso.
  destruct (R2 E) as [_ Hkeep]. pose proof (Hkeep _ F1) as K1. pose proof (Hkeep _ F2) as K2. destruct HU as [[? _]|[(_ & Hp & Hj)|(_ & Hp & _ & _ & Hl & _ & HP & Hu)]]; [congruence|..].
  - destruct s as [ph jn st halt alive calls' pc term log]. cbn in *. subst. unfold d_left in K1. cbn in K1. lia.
  - destruct (unfinished_moves false s Ht Hl HP); [|lia..]. left. intros Ec. rewrite Ec in Hu. done.
Qed.
(** ... and an event handled meanwhile uses objects that are gone already. *)
Theorem C116_freed_use_refuted : exists acts, DGiveUp ∉ acts /\ VFreedUse ∈ d_log (d_run false [DStart; DDestroy] acts).
Proof. exists [DMain; DCons false; DMain; DMain; DCons true]. by vm_compute; split; [intros H; repeat (apply elem_of_cons in H as [H|H]; [done|]); by apply elem_of_nil in H|right; left]. Qed.
(** A start that times out: the subscriber of a multiplexer never reports it (the program ends) ... *)
Theorem C116_mux_timeout_unreported_refuted calls acts : VTimeout ∉ d_log (d_run true calls acts).
Proof.
  unfold d_run. assert (H : VTimeout ∉ d_log (d_new calls)) by apply not_elem_of_nil. revert H. generalize (d_new calls). induction acts as [|a acts IH]; intros s H; [done|]. cbn. apply IH.
  assert (Hlog : forall e, e <> VTimeout -> VTimeout ∉ d_log s ++ [e]). { intros e He [|H1%elem_of_list_singleton]%elem_of_app; congruence. }
  destruct s as [ph jn st halt alive calls' pc term log]. cbn in *. destruct term; [done|]. destruct a as [| |handle]; cbn.
  - destruct pc as [| |b| |]; cbn; [destruct calls' as [|[] ?]; [done|..]; destruct st, jn; cbn; auto|destruct ph; cbn; auto..|destruct jn; cbn; auto]. destruct b; auto.
  - destruct pc; cbn; auto.
  - destruct ph; cbn; auto. destruct handle; cbn; [|by destruct halt]. destruct alive; auto.
Qed.
Theorem C116_mux_timeout_terminates_refuted calls acts rest : d_pc (d_run true calls acts) = MStarting -> d_term (d_run true calls acts) = false -> VTerminate ∈ d_log (d_run true calls (acts ++ DGiveUp :: rest)).
Proof.
  unfold d_run. rewrite fold_left_app. generalize (fold_left (d_step true) acts (d_new calls)). intros s Hp Ht. destruct s as [ph jn st halt alive calls' pc term log]. cbn in *. subst pc term.
  rewrite term_stays by done. apply elem_of_app. right. left.
Qed.
(** ... and an event loop whose start has timed out cannot be stopped: the stop that follows at once never returns. *)
Definition hung (s : dst) : Prop := d_pc s = MJoining false /\ d_ph s = PLive /\ d_halt s = false.
Theorem C116_timeout_stop_hangs_refuted rest : VStopped ∉ d_log (d_run false [DStart; DStop] ([DMain; DGiveUp; DMain; DCons false] ++ rest)).
Proof.
  unfold d_run. rewrite fold_left_app. assert (H : hung (fold_left (d_step false) [DMain; DGiveUp; DMain; DCons false] (d_new [DStart; DStop]))) by done.
  assert (H0 : VStopped ∉ d_log (fold_left (d_step false) [DMain; DGiveUp; DMain; DCons false] (d_new [DStart; DStop]))) by (cbn; intros [H1|H1]%elem_of_cons; [done|]; by apply elem_of_nil in H1).
  revert H H0. generalize (fold_left (d_step false) [DMain; DGiveUp; DMain; DCons false] (d_new [DStart; DStop])). induction rest as [|a rest IH]; intros s H H0; [done|]. cbn.
  assert (Hlog : forall e, e <> VStopped -> VStopped ∉ d_log s ++ [e]). { intros e He [|H1%elem_of_list_singleton]%elem_of_app; congruence. }
  destruct s as [ph jn st halt alive calls' pc term log]. destruct H as (E1 & E2 & E3). cbn in *. subst. apply IH; destruct term; try done; destruct a as [| |[|]]; cbn; try done. apply Hlog. by destruct alive.
Qed.
(** Examples. Two starts and stops, then the destruction; a multiplexer subscriber that handles an event and is destroyed. *)
Example C115_ex_event_loop : proper false [DStart; DStop; DStart; DStop; DDestroy] /\
  d_log (d_run false [DStart; DStop; DStart; DStop; DDestroy] [DMain; DCons false; DMain; DCons true; DMain; DCons true; DCons false; DMain; DMain; DCons false; DMain; DMain; DCons false; DMain; DMain; DMain]) =
  [VStarted; VHandled; VHandled; VStopped; VStarted; VStopped; VDestroyed].
Proof. by vm_compute. Qed.
Example C115_ex_mux : proper true [DStart; DDestroy] /\ d_log (d_run true [DStart; DDestroy] [DMain; DCons false; DMain; DCons true; DMain; DCons true; DMain; DCons true; DCons false; DMain]) = [VStarted; VHandled; VHandled; VHandled; VDestroyed].
Proof. split; [|by vm_compute]. exists [DStart]. split; [|by right]. intros H%elem_of_list_singleton. done. Qed.
Example C115_ex_fair : Forall d_fair (replicate 32 [DMain; DCons true; DCons false]).
Proof. apply Forall_forall. intros r [-> _]%elem_of_replicate. split_and!; [left|right; right; left|]. intros H. repeat (apply elem_of_cons in H as [H|H]; [done|]). by apply elem_of_nil in H. Qed.
Example C116_ex : unstopped false [DStart; DDestroy] /\ d_log (d_run false [DStart; DDestroy] [DMain; DCons false; DMain; DMain; DCons true; DMain]) = [VStarted; VFreedUse; VTerminate].
Proof. by vm_compute. Qed.
Print Assumptions C115_event_loop.
Print Assumptions C115_multiplexer.
Print Assumptions C115_silent_after.
Print Assumptions C115_returns.
Print Assumptions C116_destroy_started_never_returns_refuted.
Print Assumptions C116_destroy_started_terminates_refuted.
Print Assumptions C116_freed_use_refuted.
Print Assumptions C116_mux_timeout_unreported_refuted.
Print Assumptions C116_mux_timeout_terminates_refuted.
Print Assumptions C116_timeout_stop_hangs_refuted.
(** Every stop() of an event loop returns before the calls after it are made: as many have returned as were called when the program is between calls. *)
Definition ev_is (e : dev) (x : dev) : bool := match e, x with VStopped, VStopped => true | _, _ => false end.
Definition stopped (log : list dev) : nat := length (List.filter (ev_is VStopped) log).
Definition stops (calls : list dcall) : nat := length (List.filter (fun c => match c with DStop => true | _ => false end) calls).
Definition stop_inv (n : nat) (s : dst) : Prop := d_term s = true \/
  (stopped (d_log s) + stops (d_calls s) + (match d_pc s with MJoining false => 1 | _ => 0 end) = n /\ (d_started s = true -> d_joinable s = true) /\
  match d_pc s with MJoining b => b = false /\ d_started s = false | MAwait => False | _ => True end).
Lemma stopped_snoc log e : stopped (log ++ [e]) = stopped log + (if ev_is VStopped e then 1 else 0).
Proof. unfold stopped. rewrite List.filter_app, app_length. cbn. by destruct e. Qed.
Lemma stops_cons c l : stops (c :: l) = (match c with DStop => 1 | _ => 0 end) + stops l.
Proof. by destruct c. Qed.
Lemma stop_inv_step n s a : stop_inv n s -> stop_inv n (d_step false s a).
Proof.
  intros H. destruct s as [ph jn st halt alive calls pc term log]. destruct H as [H|(H1 & H2 & H3)]; [left; cbn in *; by subst|].
  cbn [d_term d_log d_calls d_pc d_started d_joinable] in H1, H2, H3. unfold stop_inv. destruct term; [by left|].
  destruct a as [| |handle]; cbn [d_step].
  - destruct pc as [| |b| |]; cbv beta iota in H1, H3.
    + destruct calls as [|[] r]; [right; done|rewrite stops_cons in H1..].
      * destruct st; [|destruct jn; [by left|]]; right; cbn [d_term d_log d_calls d_pc d_started d_joinable]; rewrite ?stopped_snoc; cbn [ev_is]; (split; [lia|]); split; auto.
      * destruct st; right; cbn [d_term d_log d_calls d_pc d_started d_joinable].
        -- rewrite (H2 eq_refl). split; [lia|]. done.
        -- rewrite ?stopped_snoc. cbn [ev_is]. split; [lia|]. split; [done|done].
      * right; cbn [d_term d_log d_calls d_pc d_started d_joinable]. split; [lia|]. split; done.
    + destruct ph; try (by right). right. cbn [d_term d_log d_calls d_pc d_started d_joinable]. rewrite stopped_snoc. cbn [ev_is]. split; [lia|]. done.
    + destruct H3 as [-> ->]. destruct ph; try (by right). right. cbn [d_term d_log d_calls d_pc d_started d_joinable]. rewrite stopped_snoc. cbn [ev_is]. split; [lia|]. done.
    + done.
    + destruct jn; [by left|]. right. cbn [d_term d_log d_calls d_pc d_started d_joinable]. rewrite stopped_snoc. cbn [ev_is]. split; [lia|]. done.
  - destruct pc; cbv beta iota in H1; try (by right). right. cbn [d_term d_log d_calls d_pc d_started d_joinable]. rewrite stopped_snoc. cbn [ev_is]. cbv beta iota. split; [lia|]. done.
  - destruct ph; try (by right). destruct handle; [|destruct halt; by right]. right. cbn [d_term d_log d_calls d_pc d_started d_joinable]. rewrite stopped_snoc. destruct alive, pc as [| |[]| |]; cbn [ev_is]; cbv beta iota in H1; (split; [lia|]); done.
Qed.
Theorem C115_stops_return calls acts : let s := d_run false calls acts in
  d_term s = false -> d_pc s = MIdle -> stopped (d_log s) + stops (d_calls s) = stops calls.
Proof.
  intros s Ht Hp. assert (H : stop_inv (stops calls) s).
  { unfold s, d_run. assert (H0 : stop_inv (stops calls) (d_new calls)) by (right; cbn [d_new d_log d_calls d_pc d_started d_joinable stopped List.filter length Nat.add]; split; [lia|done]). revert H0. clear s Ht Hp. generalize (d_new calls).
    induction acts as [|a acts IH]; intros x H0; [done|]. cbn [fold_left]. by apply IH, stop_inv_step. }
  destruct H as [H|(H & _)]; [congruence|]. rewrite Hp in H. rewrite Nat.add_0_r in H. exact H.
Qed.
Example C115_stops_case : let s := d_run false [DStart; DStop; DStop; DStart; DStop; DDestroy] [DMain; DCons false; DMain; DMain; DCons false; DMain; DMain; DMain; DCons false; DMain; DMain; DCons false; DMain] in
  d_term s = false /\ d_pc s = MIdle /\ d_calls s = [DDestroy] /\ stopped (d_log s) = 3.
Proof. by vm_compute. Qed.
Print Assumptions C115_stops_return.
(** What is said to end the program does end it, and nothing else. *)
Theorem C115_terminated mux calls acts : d_term (d_run mux calls acts) = true <-> VTerminate ∈ d_log (d_run mux calls acts).
Proof.
  unfold d_run. assert (H : d_term (d_new calls) = true <-> VTerminate ∈ d_log (d_new calls)). { cbn. split; [done|by intros ?%elem_of_nil]. }
  revert H. generalize (d_new calls). induction acts as [|a acts IH]; intros s H; [done|]. cbn [fold_left]. apply IH. clear IH acts.
  destruct s as [ph jn st halt alive cs pc term log]. cbn [d_term d_log] in H. unfold d_step. destruct term; [done|].
  assert (Hn : VTerminate ∉ log) by (intros Hi; by apply H in Hi).
  assert (K : forall e, VTerminate ∈ log ++ [e] <-> e = VTerminate). { intros e. rewrite elem_of_app, elem_of_list_singleton. split; [by intros [?|?]|by right]. }
  destruct a as [| |handle]; repeat case_match; subst; cbn [d_term d_log]; rewrite ?K; split; intros ?; done.
Qed.
Print Assumptions C115_terminated.
