(** * C06, C08: the history records the calls that were made, and nothing else.
    The theorems about the safe emitter speak of the history; here it is tied to the calls of the threads. *)
From stdpp Require Import prelude strings list_numbers.
From Verif Require Import Base SafeEmitter_Model SafeEmitter_Spec SafeEmitter_Props.
Local Open Scope Z_scope.
Local Open Scope string_scope.
Local Open Scope list_scope.
(** A thread can call the emitter when it is idle or inside a callback. *)
Definition may_call (t : nat) (s : em) : Prop := e_thr s !! t = Some [] \/ exists k h st, e_thr s !! t = Some (FCb k h :: st).
(** What a call leaves in the history: on() a repeating listener, once() a one-off one. *)
Definition records (c : call) (x : logev) : Prop :=
  match c with
  | COn sub cb => exists id, x = LOn id sub false cb
  | COnce sub cb => exists id, x = LOn id sub true cb
  | CRemove id => x = LRemoved id \/ x = LInvalid id
  | CRemoveAll => x = LClear
  | CEmit sub ev => exists k, x = LEmit k sub ev
  | CDiscard sub => x = LDiscard sub
  end.
Lemma run_snoc s acts a : run s (acts ++ [a]) = exec (run s acts) a.
Proof. unfold run. by rewrite fold_left_app. Qed.
Theorem C06_call_recorded n acts t c : may_call t (run (em_new n) acts) -> exists x, history n (acts ++ [ACall t c]) = history n acts ++ [x] /\ records c x.
Proof.
  intros H. unfold history. rewrite run_snoc. set (s := run _ _) in *.
  assert (E : exists st, exec s (ACall t c) = do_call t st c s) by (cbn [exec]; destruct H as [-> |(k & h & st & ->)]; eauto). destruct E as [st ->].
  destruct c as [sub cb|sub cb|id| |sub ev|sub]; cbn [do_call records].
  - unfold add_listener. cbn [log e_log rev]. eexists. split; [done|]. by eexists.
  - unfold add_listener. cbn [log e_log rev]. eexists. split; [done|]. by eexists.
  - unfold remove_listener. destruct (erase_id id (e_ls s)); cbn [fst log set_ls e_log rev]; eexists; (split; [done|]); auto.
  - by eexists.
  - cbn [log e_log rev]. eexists. split; [done|]. by eexists.
  - by eexists.
Qed.
(** Nothing else enters the history but invocations, ends of emissions, and removals of one-off listeners. *)
Definition by_emission (h : list logev) (x : logev) : Prop :=
  match x with LInvoke _ _ _ _ | LEnd _ | LAbort _ | LInvalid _ => True | LRemoved id => is_once id h | _ => False end.
Definition logged (s : em) (l : listener) : Prop := LOn (l_id l) (l_sub l) (l_once l) (l_cb l) ∈ e_log s.
Definition of_frame (f : frame) : list listener := match f with FEmit _ _ _ hs => hs | FCb _ h => [h] end.
Definition RI (s : em) : Prop := (forall l, l ∈ e_ls s -> logged s l) /\ forall t st f l, e_thr s !! t = Some st -> f ∈ st -> l ∈ of_frame f -> logged s l.
Lemma ri_ext s s' : (forall x, x ∈ e_log s -> x ∈ e_log s') -> (forall l, l ∈ e_ls s' -> logged s' l \/ exists l0, l0 ∈ e_ls s /\ (l_id l, l_sub l, l_once l, l_cb l) = (l_id l0, l_sub l0, l_once l0, l_cb l0)) ->
  (forall t st f l, e_thr s' !! t = Some st -> f ∈ st -> l ∈ of_frame f -> l ∈ e_ls s \/ exists t st0 f0, e_thr s !! t = Some st0 /\ f0 ∈ st0 /\ l ∈ of_frame f0) -> RI s -> RI s'.
Proof.
  intros Hx Hl Hf [A B]. split.
  - intros l H. destruct (Hl l H) as [?|(l0 & H0 & [= E1 E2 E3 E4])]; [done|]. unfold logged. rewrite E1, E2, E3, E4. apply Hx. by apply A.
  - intros t st f l H1 H2 H3. destruct (Hf _ _ _ _ H1 H2 H3) as [H|(t0 & st0 & f0 & G1 & G2 & G3)]; apply Hx; [by apply A|by eapply B].
Qed.
Lemma erase_in id ls r l : erase_id id ls = Some r -> l ∈ r -> l ∈ ls.
Proof.
  revert r. induction ls as [|x ls IH]; intros r; cbn; [done|]. destruct (l_id x =? id)%Z.
  - intros [= <-] H. by right.
  - destruct (erase_id id ls) as [r'|]; [|done]. intros [= <-] [-> |H]%elem_of_cons; [left|right; by eapply IH].
Qed.
Lemma ri_call s t st c : (e_thr s !! t = Some st \/ st = []) -> RI s -> RI (do_call t st c s).
Proof.
  intros Hst R. assert (F : forall t' st' f l, e_thr s !! t' = Some st' -> f ∈ st' -> l ∈ of_frame f -> l ∈ e_ls s \/ exists t st0 f0, e_thr s !! t = Some st0 /\ f0 ∈ st0 /\ l ∈ of_frame f0) by eauto 10.
  destruct c as [sub cb|sub cb|id| |sub ev|sub]; cbn [do_call].
  - eapply ri_ext; [..|exact R]; unfold add_listener; cbn [log e_log e_ls e_thr]; [intros x H; by right| |exact F].
    intros l [H| ->%elem_of_list_singleton]%elem_of_app; [right; eauto|left]. by left.
  - eapply ri_ext; [..|exact R]; unfold add_listener; cbn [log e_log e_ls e_thr]; [intros x H; by right| |exact F].
    intros l [H| ->%elem_of_list_singleton]%elem_of_app; [right; eauto|left]. by left.
  - unfold remove_listener. destruct (erase_id id (e_ls s)) as [ls|] eqn:E; cbn [fst]; (eapply ri_ext; [..|exact R]; cbn [log set_ls e_log e_ls e_thr]; [intros x H; by right| |exact F]); intros l H; right; exists l; (split; [|done]); [by eapply erase_in|done].
  - eapply ri_ext; [..|exact R]; cbn [log set_ls e_log e_ls e_thr]; [intros x H; by right|intros l H; by apply elem_of_nil in H|exact F].
  - eapply ri_ext; [..|exact R]; cbn [log e_log e_ls e_thr]; [intros x H; by right|intros l H; right; eauto|].
    intros t' st' f l [(<- & <- & _)|[Hne Hx]]%list_lookup_insert_Some; [|by eapply F].
    intros [-> |Hf]%elem_of_cons Hl; [left; cbn in Hl; by apply elem_of_list_filter in Hl as [_ ?]|]. destruct Hst as [Hst| ->]; [by eapply F|by apply elem_of_nil in Hf].
  - eapply ri_ext; [..|exact R]; cbn [log set_ls e_log e_ls e_thr]; [intros x H; by right| |exact F]. intros l H. right. unfold discard in H. apply elem_of_list_fmap in H as (l0 & -> & H). exists l0. split; [done|].
    by destruct (bool_decide _ && negb _).
Qed.
Lemma ri_step s a : RI s -> RI (exec s a).
Proof.
  intros R. assert (F : forall t' st' f l, e_thr s !! t' = Some st' -> f ∈ st' -> l ∈ of_frame f -> l ∈ e_ls s \/ exists t st0 f0, e_thr s !! t = Some st0 /\ f0 ∈ st0 /\ l ∈ of_frame f0) by eauto 10.
  destruct a as [t c|t|t|t]; cbn [exec].
  - destruct (e_thr s !! t) as [[|[? ? ? ?|k h] st]|] eqn:E; try done; apply ri_call; auto.
  - destruct (e_thr s !! t) as [[|[k sub ev [|h hs]|k h] st]|] eqn:E; try done; (eapply ri_ext; [..|exact R]; cbn [log set_stack e_log e_ls e_thr]; [intros x H; by right|intros l H; right; eauto|]);
      intros t' st' f l [(<- & <- & _)|[Hne Hx]]%list_lookup_insert_Some; try (by eapply F).
    + intros Hf Hl. eapply F; [exact E| |exact Hl]. by right.
    + intros [-> |[-> |Hf]%elem_of_cons]%elem_of_cons Hl; (eapply F; [exact E| |]); [left|..]; [cbn in Hl |- *; apply elem_of_list_singleton in Hl as ->; left|left|cbn in Hl |- *; by right|by right|done].
  - destruct (e_thr s !! t) as [[|[? ? ? ?|k h] st]|] eqn:E; try done.
    assert (P : forall s', e_ls s' = e_ls s \/ (exists id, erase_id id (e_ls s) = Some (e_ls s')) -> (forall x, x ∈ e_log s -> x ∈ e_log s') -> forall st2, (forall f, f ∈ st2 -> f ∈ st) -> e_thr s' = <[t := st2]> (e_thr s) -> RI s').
    { intros s' H1 H2 st2 H3 H4. eapply ri_ext; [exact H2| | |exact R].
      - intros l H. right. exists l. split; [|done]. destruct H1 as [<- |[id H1]]; [done|]. by eapply erase_in.
      - intros t' st' f l H Hf Hl. rewrite H4 in H. apply list_lookup_insert_Some in H as [(<- & <- & _)|[Hne Hx]]; [|by eapply F]. eapply F; [exact E| |exact Hl]. right. by apply H3. }
    destruct (l_once h); [|apply P with (st2 := st); cbn; auto]. unfold remove_listener. destruct (erase_id (l_id h) (e_ls s)) as [ls|] eqn:E2.
    + apply P with (st2 := st); cbn; eauto. intros x Hx. by right.
    + unfold unwind. apply P with (st2 := match st with FEmit _ _ _ _ :: r => r | _ => st end); cbn; eauto.
      * intros x Hx. by do 2 right.
      * intros f Hf. destruct st as [|[] ?]; [done|by right|done].
  - destruct (e_thr s !! t) as [[|[? ? ? ?|k h] st]|] eqn:E; try done. unfold unwind. eapply ri_ext; [..|exact R]; cbn [log set_stack e_log e_ls e_thr]; [intros x H; by right|intros l H; right; eauto|].
    intros t' st' f l [(<- & <- & _)|[Hne Hx]]%list_lookup_insert_Some; [|by eapply F]. intros Hf Hl. eapply F; [exact E| |exact Hl]. right. destruct st as [|[] ?]; [done|by right|done].
Qed.

Lemma ri_run n acts : RI (run (em_new n) acts).
Proof.
  induction acts as [|a acts IH] using rev_ind; [|rewrite run_snoc; by apply ri_step]. split; [intros l H; by apply elem_of_nil in H|]. intros t st f l H Hf. cbn in H.
  apply lookup_replicate in H as [-> _]. by apply elem_of_nil in Hf.
Qed.
Theorem C08_only_one_off_removed_by_emissions n acts a : (forall t c, a <> ACall t c) -> exists xs, history n (acts ++ [a]) = history n acts ++ xs /\ Forall (by_emission (history n acts)) xs.
Proof.
  intros Ha. unfold history. rewrite run_snoc. pose proof (ri_run n acts) as [_ R]. set (s := run _ _) in *. assert (N : exists xs : list logev, rev (e_log s) = rev (e_log s) ++ xs /\ Forall (by_emission (rev (e_log s))) xs) by (exists []; by rewrite app_nil_r).
  destruct a as [t c|t|t|t]; cbn [exec]; [by edestruct Ha|..]; destruct (e_thr s !! t) as [[|[k sub ev [|h hs]|k h] st]|] eqn:E; try exact N.
  - exists [LEnd k]. split; [done|]. by repeat constructor.
  - eexists. split; [cbn; reflexivity|]. by repeat constructor.
  - destruct (l_once h) eqn:Eo; [|exact N]. unfold remove_listener. destruct (erase_id _ _) as [ls|]; cbn.
    + eexists. split; [reflexivity|]. constructor; [|constructor]. cbn. exists (l_sub h), (l_cb h). rewrite elem_of_list_In, <- in_rev, <- elem_of_list_In. rewrite <- Eo. eapply R; [exact E|left|cbn; left].
    + eexists. rewrite <- app_assoc. split; [reflexivity|]. by repeat constructor.
  - eexists. split; [cbn; reflexivity|]. by repeat constructor.
Qed.
(** Concrete: a repeating and a one-off listener, an emission. *)
Example C06_record_case : may_call 0 (run (em_new 1) []) /\ history 1 [ACall 0 (COn "a" 7); ACall 0 (COnce "a" 8); ACall 0 (CEmit "a" 5); AStep 0; AReturn 0; AStep 0; AReturn 0; AStep 0] =
  [LOn 1 "a" false 7; LOn 2 "a" true 8; LEmit 0 "a" 5; LInvoke 0 1 7 5; LInvoke 0 2 8 5; LRemoved 2; LEnd 0].
Proof. split; [by left|]. by vm_compute. Qed.
Print Assumptions C06_call_recorded.
Print Assumptions C08_only_one_off_removed_by_emissions.
