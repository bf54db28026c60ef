(** * Lemmas about the state machine and its listener. *)
From stdpp Require Import prelude strings gmap.
From Verif Require Import StateMachine_Model StateMachine_Spec.
Local Open Scope string_scope.
Local Open Scope list_scope.

(** ** The table is the description. *)
Definition add_state (m : gmap string (list ctrans)) (st : cstate) := <[cs_id st := cs_trans st]> m.
Lemma table_lookup_gen (l : list cstate) (m : gmap string (list ctrans)) q ts :
  NoDup (cs_id <$> l) ->
  fold_left add_state l m !! q = Some ts <->
  CState q ts ∈ l \/ (q ∉ (cs_id <$> l) /\ m !! q = Some ts).
Proof.
  revert m. induction l as [|[i t] l IH]; intros m Hn; simpl in *.
  - split; [intros H; right; split; [apply not_elem_of_nil|done] | intros [H|[_ H]]; [by apply elem_of_nil in H|done]].
  - apply NoDup_cons in Hn as [Hi Hn]. rewrite IH by done. unfold add_state. cbn [cs_id cs_trans].
    rewrite not_elem_of_cons, elem_of_cons. split.
    + intros [H|[H1 H2]]; [by left; right|]. destruct (decide (i = q)) as [->|Hq].
      * rewrite lookup_insert in H2. injection H2 as ->. by left; left.
      * rewrite lookup_insert_ne in H2 by done. right. split; [split; [congruence|done]|done].
    + intros [[H|H]|[[H1 H2] H3]].
      * injection H as -> ->. right. split; [done|]. by rewrite lookup_insert.
      * by left.
      * right. split; [done|]. rewrite lookup_insert_ne; [done|congruence].
Qed.
Lemma table_lookup c q ts : NoDup (names c) -> table c !! q = Some ts <-> CState q ts ∈ cf_states c.
Proof.
  intros Hn. unfold table. change (fun m st => <[cs_id st := cs_trans st]> m) with add_state.
  rewrite (table_lookup_gen (cf_states c) ∅ q ts Hn). rewrite lookup_empty.
  split; [intros [H|[_ H]]; [done|congruence] | by left].
Qed.
Lemma table_none c q : NoDup (names c) -> table c !! q = None <-> q ∉ names c.
Proof.
  intros Hn. split.
  - intros H Hin. apply elem_of_list_fmap in Hin as [[i ts] [-> Hst]]. apply (table_lookup c i ts Hn) in Hst. cbn in H. congruence.
  - intros H. destruct (table c !! q) as [ts|] eqn:E; [|done]. exfalso. apply H.
    apply table_lookup in E; [|done]. apply elem_of_list_fmap. by exists (CState q ts).
Qed.

Lemma fire_some ts e d : fire ts e = Some d <-> exists t1 t2, ts = t1 ++ CTrans d e :: t2 /\ Forall (fun t => ct_event t <> e) t1.
Proof.
  induction ts as [|[d' e'] ts IH]; simpl.
  - split; [done|]. intros (t1 & t2 & H & _). by destruct t1.
  - destruct (decide (e = e')) as [->|Hne].
    + split.
      * injection 1 as ->. by exists [], ts.
      * intros ([|t t1] & t2 & H & HF); [simpl in H; congruence|]. simpl in H. injection H; intros; subst.
        apply Forall_cons in HF as [HF _]. by simpl in HF.
    + rewrite IH. split.
      * intros (t1 & t2 & -> & HF). exists (CTrans d' e' :: t1), t2. split; [done|]. constructor; [simpl; congruence|done].
      * intros ([|t t1] & t2 & H & HF); [simpl in H; congruence|]. simpl in H. injection H; intros; subst.
        apply Forall_cons in HF as [_ HF]. by exists t1, t2.
Qed.
Lemma describes_fire c q e d ts : NoDup (names c) -> table c !! q = Some ts -> describes c q e d <-> fire ts e = Some d.
Proof.
  intros Hn Ht. rewrite fire_some. split.
  - intros (b & a & t1 & t2 & Hs & HF). exists t1, t2. split; [|done].
    assert (CState q (t1 ++ CTrans d e :: t2) ∈ cf_states c) as Hin by (rewrite Hs; apply elem_of_app; right; left).
    apply table_lookup in Hin; [|done]. congruence.
  - intros (t1 & t2 & -> & HF). apply table_lookup in Ht; [|done].
    apply elem_of_list_split in Ht as (b & a & Hs). by exists b, a, t1, t2.
Qed.
Lemma no_transition_fire c q e ts : NoDup (names c) -> table c !! q = Some ts -> no_transition c q e <-> fire ts e = None.
Proof.
  intros Hn Ht. unfold no_transition. split.
  - intros H. destruct (fire ts e) as [d|] eqn:E; [|done]. exfalso. apply (H d). by apply (describes_fire c q e d ts).
  - intros E d H. apply (describes_fire c q e d ts) in H; [congruence|done..].
Qed.
Lemma describes_in c q e d : describes c q e d -> q ∈ names c.
Proof. intros (b & a & t1 & t2 & Hs & _). unfold names. rewrite Hs, fmap_app. apply elem_of_app. right. left. Qed.

Lemma consume_spec ts cur q :
  let '(d, r, k, ch) := consume ts cur q in
  (exists pre e, q = pre ++ e :: r /\ Forall (fun x => fire ts x = None) pre /\ fire ts e = Some d /\ k = pre ++ [e] /\ ch = true)
  \/ (Forall (fun x => fire ts x = None) q /\ d = cur /\ r = [] /\ k = q /\ ch = false).
Proof.
  induction q as [|e q IH]; simpl; [by right|].
  destruct (fire ts e) as [d|] eqn:E.
  - left. exists [], e. done.
  - destruct (consume ts cur q) as [[[d r] k] ch]. destruct IH as [(pre & e' & -> & HF & Hf & -> & ->)|(HF & -> & -> & -> & ->)].
    + left. exists (e :: pre), e'. repeat split; try done. by constructor.
    + right. repeat split; try done. by constructor.
Qed.

Lemma initial_gen l i : i <> "" -> fold_left (fun i st => if decide (i = "") then cs_id st else i) l i = i.
Proof. intros H. induction l as [|x l IH]; simpl; [done|]. by rewrite decide_False. Qed.
Lemma initial_in c : cf_states c <> [] -> "" ∉ names c -> initial c ∈ names c.
Proof.
  unfold initial, names. destruct (cf_states c) as [|x l]; [done|]. intros _ H. cbn [fold_left].
  rewrite decide_True by done. cbn in H. apply not_elem_of_cons in H as [H _]. rewrite initial_gen by done. left.
Qed.

(** ** Steps. *)
Lemma steps_add m n c re s : steps (m + n) c re s = steps n c re (steps m c re s).
Proof. revert s. induction m; simpl; [done|]. intros s. apply IHm. Qed.
Lemma steps_S n c re s : steps (S n) c re s = step c re (steps n c re s).
Proof. rewrite <- Nat.add_1_r, steps_add. done. Qed.

Lemma notify_all c s os ch st :
  s_ub s = false -> s_stack s = FNotify os ch :: st ->
  steps (2 * length os + 1) c quiet s =
  Sm (s_started s) (s_cur s) (s_queue s) (s_obs s) st false (s_notes s ++ ((fun o => Note o (shown c (s_cur s)) ch) <$> os))
     (s_accepted s) (s_consumed s) (s_since s).
Proof.
  revert s. induction os as [|o os IH]; intros s Hub Hst.
  - simpl. unfold step. rewrite Hub, Hst. simpl. by rewrite app_nil_r.
  - replace (2 * length (o :: os) + 1) with (2 + (2 * length os + 1)) by (simpl; lia). rewrite steps_add.
    set (s2 := Sm (s_started s) (s_cur s) (s_queue s) (s_obs s) (FNotify os ch :: st) false
                  (s_notes s ++ [Note o (shown c (s_cur s)) ch]) (s_accepted s) (s_consumed s) (s_since s)).
    assert (steps 2 c quiet s = s2) as ->.
    { cbn [steps]. unfold step at 2. rewrite Hub, Hst. done. }
    rewrite (IH s2) by done. unfold s2. cbn. rewrite <- app_assoc. done.
Qed.

Definition inv (c : config) (s : sm) : Prop :=
  s_accepted s = s_consumed s ++ s_queue s /\ path c (initial c) (s_since s) (s_cur s) /\ (exists p, s_consumed s = p ++ s_since s).

Lemma path_app c q es q' es' q'' : path c q es q' -> path c q' es' q'' -> path c q (es ++ es') q''.
Proof. induction 1; simpl; [done| |]; intros Hp; [eapply path_fire; [done|auto] | apply path_skip; auto]. Qed.
Lemma path_skips c q es : Forall (no_transition c q) es -> path c q es q.
Proof. induction 1; [constructor|by apply path_skip]. Qed.
Lemma consume_path c cur ts q d r k ch :
  NoDup (names c) -> table c !! cur = Some ts -> consume ts cur q = (d, r, k, ch) -> q = k ++ r /\ path c cur k d.
Proof.
  intros Hn Ht E. pose proof (consume_spec ts cur q) as H. rewrite E in H.
  destruct H as [(pre & e & -> & HF & Hf & -> & _)|(HF & -> & -> & -> & _)].
  - split; [by rewrite <- app_assoc|]. eapply path_app.
    + apply path_skips. eapply Forall_impl; [exact HF|]. intros x Hx. by apply (no_transition_fire c cur x ts).
    + eapply path_fire; [|constructor]. by apply (describes_fire c cur e d ts).
  - rewrite app_nil_r. split; [done|]. apply path_skips. eapply Forall_impl; [exact HF|]. intros x Hx. by apply (no_transition_fire c cur x ts).
Qed.
Lemma update_inv c s st : NoDup (names c) -> inv c s -> inv c (update c s st).
Proof.
  intros Hn (Ha & Hp & (p & Hs)). unfold update. destruct (s_started s); [|by repeat split; [..|exists p]].
  destruct (table c !! s_cur s) as [ts|] eqn:Ht; [|by repeat split; [..|exists p]].
  destruct (consume ts (s_cur s) (s_queue s)) as [[[d r] k] ch] eqn:E.
  apply (consume_path c) in E as [Hq Hk]; [|done..]. unfold inv. cbn. repeat split.
  - rewrite Ha, Hq, app_assoc. done.
  - by eapply path_app.
  - exists p. by rewrite Hs, app_assoc.
Qed.
Lemma enqueue_inv c s e : inv c s -> inv c (enqueue e s).
Proof.
  intros (Ha & Hp & Hs). unfold enqueue. destruct (s_started s); [|done]. unfold inv. cbn. repeat split; try done. by rewrite Ha, app_assoc.
Qed.
Lemma step_inv c re s : NoDup (names c) -> inv c s -> inv c (step c re s).
Proof.
  intros Hn H. unfold step. destruct (s_ub s); [done|]. destruct (s_stack s) as [|[[|x cs]|[|o os] ch] st]; try done.
  destruct x; cbn [exec]; try done.
  - destruct H as (Ha & Hp & (p & Hs)). unfold inv. cbn. repeat split; [done|constructor|]. exists (s_consumed s). by rewrite app_nil_r.
  - by apply update_inv.
  - apply (enqueue_inv c s e) in H. destruct H as (Ha & Hp & Hs). done.
  - apply update_inv; [done|]. by apply enqueue_inv.
Qed.
Lemma steps_inv c re n s : NoDup (names c) -> inv c s -> inv c (steps n c re s).
Proof. intros Hn. revert s. induction n; intros s H; simpl; [done|]. apply IHn. by apply step_inv. Qed.
Lemma new_inv c user : inv c (sm_new c user).
Proof. repeat split; [constructor|]. by exists []. Qed.

(** Who changes the current state. *)
Lemma update_cur c s st : NoDup (names c) -> s_cur (update c s st) <> s_cur s ->
  s_started s = true /\ exists e, e ∈ s_queue s /\ describes c (s_cur s) e (s_cur (update c s st)).
Proof.
  intros Hn. unfold update. destruct (s_started s); [|done].
  destruct (table c !! s_cur s) as [ts|] eqn:Ht; [|done].
  pose proof (consume_spec ts (s_cur s) (s_queue s)) as H.
  destruct (consume ts (s_cur s) (s_queue s)) as [[[d r] k] ch] eqn:E. cbn.
  destruct H as [(pre & e & Hq & HF & Hf & _)|(_ & -> & _)]; [|done]. intros _. split; [done|]. exists e.
  split; [rewrite Hq; apply elem_of_app; right; left|]. by apply (describes_fire c _ e d ts).
Qed.

Lemma path_names c q es q' : well_formed c -> path c q es q' -> q ∈ names c -> q' ∈ names c.
Proof.
  intros W. induction 1 as [| |]; [done| |auto]. intros Hq. apply IHpath.
  destruct H as (b & a & t1 & t2 & Hs & _).
  apply (wf_closed c W (CState q (t1 ++ CTrans d e :: t2)) (CTrans d e)).
  - rewrite Hs. apply elem_of_app. right. left.
  - cbn. apply elem_of_app. right. left.
Qed.

(** ** Listener. *)
Lemma existsb_snoc {A} (p : A -> bool) h x : existsb p (h ++ [x]) = existsb p h || p x.
Proof. rewrite existsb_app. simpl. by rewrite orb_false_r. Qed.
Lemma after_last_snoc p h x : after_last p (h ++ [x]) = if p x then [] else after_last p h ++ [x].
Proof.
  induction h as [|y h IH]; simpl; [by destruct (p x)|]. rewrite existsb_snoc, IH.
  destruct (p x); [by rewrite orb_true_r|]. rewrite orb_false_r. destruct (existsb p h); [done|]. by destruct (p y).
Qed.
Lemma omap_snoc {A B} (f : A -> option B) h x : omap f (h ++ [x]) = omap f h ++ match f x with Some y => [y] | None => [] end.
Proof. induction h as [|y h IH]; cbn; [by destruct (f x)|]. destruct (f y); [|exact IH]. cbn. by f_equal. Qed.
Lemma registered_snoc sel id k h x : registered sel id k (h ++ [x]) =
  registered sel id k h ++ match sel x with Some (q, a) => if decide (complete_name id q = k) then [a] else [] | None => [] end.
Proof. unfold registered. rewrite omap_snoc. f_equal. destruct (sel x) as [[q a]|]; [|done]. by destruct (decide (complete_name id q = k)). Qed.

Definition linv (id : string) (h : list lcall) (l : listener) : Prop :=
  l_id l = id /\
  forall k, default [] (l_acts l !! k) = registered sel_action id k h
         /\ default [] (l_once l !! k) = registered sel_oneoff id k (after_last (entry_of k) h)
         /\ default [] (l_per l !! k) = registered sel_periodic id k (after_last (removal_of id k) h).
Lemma push_lookup k a m k' : default [] (push k a m !! k') = default [] (m !! k') ++ (if decide (k = k') then [a] else []).
Proof.
  unfold push. destruct (decide (k = k')) as [->|H].
  - by rewrite lookup_insert.
  - rewrite lookup_insert_ne by done. by rewrite app_nil_r.
Qed.
Lemma linv_step id h l x : linv id h l -> linv id (h ++ [x]) (lstep l x).
Proof.
  intros [Hid H]. split; [by destruct x|]. intros k. destruct (H k) as (Ha & Ho & Hp).
  rewrite !after_last_snoc, registered_snoc.
  destruct x as [q a|q a|q a|q| |q ch]; cbn [lstep l_acts l_once l_per sel_action sel_oneoff sel_periodic entry_of removal_of];
    rewrite ?registered_snoc; cbn [sel_action sel_oneoff sel_periodic]; rewrite ?app_nil_r, ?push_lookup, ?Hid.
  - rewrite Ha. done.
  - rewrite Ho. done.
  - rewrite Hp. done.
  - split; [done|split; [done|]]. case_bool_decide as E.
    + subst k. by rewrite lookup_insert.
    + rewrite lookup_insert_ne by done. rewrite registered_snoc. cbn. by rewrite app_nil_r.
  - done.
  - split; [done|split]; [|done]. destruct ch; [|rewrite registered_snoc; cbn; by rewrite app_nil_r].
    case_bool_decide as E.
    + subst k. by rewrite lookup_delete.
    + rewrite lookup_delete_ne by done. rewrite registered_snoc. cbn. by rewrite app_nil_r.
Qed.
Lemma lrun_snoc l h x : lrun l (h ++ [x]) = lstep (lrun l h) x.
Proof. unfold lrun. by rewrite fold_left_app. Qed.
Lemma linv_run id h : linv id h (lrun (listener_new id) h).
Proof.
  induction h as [|x h IH] using rev_ind.
  - split; [done|]. intros k. cbn. by rewrite lookup_empty.
  - rewrite lrun_snoc. by apply linv_step.
Qed.
