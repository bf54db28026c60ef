(** * C174, C175: the event loop provider keeps the names apart. *)
From stdpp Require Import prelude strings gmap.
From Verif Require Import SafeEmitter_Model UnsafeEmitters_Model UnsafeEmitters_Spec UnsafeEmitters_Proofs Subscriber_Model Subscriber_Spec Subscriber_Props ElDispatch_Model.
Local Open Scope string_scope.
Local Open Scope list_scope.

(** ** Specification *)
(** The calls that concern one name, as calls on a subscriber standing alone; an event of the name is a publication. *)
Definition mine (n : string) (c : pcall) : option sop :=
  match c with
  | PGet _ _ => None
  | PReg m l cb => if decide (m = n) then Some (SubReg l cb) else None
  | PRemove m l => if decide (m = n) then Some (SubRemove l) else None
  | PStats m l => if decide (m = n) then Some (SubStats l) else None
  | PEvent m => if decide (m = n) then Some SubPublish else None
  end.
(** Their results. *)
Fixpoint results (n : string) (cs : list pcall) (rs : list sres) : list sres :=
  match cs, rs with
  | c :: cs', r :: rs' => match mine n c with Some _ => r :: results n cs' rs' | None => results n cs' rs' end
  | _, _ => []
  end.

(** ** Proofs *)
Lemma ext_length n : String.length (ext n) = String.length n + 9.
Proof. unfold ext. induction n as [|a n IH]; [done|]. change (S (String.length (n +:+ "_external")) = S (String.length n) + 9). rewrite IH. lia. Qed.
Lemma ext_inj n m : ext n = ext m -> n = m.
Proof.
  revert m; induction n as [|a n IH]; intros [|b m] H; [done| | |].
  - apply (f_equal String.length) in H. rewrite !ext_length in H. cbn in H. lia.
  - apply (f_equal String.length) in H. rewrite !ext_length in H. cbn in H. lia.
  - change (String a (ext n) = String b (ext m)) in H. injection H as -> H. f_equal. by apply IH.
Qed.
Fixpoint reg (off : nat) (ns : list string) : list (string * nat) := match ns with [] => [] | m :: r => (ext m, off) :: reg (S off) r end.
Lemma reg_app off ns m : reg off (ns ++ [m]) = reg off ns ++ [(ext m, off + length ns)].
Proof. revert off; induction ns as [|x ns IH]; intros off; [cbn; by rewrite Nat.add_0_r|]. cbn. rewrite IH. by rewrite Nat.add_succ_r. Qed.
Lemma reg_fst off ns : (reg off ns).*1 = ext <$> ns.
Proof. revert off; induction ns as [|x ns IH]; intros off; [done|]. cbn. by rewrite IH. Qed.
Lemma reg_none off ns n : n ∉ ns -> snd <$> filter (fun p => p.1 = ext n) (reg off ns) = [].
Proof.
  revert off; induction ns as [|x ns IH]; intros off H; [done|]. cbn [reg]. apply not_elem_of_cons in H as [H1 H2]. rewrite filter_cons_False; [by apply IH|].
  cbn. intros E. by apply ext_inj in E as ->.
Qed.
Lemma reg_some off ns n i : NoDup ns -> ns !! i = Some n -> snd <$> filter (fun p => p.1 = ext n) (reg off ns) = [off + i].
Proof.
  revert off i; induction ns as [|x ns IH]; intros off i Hn Hi; [done|]. cbn [reg]. apply NoDup_cons in Hn as [H1 H2]. destruct i as [|i]; cbn in Hi.
  - injection Hi as ->. rewrite filter_cons_True by done. cbn. rewrite reg_none by done. by rewrite Nat.add_0_r.
  - rewrite filter_cons_False. { rewrite (IH (S off) i H2 Hi). by rewrite Nat.add_succ_r. }
    cbn. intros E. apply ext_inj in E as ->. apply H1. by eapply elem_of_list_lookup_2.
Qed.

Definition XR (e : emitter) (L : list (string * nat)) : Prop :=
  match e with
  | ESafe s => (fun l => (l_sub l, l_cb l)) <$> e_ls s = L /\ Forall (fun l => l_once l = false) (e_ls s)
  | EMulti m => exists g, Rel m g /\ (fun r => (r_event r, r_cb r)) <$> rs g = L /\ (forall r, r ∈ rs g -> r_name r = r_event r)
  | ESingle _ => False
  end.
Lemma xr_new k : k <> KSingle -> XR (emitter_new k) [].
Proof. destruct k; intros H; [split; [done|constructor]|eexists; split; [apply rel_new|]; split; [done|set_solver]|done]. Qed.
Lemma xr_on c ev i e L : XR e L -> ev ∉ L.*1 -> XR (em_on c ev ev i e).1 (L ++ [(ev, i)]).
Proof.
  intros X Hn. destruct e as [s|m|s]; cbn -[add_listener multi_on] in *; [| |done].
  - destruct X as [<- Ho]. unfold add_listener. cbn. rewrite fmap_app. split; [done|]. apply Forall_app. split; [done|by constructor].
  - destruct X as (g & R & <- & Hne). pose proof (on_rel c ev ev i m g R) as [R' _]. cbn [multi_step fst] in R'. destruct (multi_on c ev ev i m) as [m' id]. cbn [fst] in *.
    cbn [spec_step] in R'. destruct (named ev (rs g)) as [|r l] eqn:En.
    + eexists. split; [exact R'|]. cbn [fst rs]. rewrite fmap_app. split; [done|]. intros r Hr. apply elem_of_app in Hr as [Hr|Hr]; [by apply Hne|]. by apply elem_of_list_singleton in Hr as ->.
    + exfalso. assert (Hr : r ∈ named ev (rs g)) by (rewrite En; constructor). apply elem_of_list_filter in Hr as [Hr1 Hr2]. apply Hn. rewrite <-list_fmap_compose. apply elem_of_list_fmap. exists r. split; [|done].
      cbn. by rewrite <-Hne.
Qed.
Lemma filter_fmap_fst {A} (f : A -> string) (h : A -> nat) ev (l : list A) : h <$> filter (fun x => f x = ev) l = snd <$> filter (fun p => p.1 = ev) ((fun x => (f x, h x)) <$> l).
Proof. induction l as [|x l IH]; [done|]. rewrite fmap_cons, !filter_cons. cbn. case_decide; cbn; by rewrite IH. Qed.
Lemma xr_emit ev e L : XR e L -> XR (em_emit ev e).1 L /\ (em_emit ev e).2 = Some (snd <$> filter (fun p => p.1 = ev) L).
Proof.
  intros X. destruct e as [s|m|s]; cbn -[multi_emit range] in *; [| |done].
  - destruct X as [<- Ho]. split; [|f_equal; unfold range; apply (filter_fmap_fst l_sub l_cb)].
    assert (Ef : List.filter (fun l => negb (bool_decide (l_sub l = ev) && l_once l)) (e_ls s) = e_ls s).
    { clear -Ho. induction Ho as [|l ls Hl Ho IH]; [done|]. cbn. rewrite Hl, andb_false_r. cbn. by f_equal. }
    rewrite Ef. by destruct s.
  - destruct X as (g & R & <- & Hne). pose proof (emit_rel ev m g R) as [R' E]. cbn [multi_step spec_step] in R', E. destruct (multi_emit ev m) as [m' r]. cbn [fst snd] in *. injection E as ->.
    split; [by exists g|]. f_equal. apply (filter_fmap_fst r_event r_cb).
Qed.

Record dinv (s : dprov) : Prop := {
  di_ext : XR (dp_ext s) (reg 0 (sb_event <$> dp_subs s));
  di_nodup : NoDup (sb_event <$> dp_subs s);
  di_map : forall n i, dp_map s !! n = Some i <-> (sb_event <$> dp_subs s) !! i = Some n
}.
Lemma sub_step_event b o : sb_event (sub_step b o).1 = sb_event b.
Proof.
  destruct o as [l cb|l| |l]; cbn.
  - by destruct (em_on _ _ _ _ _).
  - destruct (sb_map b !! l); [|done]. by destruct (em_remove _ _ _).
  - by destruct (em_emit _ _).
  - done.
Qed.
Lemma events_insert (subs : list subscriber) i b b' : subs !! i = Some b -> sb_event b' = sb_event b -> sb_event <$> <[i := b']> subs = sb_event <$> subs.
Proof. intros H E. rewrite list_fmap_insert, E. apply list_insert_id. by rewrite list_lookup_fmap, H. Qed.
Lemma lookup_events s n i : dinv s -> dp_map s !! n = Some i -> exists b, dp_subs s !! i = Some b /\ sb_event b = n.
Proof. intros I H. apply (di_map _ I) in H. rewrite list_lookup_fmap in H. destruct (dp_subs s !! i) as [b|]; [|done]. cbn in H. injection H as <-. by exists b. Qed.
(** One name's subscriber at index [i]: a step concerns it as it concerns a subscriber standing alone, or not at all. *)
Lemma on_sub_inv s n o : dinv s -> dinv (on_sub s n o).1.
Proof.
  intros I. unfold on_sub. destruct (dp_map s !! n) as [i|] eqn:En; [|done]. destruct (lookup_events s n i I En) as (b & Hb & _). rewrite Hb.
  pose proof (sub_step_event b o) as He. destruct (sub_step b o) as [b' r]. cbn [fst] in *. destruct I as [H1 H2 H3].
  assert (Ev : sb_event <$> <[i := b']> (dp_subs s) = sb_event <$> dp_subs s) by (by eapply events_insert).
  constructor; cbn [dp_ext dp_subs dp_map]; by rewrite Ev.
Qed.
Lemma on_sub_mine s n o i b : dp_map s !! n = Some i -> dp_subs s !! i = Some b ->
  (on_sub s n o).2 = (sub_step b o).2 /\ dp_subs (on_sub s n o).1 !! i = Some (sub_step b o).1 /\ dp_map (on_sub s n o).1 = dp_map s.
Proof. intros Hn Hb. unfold on_sub. rewrite Hn, Hb. destruct (sub_step b o) as [b' r]. cbn. split; [done|]. split; [|done]. apply list_lookup_insert. by eapply lookup_lt_Some. Qed.
Lemma on_sub_other s m o n i b : dinv s -> m <> n -> dp_map s !! n = Some i -> dp_subs s !! i = Some b -> dp_subs (on_sub s m o).1 !! i = Some b /\ dp_map (on_sub s m o).1 = dp_map s.
Proof.
  intros I Hne Hn Hb. unfold on_sub. destruct (dp_map s !! m) as [j|] eqn:Em; [|done]. destruct (lookup_events s m j I Em) as (b1 & Hb1 & E1). rewrite Hb1.
  destruct (sub_step b1 o) as [b' r]. cbn. split; [|done]. rewrite list_lookup_insert_ne; [done|]. intros ->. destruct (lookup_events s n i I Hn) as (b2 & Hb2 & E2). congruence.
Qed.
Lemma event_step s n : dinv s ->
  match dp_map s !! n with
  | Some i => exists b, dp_subs s !! i = Some b /\ dinv (p_call s (PEvent n)).1 /\ dp_map (p_call s (PEvent n)).1 = dp_map s /\
      dp_subs (p_call s (PEvent n)).1 = <[i := (sub_step b SubPublish).1]> (dp_subs s) /\ (p_call s (PEvent n)).2 = (sub_step b SubPublish).2
  | None => dinv (p_call s (PEvent n)).1 /\ dp_map (p_call s (PEvent n)).1 = dp_map s /\ dp_subs (p_call s (PEvent n)).1 = dp_subs s /\ (p_call s (PEvent n)).2 = RCalled []
  end.
Proof.
  intros I. pose proof (xr_emit (ext n) (dp_ext s) _ (di_ext _ I)) as [X E]. cbn [p_call]. destruct (em_emit (ext n) (dp_ext s)) as [e' r] eqn:Ee. cbn [fst snd] in *. subst r.
  destruct (dp_map s !! n) as [i|] eqn:En.
  - destruct (lookup_events s n i I En) as (b & Hb & Eb). exists b. split; [done|].
    rewrite (reg_some 0 _ n i (di_nodup _ I)) by (by apply (di_map _ I)). cbn [Nat.add deliver]. rewrite Hb. pose proof (sub_step_event b SubPublish) as He.
    assert (Hr : forall b' r, sub_step b SubPublish = (b', r) -> r = RBroken \/ exists l, r = RCalled l).
    { intros b1 r1. cbn [sub_step]. destruct (em_emit (sb_event b) (sb_em b)) as [e2 [l|]]; intros H; inversion H; eauto. }
    destruct (sub_step b SubPublish) as [b' r] eqn:Es. cbn [fst snd] in *. specialize (Hr b' r eq_refl). assert (Ev : sb_event <$> <[i := b']> (dp_subs s) = sb_event <$> dp_subs s) by (by eapply events_insert).
    assert (I' : dinv (Dprov (dp_cont s) e' (<[i := b']> (dp_subs s)) (dp_map s))) by (destruct I as [H1 H2 H3]; constructor; cbn [dp_ext dp_subs dp_map]; by rewrite Ev).
    destruct Hr as [->|[l ->]]; cbn; by split_and!.
  - rewrite reg_none. 2:{ intros Hin. apply elem_of_list_lookup in Hin as [j Hj]. apply (di_map _ I) in Hj. congruence. }
    cbn. split_and!; try done. destruct I as [H1 H2 H3]. by constructor.
Qed.
Lemma p_call_inv s c : dinv s -> dinv (p_call s c).1.
Proof.
  intros I. destruct c as [n k|n l cb|n l|n l|n]; [|by apply on_sub_inv..|].
  - cbn [p_call]. destruct (dp_map s !! n) as [j|] eqn:En; [done|]. destruct I as [H1 H2 H3].
    assert (Hn : n ∉ sb_event <$> dp_subs s) by (intros Hin; apply elem_of_list_lookup in Hin as [j Hj]; apply H3 in Hj; congruence).
    constructor; cbn [fst dp_ext dp_subs dp_map].
    + rewrite fmap_app. cbn [fmap list_fmap sub_new sb_event]. rewrite reg_app. rewrite fmap_length. apply xr_on; [done|]. rewrite reg_fst. intros Hin. apply elem_of_list_fmap in Hin as (m & Hm & Hin). by apply ext_inj in Hm as ->.
    + rewrite fmap_app. apply NoDup_app. split; [done|]. split; [|apply NoDup_singleton]. intros x Hx Hx'. cbn in Hx'. by apply elem_of_list_singleton in Hx' as ->.
    + intros m i. rewrite fmap_app. cbn [fmap list_fmap sub_new sb_event]. rewrite lookup_insert_Some, lookup_app_Some, fmap_length, H3. split.
      * intros [[<- <-]|[Hne Hi]]; [right; split; [done|by rewrite Nat.sub_diag]|by left].
      * intros [Hi|[Hl Hi]]; [right; split; [|done]; intros ->; apply Hn; by eapply elem_of_list_lookup_2|]. left. apply list_lookup_singleton_Some in Hi as [Hi <-]. split; [done|lia].
  - pose proof (event_step s n I) as E. destruct (dp_map s !! n); [destruct E as (b & _ & E & _)|destruct E as [E _]]; done.
Qed.
Lemma p_calls_inv s cs : dinv s -> dinv (p_calls s cs).1.
Proof. revert s; induction cs as [|c cs IH]; intros s I; [done|]. cbn [p_calls]. pose proof (p_call_inv s c I) as I'. destruct (p_call s c) as [s' r]. specialize (IH s' I'). by destruct (p_calls s' cs). Qed.
Lemma dinv_new c k : k <> KSingle -> dinv (dp_new c k).
Proof. intros Hk. constructor; cbn; [by apply xr_new|constructor|]. intros n i. by rewrite lookup_empty, lookup_nil. Qed.
Lemma step_alone s c n i b : dinv s -> dp_map s !! n = Some i -> dp_subs s !! i = Some b ->
  dp_map (p_call s c).1 !! n = Some i /\ match mine n c with
  | Some o => (p_call s c).2 = (sub_step b o).2 /\ dp_subs (p_call s c).1 !! i = Some (sub_step b o).1
  | None => dp_subs (p_call s c).1 !! i = Some b
  end.
Proof.
  intros I Hn Hb.
  assert (O : forall m o, dp_map (on_sub s m o).1 !! n = Some i /\ (if decide (m = n) then (on_sub s m o).2 = (sub_step b o).2 /\ dp_subs (on_sub s m o).1 !! i = Some (sub_step b o).1 else dp_subs (on_sub s m o).1 !! i = Some b)).
  { intros m o. case_decide as Hm.
    - subst m. destruct (on_sub_mine s n o i b Hn Hb) as (A & B & ->). by split.
    - destruct (on_sub_other s m o n i b I Hm Hn Hb) as (A & ->). by split. }
  destruct c as [m k|m l cb|m l|m l|m]; cbn [mine].
  - cbn [p_call]. destruct (dp_map s !! m) as [j|] eqn:Em; [done|]. cbn [fst dp_map dp_subs]. split; [rewrite lookup_insert_ne by congruence; done|]. by apply lookup_app_l_Some.
  - destruct (O m (SubReg l cb)) as [A B]. split; [done|]. by case_decide.
  - destruct (O m (SubRemove l)) as [A B]. split; [done|]. by case_decide.
  - destruct (O m (SubStats l)) as [A B]. split; [done|]. by case_decide.
  - pose proof (event_step s m I) as E. destruct (dp_map s !! m) as [j|] eqn:Em.
    + destruct E as (b1 & Hb1 & _ & -> & -> & ->). split; [done|]. case_decide as Hm.
      * subst m. assert (j = i) as -> by congruence. assert (b1 = b) as -> by congruence. split; [done|]. apply list_lookup_insert. by eapply lookup_lt_Some.
      * rewrite list_lookup_insert_ne; [done|]. intros ->. destruct (lookup_events s m i I Em) as (b2 & Hb2 & E2). destruct (lookup_events s n i I Hn) as (b3 & Hb3 & E3). congruence.
    + destruct E as (_ & -> & -> & _). split; [done|]. rewrite decide_False by congruence. done.
Qed.
Lemma calls_alone cs : forall s n i b, dinv s -> dp_map s !! n = Some i -> dp_subs s !! i = Some b -> results n cs (p_calls s cs).2 = (sub_run b (omap (mine n) cs)).2.
Proof.
  induction cs as [|c cs IH]; intros s n i b I Hn Hb; [done|]. cbn [p_calls]. pose proof (step_alone s c n i b I Hn Hb) as [Hn' Hm]. pose proof (p_call_inv s c I) as I'.
  destruct (p_call s c) as [s' r]. cbn [fst snd] in *. destruct (p_calls s' cs) as [s'' l] eqn:El. cbn [snd results omap list_omap].
  destruct (mine n c) as [o|].
  - destruct Hm as [-> Hb']. specialize (IH s' n i _ I' Hn' Hb'). rewrite El in IH. cbn [snd] in IH. rewrite IH. cbn [sub_run]. destruct (sub_step b o) as [b' r']. cbn [fst snd]. by destruct (sub_run b' _).
  - specialize (IH s' n i b I' Hn' Hm). rewrite El in IH. exact IH.
Qed.
Lemma p_calls_app s cs1 cs2 : (p_calls s (cs1 ++ cs2)).2 = (p_calls s cs1).2 ++ (p_calls (p_calls s cs1).1 cs2).2 /\ (p_calls s (cs1 ++ cs2)).1 = (p_calls (p_calls s cs1).1 cs2).1.
Proof.
  revert s; induction cs1 as [|c cs IH]; intros s; [done|]. cbn [p_calls app]. destruct (p_call s c) as [s' r]. specialize (IH s') as [A B]. destruct (p_calls s' (cs ++ cs2)) as [s1 l1], (p_calls s' cs) as [s2 l2]. cbn in *. by subst.
Qed.
Lemma no_get s cs n : (forall k, PGet n k ∉ cs) -> dp_map s !! n = None -> dp_map (p_calls s cs).1 !! n = None.
Proof.
  revert s; induction cs as [|c cs IH]; intros s Hc Hn; [done|]. cbn [p_calls].
  assert (H : dp_map (p_call s c).1 !! n = None).
  { assert (O : forall m o, dp_map (on_sub s m o).1 = dp_map s) by (intros m o; unfold on_sub; destruct (dp_map s !! m) as [i|]; [|done]; destruct (dp_subs s !! i) as [b|]; [|done]; by destruct (sub_step b o)).
    destruct c as [m k|m l cb|m l|m l|m]; cbn [p_call]; rewrite ?O; try done.
    - destruct (dp_map s !! m); [done|]. cbn. rewrite lookup_insert_ne; [done|]. intros ->. apply (Hc k). constructor.
    - destruct (em_emit (ext m) (dp_ext s)) as [e' [is|]]; [|done]. by destruct (deliver (dp_subs s) is []). }
  destruct (p_call s c) as [s' r]. cbn [fst] in H. specialize (IH s' (fun k Hk => Hc k (elem_of_list_further _ _ _ Hk)) H). by destruct (p_calls s' cs).
Qed.

(** C174: with a safe or multi-listener emitter in the provider, the subscriber of a name behaves, whatever is done with other names, as a subscriber standing alone to which
    the events of its name are published. *)
Theorem C174_names_apart c k cs1 n k' cs2 : k <> KSingle -> (forall k, PGet n k ∉ cs1) ->
  results n cs2 (p_calls (p_calls (dp_new c k) (cs1 ++ [PGet n k'])).1 cs2).2 = (sub_run (sub_new k' c n) (omap (mine n) cs2)).2.
Proof.
  intros Hk H1. destruct (p_calls_app (dp_new c k) cs1 [PGet n k']) as [_ ->]. pose proof (p_calls_inv (dp_new c k) cs1 (dinv_new c k Hk)) as I.
  pose proof (no_get (dp_new c k) cs1 n H1 (lookup_empty _)) as Hn.
  assert (Hc : dp_cont (p_calls (dp_new c k) cs1).1 = c).
  { assert (G : forall cs s, dp_cont (p_calls s cs).1 = dp_cont s); [|by rewrite G]. clear. induction cs as [|a cs IH]; intros s; [done|]. cbn [p_calls].
    assert (H : dp_cont (p_call s a).1 = dp_cont s).
    { assert (O : forall m o, dp_cont (on_sub s m o).1 = dp_cont s) by (intros m o; unfold on_sub; destruct (dp_map s !! m) as [i|]; [|done]; destruct (dp_subs s !! i) as [b|]; [|done]; by destruct (sub_step b o)).
      destruct a as [m k|m l cb|m l|m l|m]; cbn [p_call]; rewrite ?O; try done; [by destruct (dp_map s !! m)|]. destruct (em_emit (ext m) (dp_ext s)) as [e' [is|]]; [|done]. by destruct (deliver (dp_subs s) is []). }
    destruct (p_call s a) as [s' r]. cbn [fst] in H. specialize (IH s'). destruct (p_calls s' cs). cbn in *. congruence. }
  set (s := (p_calls (dp_new c k) cs1).1) in *. 
  assert (Es : (p_calls s [PGet n k']).1 = (p_call s (PGet n k')).1) by (cbn [p_calls]; by destruct (p_call s (PGet n k'))). rewrite Es.
  apply (calls_alone cs2 _ n (length (dp_subs s))); [by apply p_call_inv| |]; cbn [p_call]; rewrite Hn; cbn [fst dp_map dp_subs]; [apply lookup_insert|]. rewrite Hc. by apply list_lookup_middle.
Qed.
Print Assumptions C174_names_apart.
(** Before getSubscriber(name) the events of that name reach nobody. *)
Theorem C174_nobody c k cs n : k <> KSingle -> (forall k, PGet n k ∉ cs) -> (p_call (p_calls (dp_new c k) cs).1 (PEvent n)).2 = RCalled [].
Proof.
  intros Hk H. pose proof (event_step _ n (p_calls_inv _ cs (dinv_new c k Hk))) as E. rewrite (no_get (dp_new c k) cs n H (lookup_empty _)) in E. by destruct E as (_ & _ & _ & ->).
Qed.
Print Assumptions C174_nobody.
(** Together with C54: the subscriber of a name is the registry of the listeners of that name. *)
Theorem C174_registry_multi c k cs1 n cs2 : k <> KSingle -> (forall k, PGet n k ∉ cs1) -> polite false [] (omap (mine n) cs2) ->
  results n cs2 (p_calls (p_calls (dp_new c k) (cs1 ++ [PGet n KMulti])).1 cs2).2 = (subspec_run [] (omap (mine n) cs2)).2.
Proof. intros Hk H1 Hp. rewrite C174_names_apart by done. by apply C54_multi. Qed.
Print Assumptions C174_registry_multi.
Theorem C174_registry_safe c k cs1 n cs2 : k <> KSingle -> (forall k, PGet n k ∉ cs1) -> polite true [] (omap (mine n) cs2) -> (Z.of_nat (length cs2) < 4294967295)%Z ->
  results n cs2 (p_calls (p_calls (dp_new c k) (cs1 ++ [PGet n KSafe])).1 cs2).2 = (subspec_run [] (omap (mine n) cs2)).2.
Proof.
  intros Hk H1 Hp Hl. rewrite C174_names_apart by done. apply C54_safe; [done|].
  assert (L : length (filter (fun o => match o with SubReg _ _ => true | _ => false end = true) (omap (mine n) cs2)) <= length cs2); [|lia].
  clear. etransitivity; [apply filter_length|]. induction cs2 as [|c cs2 IH]; [done|]. cbn. destruct (mine n c); cbn in *; lia.
Qed.
Print Assumptions C174_registry_safe.
(** Two names, each with listeners; the hypotheses are met, and each event reaches its own listeners. *)
Example C174_case :
  (p_calls (dp_new true KMulti) [PEvent "b"; PGet "a" KSafe; PGet "b" KMulti; PReg "a" "x" 1; PReg "b" "x" 2; PReg "b" "y" 3; PEvent "b"; PEvent "a"; PRemove "b" "x"; PEvent "b"; PEvent "a"]).2
  = [RCalled []; RNone; RNone; RNone; RNone; RNone; RCalled [2; 3]; RCalled [1]; RNone; RCalled [3]; RCalled [1]] /\
  polite true [] (omap (mine "b") [PReg "a" "x" 1; PReg "b" "x" 2; PReg "b" "y" 3; PEvent "b"; PEvent "a"; PRemove "b" "x"; PEvent "b"; PEvent "a"]).
Proof.
  split; [reflexivity|]. replace (omap _ _) with [SubReg "x" 2; SubReg "y" 3; SubPublish; SubRemove "x"; SubPublish] by reflexivity.
  simpl. split_and!; auto; intros _; unfold has; simpl; rewrite ?elem_of_cons, ?elem_of_nil; naive_solver.
Qed.
(** C175: false with the single-listener emitter, which the constructor also accepts: only the first subscriber that was created is ever reached; the listeners of any other name get nothing. *)
Theorem C175_single_refuted c n1 k1 n2 k2 l cb : n1 <> n2 ->
  (p_calls (dp_new c KSingle) [PGet n1 k1; PGet n2 k2; PReg n2 l cb; PEvent n2]).2 = [RNone; RNone; RNone; RCalled []].
Proof.
  intros Hne. unfold dp_new. cbn [p_calls p_call dp_map dp_cont dp_ext dp_subs emitter_new em_on single_on s_reg single_new]. rewrite lookup_empty. cbn [fst dp_map dp_cont dp_ext dp_subs em_on single_on s_reg].
  rewrite lookup_insert_ne by done. rewrite lookup_empty. cbn [fst dp_map dp_cont dp_ext dp_subs em_on single_on s_reg]. unfold on_sub. cbn [dp_map dp_subs dp_cont dp_ext]. rewrite lookup_insert.
  cbn [length app lookup list_lookup sub_step sub_new sb_cont sb_event sb_map sb_em]. destruct (em_on _ _ _ _ _) as [e' id]. cbn [dp_ext em_emit dp_subs dp_cont dp_map].
  unfold single_emit. cbn [s_sub]. rewrite bool_decide_eq_false_2; [done|]. intros E. by apply ext_inj in E.
Qed.
Print Assumptions C175_single_refuted.
