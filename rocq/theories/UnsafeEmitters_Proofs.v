From stdpp Require Import prelude strings gmap.
From Verif Require Import UnsafeEmitters_Model UnsafeEmitters_Spec.

Record Rel (m : multi) (g : registry) : Prop := {
  rel_names : forall n id, m_names m !! n = Some id <-> exists r, r ∈ rs g /\ r_name r = n /\ r_id r = id;
  rel_subs : forall e, default [] (m_subs m !! e) = r_id <$> of_event e (rs g);
  rel_next : next g = length (m_ls m);
  rel_ls : forall r, r ∈ rs g -> m_ls m !! r_id r = Some (Some (r_cb r));
  rel_ids : NoDup (r_id <$> rs g);
  rel_nds : NoDup (r_name <$> rs g);
  rel_stats : forall r d, r ∈ rs g -> r_disc r = Some d -> m_stats m !! r_id r = Some (Stat (r_name r) (r_event r) d)
}.

Lemma rel_new : Rel multi_new registry_new.
Proof.
  constructor; simpl; auto; try (by constructor); set_solver.
Qed.

Lemma named_nil n l : named n l = [] -> forall r, r ∈ l -> r_name r <> n.
Proof. intros E r Hr Hn. assert (r ∈ named n l) by (apply elem_of_list_filter; auto). rewrite E in *. set_solver. Qed.
Lemma nodup_id l r r' : NoDup (r_id <$> l) -> r ∈ l -> r' ∈ l -> r_id r = r_id r' -> r = r'.
Proof.
  induction l as [|x l IH]; [set_solver|]. rewrite fmap_cons. intros [Hx Hl]%NoDup_cons Hr Hr' E.
  apply elem_of_cons in Hr as [->|Hr]; apply elem_of_cons in Hr' as [->|Hr']; auto.
  - exfalso. apply Hx. rewrite E. apply elem_of_list_fmap. eauto.
  - exfalso. apply Hx. rewrite <- E. apply elem_of_list_fmap. eauto.
Qed.
Lemma nodup_name l r r' : NoDup (r_name <$> l) -> r ∈ l -> r' ∈ l -> r_name r = r_name r' -> r = r'.
Proof.
  induction l as [|x l IH]; [set_solver|]. rewrite fmap_cons. intros [Hx Hl]%NoDup_cons Hr Hr' E.
  apply elem_of_cons in Hr as [->|Hr]; apply elem_of_cons in Hr' as [->|Hr']; auto.
  - exfalso. apply Hx. rewrite E. apply elem_of_list_fmap. eauto.
  - exfalso. apply Hx. rewrite <- E. apply elem_of_list_fmap. eauto.
Qed.
Lemma nodup_fmap_filter {A B} (f : A -> B) (P : A -> Prop) `{!forall x, Decision (P x)} l :
  NoDup (f <$> l) -> NoDup (f <$> filter P l).
Proof.
  induction l as [|x l IH]; [done|]. rewrite fmap_cons. intros [Hx Hl]%NoDup_cons. rewrite filter_cons.
  case_decide; [|auto]. rewrite fmap_cons. constructor; [|auto]. intros Hin. apply Hx.
  apply elem_of_list_fmap in Hin as (y & -> & Hy). apply elem_of_list_filter in Hy as [_ Hy]. apply elem_of_list_fmap. eauto.
Qed.
Lemma of_event_app e l l' : of_event e (l ++ l') = of_event e l ++ of_event e l'.
Proof. apply filter_app. Qed.

Lemma on_rel c n e cb m g : Rel m g ->
  Rel (multi_step m (MOn c n e cb)).1 (spec_step g (MOn c n e cb)).1 /\
  (multi_step m (MOn c n e cb)).2 = (spec_step g (MOn c n e cb)).2.
Proof.
  intros R. simpl. unfold multi_on. destruct (named n (rs g)) as [|r l] eqn:En.
  - assert (Hn : m_names m !! n = None).
    { destruct (m_names m !! n) as [id|] eqn:E; [|done]. apply (rel_names m g R) in E as (r & Hr & <- & _).
      by destruct (named_nil _ _ En r Hr). }
    rewrite Hn. simpl. split; [|by rewrite (rel_next m g R)].
    assert (Hlt : forall r, r ∈ rs g -> r_id r < length (m_ls m)).
    { intros r Hr. apply (rel_ls m g R) in Hr. by eapply lookup_lt_Some. }
    constructor; simpl.
    + intros n' id. rewrite lookup_insert_Some, (rel_names m g R). split.
      * intros [[<- <-]|[Hne (r & Hr & <- & <-)]].
        -- eexists. split; [apply elem_of_app; right; by apply elem_of_list_singleton|]. simpl. rewrite (rel_next m g R). done.
        -- exists r. split; [set_solver|done].
      * intros (r & Hr & Hn1 & Hi). apply elem_of_app in Hr as [Hr|Hr].
        -- right. split; [|eauto]. intros ->. by destruct (named_nil _ _ En r Hr).
        -- left. apply elem_of_list_singleton in Hr as ->. simpl in *. rewrite <- (rel_next m g R). auto.
    + intros e'. rewrite of_event_app, fmap_app. destruct (decide (e' = e)) as [->|Hne].
      * rewrite lookup_insert. simpl. rewrite (rel_subs m g R). f_equal. unfold of_event. rewrite filter_cons_True by done.
        simpl. by rewrite (rel_next m g R).
      * rewrite lookup_insert_ne by done. rewrite (rel_subs m g R). unfold of_event at 3. rewrite filter_cons_False by (simpl; auto).
        simpl. by rewrite app_nil_r.
    + rewrite app_length, (rel_next m g R). simpl. lia.
    + intros r Hr. apply elem_of_app in Hr as [Hr|Hr].
      * apply (rel_ls m g R) in Hr. by apply lookup_app_l_Some.
      * apply elem_of_list_singleton in Hr as ->. simpl. rewrite (rel_next m g R). by rewrite list_lookup_middle.
    + rewrite fmap_app. apply NoDup_app. split; [apply R|]. split; [|by apply NoDup_singleton].
      intros x Hx Hx'. apply elem_of_list_fmap in Hx as (r & -> & Hr). simpl in Hx'. apply elem_of_list_singleton in Hx'.
      apply Hlt in Hr. rewrite (rel_next m g R) in Hx'. lia.
    + rewrite fmap_app. apply NoDup_app. split; [apply R|]. split; [|by apply NoDup_singleton].
      intros x Hx Hx'. apply elem_of_list_fmap in Hx as (r & -> & Hr). simpl in Hx'. apply elem_of_list_singleton in Hx'.
      by destruct (named_nil _ _ En r Hr).
    + intros r d Hr Hd. apply elem_of_app in Hr as [Hr|Hr].
      * assert (r_id r <> length (m_ls m)) by (apply Hlt in Hr; lia).
        destruct c; [rewrite lookup_insert_ne by done|]; by apply (rel_stats m g R).
      * apply elem_of_list_singleton in Hr as ->. simpl in *. destruct c; [|done]. injection Hd as <-.
        rewrite (rel_next m g R). by rewrite lookup_insert.
  - assert (Hr : r ∈ named n (rs g)) by (rewrite En; set_solver). apply elem_of_list_filter in Hr as [Hn Hr].
    assert (E : m_names m !! n = Some (r_id r)) by (apply (rel_names m g R); eauto).
    rewrite E. done.
Qed.

Lemma call_all_ok ls (l : list reg) done : (forall r, r ∈ l -> ls !! r_id r = Some (Some (r_cb r))) ->
  call_all ls (r_id <$> l) done = Called (rev done ++ (r_cb <$> l)).
Proof.
  revert done; induction l as [|r l IH]; intros done H; simpl; [by rewrite app_nil_r|].
  rewrite (H r) by set_solver. rewrite IH by set_solver. simpl. by rewrite <- (assoc_L (++)).
Qed.

Lemma emit_rel e m g : Rel m g ->
  Rel (multi_step m (MEmit e)).1 (spec_step g (MEmit e)).1 /\ (multi_step m (MEmit e)).2 = (spec_step g (MEmit e)).2.
Proof.
  intros R. simpl. split.
  - destruct R as [R1 R2 R3 R4 R5 R6 R7]. constructor; simpl; auto. intros e'. destruct (decide (e' = e)) as [->|Hne].
    + rewrite lookup_insert. simpl. auto.
    + rewrite lookup_insert_ne by done. auto.
  - rewrite (rel_subs m g R), call_all_ok; [done|]. intros r Hr. apply elem_of_list_filter in Hr as [_ Hr]. by apply R.
Qed.

Lemma erase_first_notin id l : id ∉ l -> erase_first id l = l.
Proof.
  induction l as [|x l IH]; [done|]. intros H. simpl. destruct (Nat.eqb_spec x id) as [->|]; [set_solver|].
  rewrite IH; [done|set_solver].
Qed.
Lemma filter_id_notin id (l : list reg) : id ∉ r_id <$> l -> filter (fun r => r_id r <> id) l = l.
Proof.
  induction l as [|r l IH]; [done|]. rewrite fmap_cons, not_elem_of_cons. intros [H1 H2].
  rewrite filter_cons_True by congruence. by rewrite IH.
Qed.

Lemma erase_first_reg id (l : list reg) : NoDup (r_id <$> l) -> erase_first id (r_id <$> l) = r_id <$> filter (fun r => r_id r <> id) l.
Proof.
  induction l as [|r l IH]; [done|]. rewrite fmap_cons. intros [Hr Hl]%NoDup_cons. simpl.
  destruct (Nat.eqb_spec (r_id r) id) as [E|Hne].
  - rewrite filter_cons_False by (by intros H). rewrite filter_id_notin; [done|congruence].
  - rewrite filter_cons_True by done. rewrite fmap_cons. f_equal. by apply IH.
Qed.
Lemma of_event_filter e id (l : list reg) : of_event e (filter (fun r => r_id r <> id) l) = filter (fun r => r_id r <> id) (of_event e l).
Proof.
  unfold of_event. induction l as [|r l IH]; [done|].
  destruct (decide (r_id r <> id)) as [H1|H1]; destruct (decide (r_event r = e)) as [H2|H2].
  - rewrite !filter_cons_True by done. by rewrite IH.
  - rewrite filter_cons_True by done. rewrite filter_cons_False by done. rewrite filter_cons_False by done. done.
  - rewrite filter_cons_False by done. rewrite (filter_cons_True _ r) by done. rewrite filter_cons_False by done. done.
  - rewrite !filter_cons_False by done. by rewrite IH.
Qed.
Lemma remove_rel c id m g : Rel m g ->
  Rel (multi_step m (MRemove c id)).1 (spec_step g (MRemove c id)).1.
Proof.
  intros R. simpl. unfold multi_remove.
  assert (Hlt : forall r, r ∈ rs g -> r_id r < length (m_ls m)).
  { intros r Hr. apply (rel_ls m g R) in Hr. by eapply lookup_lt_Some. }
  destruct (Nat.ltb_spec id (length (m_ls m))) as [Hid|Hid].
  2:{ replace (filter (fun r => r_id r <> id) (rs g)) with (rs g); [by destruct g|].
      symmetry. apply filter_id_notin. intros Hin. apply elem_of_list_fmap in Hin as (r & -> & Hr). apply Hlt in Hr. lia. }
  set (found := List.find _ (map_to_list (m_names m))). set (hit := List.find _ (map_to_list (m_subs m))).
  assert (Hfound : match found with Some (n, i) => i = id /\ m_names m !! n = Some id
                   | None => forall n, m_names m !! n <> Some id end).
  { destruct found as [[n i]|] eqn:E; unfold found in E.
    - apply find_some in E as [Hin E]. apply elem_of_list_In, elem_of_map_to_list in Hin. simpl in E.
      apply Nat.eqb_eq in E as ->. done.
    - intros n Hn. apply elem_of_map_to_list, elem_of_list_In in Hn. apply (find_none _ _ E) in Hn. simpl in Hn.
      apply Nat.eqb_neq in Hn. done. }
  assert (Hhit : match hit with Some (e, v) => m_subs m !! e = Some v /\ id ∈ v
                 | None => forall e, id ∉ default [] (m_subs m !! e) end).
  { destruct hit as [[e v]|] eqn:E; unfold hit in E.
    - apply find_some in E as [Hin E]. apply elem_of_list_In, elem_of_map_to_list in Hin. simpl in E.
      apply bool_decide_eq_true in E. done.
    - intros e. destruct (m_subs m !! e) as [v|] eqn:Hv; [|set_solver]. simpl.
      apply elem_of_map_to_list, elem_of_list_In in Hv. apply (find_none _ _ E) in Hv. simpl in Hv.
      by apply bool_decide_eq_false in Hv. }
  clearbody found hit. constructor; simpl.
  - intros n i. destruct found as [[n0 i0]|].
    + destruct Hfound as [-> Hn0]. rewrite lookup_delete_Some, (rel_names m g R). apply (rel_names m g R) in Hn0 as (r0 & Hr0 & <- & Hi0).
      split.
      * intros [Hne (r & Hr & <- & <-)]. exists r. split; [|done]. apply elem_of_list_filter. split; [|done].
        intros E. apply Hne. f_equal. symmetry. eapply nodup_id; [apply R| | |]; auto. congruence.
      * intros (r & Hr & <- & <-). apply elem_of_list_filter in Hr as [Hne Hr]. split; [|eauto].
        intros E. apply Hne. rewrite <- Hi0. f_equal. symmetry. eapply nodup_name; [apply R| | |]; auto.
    + rewrite (rel_names m g R). split.
      * intros (r & Hr & <- & <-). exists r. split; [|done]. apply elem_of_list_filter. split; [|done].
        intros E. apply (Hfound (r_name r)). apply (rel_names m g R). eauto.
      * intros (r & Hr & <- & <-). apply elem_of_list_filter in Hr as [Hne Hr]. eauto.
  - intros e'. rewrite of_event_filter. pose proof (rel_subs m g R e') as Hs.
    assert (Hother : id ∉ r_id <$> of_event e' (rs g) -> default [] (m_subs m !! e') = r_id <$> filter (fun r => r_id r <> id) (of_event e' (rs g))).
    { intros Hn. by rewrite filter_id_notin. }
    destruct hit as [[e v]|]; [|apply Hother; rewrite <- Hs; apply Hhit].
    destruct Hhit as [Hv Hin]. destruct (decide (e' = e)) as [->|Hne].
    + rewrite Hv in Hs. simpl in Hs.
      assert (E : erase_first id v = r_id <$> filter (fun r => r_id r <> id) (of_event e (rs g))).
      { rewrite Hs. apply erase_first_reg. apply nodup_fmap_filter, R. }
      rewrite <- E. destruct (erase_first id v) as [|x v']; [by rewrite lookup_delete|by rewrite lookup_insert].
    + assert (E : match erase_first id v with [] => delete e (m_subs m) | n :: l => <[e:=n :: l]> (m_subs m) end !! e' = m_subs m !! e').
      { destruct (erase_first id v); [by rewrite lookup_delete_ne|by rewrite lookup_insert_ne]. }
      rewrite E. apply Hother. intros Hc. pose proof (rel_subs m g R e) as Hse. rewrite Hv in Hse. simpl in Hse. subst v.
      apply elem_of_list_fmap in Hc as (r1 & -> & Hr1). apply elem_of_list_fmap in Hin as (r2 & E2 & Hr2).
      apply elem_of_list_filter in Hr1 as [H1 Hr1]. apply elem_of_list_filter in Hr2 as [H2 Hr2].
      apply Hne. rewrite <- H1, <- H2. f_equal. eapply nodup_id; [apply R| | |]; auto.
  - by rewrite insert_length, (rel_next m g R).
  - intros r Hr. apply elem_of_list_filter in Hr as [Hne Hr]. rewrite list_lookup_insert_ne by done. by apply R.
  - apply nodup_fmap_filter, R.
  - apply nodup_fmap_filter, R.
  - intros r d Hr Hd. apply elem_of_list_filter in Hr as [Hne Hr].
    pose proof (rel_stats m g R r d Hr Hd) as Hst.
    destruct (match found with Some _ => if c then m_stats m !! id else None | None => None end); [|done].
    by rewrite lookup_delete_ne.
Qed.

Lemma remove_all_rel c m g : Rel (multi_step m (MRemoveAll c)).1 (spec_step g (MRemoveAll c)).1.
Proof.
  simpl. unfold multi_remove_all. constructor; simpl; auto; try (by constructor); set_solver.
Qed.

Lemma bump_fold (ids : list nat) (st : gmap nat stat) i : NoDup ids -> foldr (fun id st => alter bump id st) st ids !! i =
  if decide (i ∈ ids) then bump <$> st !! i else st !! i.
Proof.
  induction ids as [|x ids IH]; [done|]. intros [Hx Hn]%NoDup_cons. simpl.
  destruct (decide (i = x)) as [->|Hne].
  - rewrite lookup_alter, IH by done. rewrite decide_False by done. rewrite decide_True by set_solver. done.
  - rewrite lookup_alter_ne, IH by done. destruct (decide (i ∈ ids)).
    + rewrite decide_True by set_solver. done.
    + rewrite decide_False by set_solver. done.
Qed.

Definition bumpr (e : string) (r : reg) : reg :=
  if decide (r_event r = e) then Reg (r_id r) (r_name r) (r_event r) (r_cb r) (S <$> r_disc r) else r.
Lemma bumpr_same e r : r_id (bumpr e r) = r_id r /\ r_name (bumpr e r) = r_name r /\ r_event (bumpr e r) = r_event r /\ r_cb (bumpr e r) = r_cb r.
Proof. unfold bumpr. by case_decide. Qed.

Lemma discard_rel e m g : Rel m g -> Rel (multi_step m (MDiscard e)).1 (spec_step g (MDiscard e)).1.
Proof.
  intros R. simpl. unfold multi_discard. fold (bumpr e).
  assert (Hid : r_id <$> (bumpr e <$> rs g) = r_id <$> rs g).
  { rewrite <- list_fmap_compose. apply list_fmap_ext. intros i r _. apply bumpr_same. }
  assert (Hnm : r_name <$> (bumpr e <$> rs g) = r_name <$> rs g).
  { rewrite <- list_fmap_compose. apply list_fmap_ext. intros i r _. apply bumpr_same. }
  assert (Hev : forall e', r_id <$> of_event e' (bumpr e <$> rs g) = r_id <$> of_event e' (rs g)).
  { clear Hid Hnm. intros e'. unfold of_event. induction (rs g) as [|r l IH]; [done|]. rewrite fmap_cons.
    destruct (bumpr_same e r) as (E1 & E2 & E3 & _).
    destruct (decide (r_event r = e')) as [H|H].
    - rewrite (filter_cons_True _ (bumpr e r)) by congruence. rewrite (filter_cons_True _ r) by done. rewrite !fmap_cons, E1. f_equal. exact IH.
    - rewrite (filter_cons_False _ (bumpr e r)) by congruence. rewrite (filter_cons_False _ r) by done. done. }
  assert (Hin : forall r, r ∈ bumpr e <$> rs g -> exists r0, r0 ∈ rs g /\ r = bumpr e r0).
  { intros r Hr. apply elem_of_list_fmap in Hr as (r0 & -> & Hr0). eauto. }
  constructor; simpl.
  - intros n id. rewrite (rel_names m g R). split.
    + intros (r & Hr & <- & <-). exists (bumpr e r). split; [apply elem_of_list_fmap; eauto|]. split; apply bumpr_same.
    + intros (r & Hr & <- & <-). destruct (Hin r Hr) as (r0 & Hr0 & ->). exists r0. split; [done|]. split; symmetry; apply bumpr_same.
  - intros e'. rewrite Hev. apply R.
  - apply R.
  - intros r Hr. destruct (Hin r Hr) as (r0 & Hr0 & ->). destruct (bumpr_same e r0) as (-> & _ & _ & ->). by apply R.
  - rewrite Hid. apply R.
  - rewrite Hnm. apply R.
  - intros r d Hr Hd. destruct (Hin r Hr) as (r0 & Hr0 & ->).
    rewrite (rel_subs m g R), bump_fold by (apply nodup_fmap_filter, R).
    destruct (bumpr_same e r0) as (-> & -> & -> & _). unfold bumpr in Hd.
    destruct (decide (r_event r0 = e)) as [He|He]; simpl in Hd.
    + destruct (r_disc r0) as [d0|] eqn:E0; [|done]. injection Hd as <-.
      rewrite decide_True by (apply elem_of_list_fmap; exists r0; split; [done|]; by apply elem_of_list_filter).
      by rewrite (rel_stats m g R r0 d0 Hr0 E0).
    + rewrite decide_False; [by apply (rel_stats m g R)|]. intros Hc. apply elem_of_list_fmap in Hc as (r1 & E1 & Hr1).
      apply elem_of_list_filter in Hr1 as [He1 Hr1]. apply He. rewrite <- He1. f_equal.
      eapply nodup_id; [apply R| | |]; auto.
Qed.

Lemma step_rel o m g : Rel m g -> Rel (multi_step m o).1 (spec_step g o).1 /\ (multi_step m o).2 = (spec_step g o).2.
Proof.
  intros R. destruct o.
  - by apply on_rel.
  - split; [by apply remove_rel|done].
  - split; [by apply (remove_all_rel _ m g)|done].
  - by apply emit_rel.
  - split; [by apply discard_rel|done].
Qed.
Lemma run_rel os m g : Rel m g -> Rel (multi_run m os).1 (spec_run g os).1 /\ (multi_run m os).2 = (spec_run g os).2.
Proof.
  revert m g; induction os as [|o os IH]; intros m g R; [done|]. simpl.
  destruct (step_rel o m g R) as [R' E]. destruct (multi_step m o) as [m' r], (spec_step g o) as [g' r']. simpl in *.
  destruct (IH m' g' R') as [R'' E']. destruct (multi_run m' os), (spec_run g' os). simpl in *. by subst.
Qed.

(** ** Single *)
Definition SRel (s : single) (g : option (string * nat)) : Prop :=
  match g with
  | Some (e, cb) => s_reg s = true /\ s_sub s = e /\ s_cb s = Some cb /\
      (s_wrap s = WPlain \/ (s_wrap s = WStats /\ is_Some (s_stats s)))
  | None => s_reg s = false
  end.
Lemma sstep_rel o s g : SRel s g -> SRel (single_step s o).1 (sspec_step g o).1 /\ (single_step s o).2 = (sspec_step g o).2.
Proof.
  intros R. destruct o as [c n e cb|c id|c|e|e]; simpl.
  - unfold single_on. destruct g as [[e' cb']|]; simpl in R.
    + pose proof R as (E & _). rewrite E. simpl. done.
    + rewrite R. simpl. split; [|done]. split_and!; auto. destruct c; [right|left]; eauto.
  - split; [|done]. unfold single_remove. destruct id; simpl; [done|]. done.
  - done.
  - split; [done|]. unfold single_emit. destruct g as [[e' cb']|]; simpl in R.
    + destruct R as (-> & -> & -> & Hw). rewrite orb_false_r. destruct (decide (e = e')) as [->|Hne].
      * rewrite bool_decide_eq_true_2 by done. simpl. destruct Hw as [->|[-> [st ->]]]; done.
      * rewrite bool_decide_eq_false_2 by done. done.
    + rewrite R, orb_true_r. done.
  - split; [|done]. unfold single_discard. case_bool_decide; [|done]. destruct g as [[e' cb']|]; simpl in *; [|done].
    destruct R as (? & ? & ? & Hw). split_and!; auto. destruct Hw as [->|[-> [st ->]]]; [by left|right; eauto].
Qed.
Lemma srun_rel os s g : SRel s g -> SRel (single_run s os).1 (sspec_run g os).1 /\ (single_run s os).2 = (sspec_run g os).2.
Proof.
  revert s g; induction os as [|o os IH]; intros m g R; [done|]. simpl.
  destruct (sstep_rel o m g R) as [R' E]. destruct (single_step m o) as [m' r], (sspec_step g o) as [g' r']. simpl in *.
  destruct (IH m' g' R') as [R'' E']. destruct (single_run m' os), (sspec_run g' os). simpl in *. by subst.
Qed.

(** ** Null statistics never reach the container from the multi emitter. *)
Lemma multi_no_null os m : (CDetach None ∉ m_cont m) -> CDetach None ∉ m_cont (multi_run m os).1.
Proof.
  revert m; induction os as [|o os IH]; intros m H; [done|]. simpl.
  assert (H' : CDetach None ∉ m_cont (multi_step m o).1).
  { destruct o as [c n e cb|c id|c|e|e]; simpl.
    - unfold multi_on. destruct (m_names m !! n); [done|]. simpl. destruct c; set_solver.
    - unfold multi_remove. destruct (_ <? _); [|done]. simpl.
      destruct (match List.find _ _ with Some _ => _ | None => _ end); set_solver.
    - destruct c; [|done]. rewrite not_elem_of_app. split; [|done]. intros Hin. apply elem_of_list_fmap in Hin as (p & ? & _). done.
    - done.
    - done. }
  destruct (multi_step m o) as [m' r]. specialize (IH m' H'). by destruct (multi_run m' os).
Qed.
