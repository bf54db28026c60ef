From stdpp Require Import prelude strings list_numbers.
From Verif Require Import Base SafeEmitter_Model SafeEmitter_Spec.
Local Open Scope Z_scope.

(** ** Facts about logs *)
Lemma registered_snoc h e : registered (h ++ [e]) = reg_step (registered h) e.
Proof. unfold registered. by rewrite fold_left_app. Qed.
Lemma invoked_by_app k h1 h2 : invoked_by k (h1 ++ h2) = invoked_by k h1 ++ invoked_by k h2.
Proof. induction h1 as [|[] h1 IH]; simpl; auto. destruct (_ =? _)%nat; simpl; by rewrite IH. Qed.
Lemma invocations_app id h1 h2 : invocations id (h1 ++ h2) = (invocations id h1 + invocations id h2)%nat.
Proof. induction h1 as [|[] h1 IH]; simpl; auto. rewrite IH. lia. Qed.
Lemma created_app h1 h2 : created (h1 ++ h2) = created h1 ++ created h2.
Proof. induction h1 as [|[] h1 IH]; simpl; auto. by rewrite IH. Qed.

(** ** Invariant *)
Definition key (l : listener) : Z * string * bool := (l_id l, l_sub l, l_once l).
Definition emits_of (st : list frame) : list nat :=
  omap (fun f => match f with FEmit k _ _ _ => Some k | _ => None end) st.
Definition all_emits (s : em) : list nat := concat (emits_of <$> e_thr s).

Definition mentions (k : nat) (e : logev) : Prop :=
  match e with LEmit k' _ _ | LInvoke k' _ _ _ | LEnd k' | LAbort k' => k' = k | _ => False end.

Definition progress (h : list logev) (k : nat) (sub : string) (ev : Z) (rest : list Z) : Prop :=
  exists h1 h2, h = h1 ++ LEmit k sub ev :: h2 /\ Forall (fun e => ~ mentions k e) h1 /\
    (forall sub' ev', LEmit k sub' ev' ∉ h2) /\
    registered_for sub h1 = invoked_by k h2 ++ rest /\
    (forall id cb e, LInvoke k id cb e ∈ h2 -> e = ev).

Record Inv (s : em) : Prop := {
  i_created : created (rev (e_log s)) = Z.of_nat <$> seq 1 (length (created (rev (e_log s))));
  i_last : e_last s = Z.of_nat (length (created (rev (e_log s))));
  i_reg : registered (rev (e_log s)) = key <$> e_ls s;
  i_sub : (l_id <$> e_ls s) `sublist_of` created (rev (e_log s));
  i_emits : NoDup (all_emits s);
  i_old : forall k, (k < e_k s)%nat -> exists sub ev rest,
     progress (rev (e_log s)) k sub ev rest /\ (LEnd k ∈ rev (e_log s) -> rest = []) /\
     (forall t st sub' ev' hs, e_thr s !! t = Some st -> FEmit k sub' ev' hs ∈ st ->
         sub' = sub /\ ev' = ev /\ rest = l_id <$> hs /\ LEnd k ∉ rev (e_log s));
  i_new : forall k, (e_k s <= k)%nat -> Forall (fun e => ~ mentions k e) (rev (e_log s));
  i_frames : forall t st k sub ev hs, e_thr s !! t = Some st -> FEmit k sub ev hs ∈ st -> (k < e_k s)%nat;
  i_cbs : forall t st k h, e_thr s !! t = Some st -> FCb k h ∈ st -> (k < e_k s)%nat
}.

Lemma progress_snoc h k sub ev rest e : progress h k sub ev rest -> ~ mentions k e ->
  progress (h ++ [e]) k sub ev rest.
Proof.
  intros (h1 & h2 & -> & H1 & H2 & H3 & H4) Hm. exists h1, (h2 ++ [e]). split_and!; auto.
  - by rewrite <- (assoc_L (++)).
  - intros s' e' Hin. apply elem_of_app in Hin as [Hin|Hin]; [by eapply H2|].
    apply elem_of_list_singleton in Hin as <-. by apply Hm.
  - rewrite invoked_by_app, H3. destruct e; simpl in *; rewrite ?app_nil_r; try done.
    destruct (Nat.eqb_spec k k0); [by subst|]. by rewrite app_nil_r.
  - intros id cb e' Hin. apply elem_of_app in Hin as [Hin|Hin]; [by eapply H4|].
    apply elem_of_list_singleton in Hin as <-. simpl in Hm. done.
Qed.
Lemma progress_end h k sub ev rest e : progress h k sub ev rest -> e = LEnd k \/ e = LAbort k ->
  progress (h ++ [e]) k sub ev rest.
Proof.
  intros (h1 & h2 & -> & H1 & H2 & H3 & H4) Hm. exists h1, (h2 ++ [e]). split_and!; auto.
  - by rewrite <- (assoc_L (++)).
  - intros s' e' Hin. apply elem_of_app in Hin as [Hin|Hin]; [by eapply H2|].
    apply elem_of_list_singleton in Hin as <-. destruct Hm; done.
  - rewrite invoked_by_app, H3. by destruct Hm as [->| ->]; simpl; rewrite app_nil_r.
  - intros id cb e' Hin. apply elem_of_app in Hin as [Hin|Hin]; [by eapply H4|].
    apply elem_of_list_singleton in Hin as <-. destruct Hm; done.
Qed.
Lemma progress_invoke h k sub ev id cb rest : progress h k sub ev (id :: rest) ->
  progress (h ++ [LInvoke k id cb ev]) k sub ev rest.
Proof.
  intros (h1 & h2 & -> & H1 & H2 & H3 & H4). exists h1, (h2 ++ [LInvoke k id cb ev]). split_and!; auto.
  - by rewrite <- (assoc_L (++)).
  - intros s' e' Hin. apply elem_of_app in Hin as [Hin|Hin]; [by eapply H2|].
    apply elem_of_list_singleton in Hin. done.
  - rewrite invoked_by_app, H3. simpl. rewrite Nat.eqb_refl, <- (assoc_L (++)). done.
  - intros id' cb' e' Hin. apply elem_of_app in Hin as [Hin|Hin]; [by eapply H4|].
    apply elem_of_list_singleton in Hin. congruence.
Qed.

Lemma Forall_snoc_m {A} (P : A -> Prop) l x : Forall P l -> P x -> Forall P (l ++ [x]).
Proof. intros. apply Forall_app. auto. Qed.

Lemma range_ids sub ls : l_id <$> range sub ls = (fun x => x.1.1) <$> filter (fun x => x.1.2 = sub) (key <$> ls).
Proof.
  unfold range. induction ls as [|l ls IH]; [done|].
  destruct (decide (l_sub l = sub)) as [E|E].
  - rewrite filter_cons_True by exact E. rewrite !fmap_cons. rewrite filter_cons_True by exact E. rewrite fmap_cons. f_equal. exact IH.
  - rewrite filter_cons_False by exact E. rewrite !fmap_cons. rewrite filter_cons_False by exact E. exact IH.
Qed.

Lemma erase_id_some id ls ls' : NoDup (l_id <$> ls) -> erase_id id ls = Some ls' ->
  key <$> ls' = filter (fun x => x.1.1 <> id) (key <$> ls) /\ (l_id <$> ls') `sublist_of` (l_id <$> ls) /\
  id ∈ l_id <$> ls /\ (forall l, l ∈ ls' -> l ∈ ls) /\ id ∉ l_id <$> ls'.
Proof.
  revert ls'; induction ls as [|l ls IH]; intros ls' Hnd E; simpl in E; [done|].
  rewrite fmap_cons in Hnd. apply NoDup_cons in Hnd as [Hni Hnd].
  destruct (Z.eqb_spec (l_id l) id) as [<-|Hne].
  - injection E as <-. rewrite !fmap_cons, filter_cons_False by (simpl; auto). split_and!.
    + clear IH Hnd. revert Hni. generalize (l_id l) as id. intros id Hni. clear l. induction ls as [|l ls IH]; [done|]. rewrite fmap_cons in Hni. rewrite fmap_cons.
      apply not_elem_of_cons in Hni as [Hn1 Hn2]. rewrite filter_cons_True by (simpl; auto). f_equal. by apply IH.
    + by apply sublist_cons.
    + set_solver.
    + set_solver.
    + done.
  - destruct (erase_id id ls) as [r|] eqn:Er; [|done]. injection E as <-.
    destruct (IH r Hnd eq_refl) as (H1 & H2 & H3 & H4 & H5).
    rewrite !fmap_cons, filter_cons_True by (simpl; auto). split_and!.
    + by f_equal.
    + by apply sublist_skip.
    + set_solver.
    + set_solver.
    + set_solver.
Qed.
Lemma erase_id_none id ls : erase_id id ls = None <-> id ∉ l_id <$> ls.
Proof.
  induction ls as [|l ls IH]; simpl; [set_solver|].
  destruct (Z.eqb_spec (l_id l) id) as [<-|Hne]; [set_solver|].
  destruct (erase_id id ls) as [r|]; [|set_solver]. split; [done|]. intros H.
  assert (Some r = None) by (apply IH; set_solver). done.
Qed.

Lemma ls_nodup s : Inv s -> NoDup (l_id <$> e_ls s).
Proof.
  intros I. eapply sublist_NoDup; [apply I|]. rewrite (i_created s I).
  apply (NoDup_fmap_2 Z.of_nat). apply NoDup_seq.
Qed.

(** Steps that log one event unrelated to emits and keep the stacks. *)
Lemma inv_log s e s' : Inv s -> (forall k, ~ mentions k e) ->
  e_log s' = e :: e_log s -> e_thr s' = e_thr s -> e_k s' = e_k s ->
  created (rev (e_log s')) = Z.of_nat <$> seq 1 (length (created (rev (e_log s')))) ->
  e_last s' = Z.of_nat (length (created (rev (e_log s')))) ->
  registered (rev (e_log s')) = key <$> e_ls s' ->
  (l_id <$> e_ls s') `sublist_of` created (rev (e_log s')) -> Inv s'.
Proof.
  intros I Hm El Et Ek H1 H2 H3 H4. constructor; auto; rewrite ?Ek, ?Et.
  - unfold all_emits. rewrite Et. apply I.
  - intros k Hk. destruct (i_old s I k Hk) as (sub & ev & rest & Hp & He & Hf).
    exists sub, ev, rest. rewrite El. cbn [rev]. split_and!.
    + by apply progress_snoc.
    + intros Hin. apply He. apply elem_of_app in Hin as [Hin|Hin]; [done|].
      apply elem_of_list_singleton in Hin as <-. by destruct (Hm k).
    + intros t st sub' ev' hs Ht Hin. destruct (Hf t st sub' ev' hs Ht Hin) as (? & ? & ? & Hn).
      split_and!; auto. intros Hc. apply Hn. apply elem_of_app in Hc as [Hc|Hc]; [done|].
      apply elem_of_list_singleton in Hc as <-. by destruct (Hm k).
  - intros k Hk. rewrite El. cbn [rev]. apply Forall_snoc_m; [by apply I|auto].
  - apply I.
  - apply I.
Qed.

Lemma inv_remove s id : Inv s -> Inv (remove_listener id s).1.
Proof.
  intros I. pose proof (ls_nodup s I) as Hnd. unfold remove_listener.
  destruct (erase_id id (e_ls s)) as [ls|] eqn:E; simpl.
  - destruct (erase_id_some _ _ _ Hnd E) as (H1 & H2 & H3 & _).
    eapply (inv_log s (LRemoved id)); simpl; auto.
    + rewrite created_app; simpl. rewrite app_nil_r. apply I.
    + rewrite created_app; simpl. rewrite app_nil_r. apply I.
    + rewrite registered_snoc, (i_reg s I). simpl. by rewrite H1.
    + rewrite created_app; simpl. rewrite app_nil_r. etransitivity; [exact H2|apply I].
  - eapply (inv_log s (LInvalid id)); simpl; auto.
    + rewrite created_app; simpl. rewrite app_nil_r. apply I.
    + rewrite created_app; simpl. rewrite app_nil_r. apply I.
    + rewrite registered_snoc, (i_reg s I). done.
    + rewrite created_app; simpl. rewrite app_nil_r. apply I.
Qed.

Lemma emits_perm (s : em) t st st' : e_thr s !! t = Some st ->
  concat (emits_of <$> <[t:=st']> (e_thr s)) ++ emits_of st ≡ₚ all_emits s ++ emits_of st'.
Proof. intros H. by apply concat_insert. Qed.

Lemma elem_emits st k : k ∈ emits_of st <-> exists sub ev hs, FEmit k sub ev hs ∈ st.
Proof.
  unfold emits_of. rewrite elem_of_list_omap. split.
  - intros ([k' sub ev hs|] & Hin & E); [|done]. injection E as ->. eauto.
  - intros (sub & ev & hs & Hin). eexists. split; [exact Hin|done].
Qed.

(** The frames of emit [k] live in one place only. *)
Lemma emit_unique s t t' st st' k sub ev hs sub' ev' hs' : NoDup (all_emits s) ->
  e_thr s !! t = Some (FEmit k sub ev hs :: st) -> e_thr s !! t' = Some st' -> FEmit k sub' ev' hs' ∈ st' ->
  t = t' /\ (FEmit k sub' ev' hs' ∉ st).
Proof.
  intros Hnd Ht Ht' Hin.
  pose proof (emits_perm s t _ st Ht) as Hp. simpl in Hp.
  assert (Hk : k ∉ concat (emits_of <$> <[t:=st]> (e_thr s))).
  { assert (Hnd2 : NoDup (k :: concat (emits_of <$> <[t:=st]> (e_thr s)))).
    { assert (Hq : k :: concat (emits_of <$> <[t:=st]> (e_thr s)) ≡ₚ all_emits s).
      { apply (Permutation_app_inv_r (emits_of st)). rewrite <- Hp. solve_Permutation. }
      by rewrite Hq. }
    by apply NoDup_cons in Hnd2 as [? _]. }
  rewrite elem_of_concat in Hk. split.
  - destruct (decide (t = t')) as [|Hne]; [done|]. exfalso. apply Hk. exists t', st'.
    rewrite list_lookup_insert_ne by done. split; [done|]. apply elem_emits. eauto.
  - intros Hc. apply Hk. exists t, st. rewrite list_lookup_insert by (by eapply lookup_lt_Some).
    split; [done|]. apply elem_emits. eauto.
Qed.

(** Dropping inner frames. *)
Lemma inv_pop s t pre st : Inv s -> e_thr s !! t = Some (pre ++ st) -> Inv (set_stack t st s).
Proof.
  intros I Ht.
  assert (Hold : forall t' st' f, <[t:=st]> (e_thr s) !! t' = Some st' -> f ∈ st' ->
     exists st2, e_thr s !! t' = Some st2 /\ f ∈ st2).
  { intros t' st' f Ht' Hin. apply list_lookup_insert_case in Ht' as [[<- ->]|[Hne' Ht']]; [|eauto].
    eexists. split; [exact Ht|]. set_solver. }
  destruct I as [I1 I2 I3 I4 I5 I6 I7 I8 I9]. constructor; simpl; auto.
  - unfold all_emits; simpl. pose proof (emits_perm s t _ st Ht) as Hp.
    assert (Hq : concat (emits_of <$> <[t:=st]> (e_thr s)) ++ emits_of pre ≡ₚ all_emits s).
    { apply (Permutation_app_inv_r (emits_of st)). rewrite <- Hp. unfold emits_of. rewrite omap_app. solve_Permutation. }
    rewrite <- Hq in I5. by apply NoDup_app in I5 as [? _].
  - intros k Hk. destruct (I6 k Hk) as (sub & ev & rest & Hp & He & Hf). exists sub, ev, rest. split_and!; auto.
    intros t' st' sub' ev' hs Ht' Hin. destruct (Hold t' st' _ Ht' Hin) as (st2 & H1 & H2). by eapply Hf.
  - intros t' st' k sub ev hs Ht' Hin. destruct (Hold t' st' _ Ht' Hin) as (st2 & H1 & H2). by eapply I8.
  - intros t' st' k h Ht' Hin. destruct (Hold t' st' _ Ht' Hin) as (st2 & H1 & H2). by eapply I9.
Qed.
Lemma inv_abort s k : Inv s -> (k < e_k s)%nat -> Inv (log (LAbort k) s).
Proof.
  intros I Hk. destruct I as [I1 I2 I3 I4 I5 I6 I7 I8 I9]. constructor; simpl; auto;
    rewrite ?created_app, ?app_nil_r; simpl; rewrite ?app_nil_r; auto.
  - by rewrite registered_snoc.
  - intros k' Hk'. destruct (I6 k' Hk') as (sub & ev & rest & Hp & He & Hf). exists sub, ev, rest. split_and!.
    + destruct (decide (k' = k)) as [->|]; [by apply progress_end; auto|by apply progress_snoc; simpl; auto].
    + intros Hin. apply He. apply elem_of_app in Hin as [Hin|Hin]; [done|set_solver].
    + intros t st sub' ev' hs Ht Hin. destruct (Hf t st sub' ev' hs Ht Hin) as (? & ? & ? & Hn). split_and!; auto.
      intros Hc. apply Hn. apply elem_of_app in Hc as [Hc|Hc]; [done|set_solver].
  - intros k' Hk'. apply Forall_snoc_m; [auto|]. simpl. lia.
Qed.
Lemma inv_unwind s t k h st : Inv s -> e_thr s !! t = Some (FCb k h :: st) -> Inv (unwind t k st s).
Proof.
  intros I Ht. pose proof (i_cbs s I t _ k h Ht ltac:(set_solver)) as Hk. apply inv_abort; [|done].
  destruct st as [|[k' sub ev hs|k' h'] st].
  - by apply (inv_pop s t [FCb k h] []).
  - by apply (inv_pop s t [FCb k h; FEmit k' sub ev hs] st).
  - by apply (inv_pop s t [FCb k h] (FCb k' h' :: st)).
Qed.
Lemma remove_thr id s : e_thr (remove_listener id s).1 = e_thr s.
Proof. unfold remove_listener. by destruct (erase_id id (e_ls s)). Qed.

Lemma inv_add s sub once cb : Inv s -> Z.of_nat (S (length (created (rev (e_log s))))) < 4294967296 ->
  Inv (add_listener sub once cb s).
Proof.
  intros I Hsmall.
  assert (Hid : u32 (e_last s + 1) = Z.of_nat (S (length (created (rev (e_log s))))))
    by (rewrite (i_last s I); unfold u32; rewrite Z.mod_small; lia).
  unfold add_listener. rewrite Hid.
  apply (inv_log s (LOn (Z.of_nat (S (length (created (rev (e_log s)))))) sub once cb)); auto; cbn [e_log e_last e_ls log rev];
    rewrite ?created_app, ?app_length; cbn [created length]; rewrite ?Nat.add_1_r.
  - rewrite seq_S, fmap_app, <- (i_created s I). done.
  - done.
  - rewrite registered_snoc, (i_reg s I), fmap_app. done.
  - rewrite fmap_app. apply sublist_app; [apply I|done].
Qed.
Lemma exec_inv s a : Inv s -> Z.of_nat (length (created (rev (e_log (exec s a))))) < 4294967296 -> Inv (exec s a).
Proof.
  intros I Hsmall. destruct a as [t c|t|t|t]; simpl in *.
  - (* calls *)
    assert (Hcall : forall st, e_thr s !! t = Some st -> (forall k sub ev hs st', st = FEmit k sub ev hs :: st' -> False) ->
       Z.of_nat (length (created (rev (e_log (do_call t st c s))))) < 4294967296 -> Inv (do_call t st c s)).
    { clear Hsmall. intros st Ht Hne Hsmall. destruct c as [sub cb|sub cb|id| |sub ev|sub]; simpl in *.
      - apply inv_add; auto. simpl in Hsmall. rewrite created_app, app_length in Hsmall; simpl in Hsmall. lia.
      - apply inv_add; auto. simpl in Hsmall. rewrite created_app, app_length in Hsmall; simpl in Hsmall. lia.
      - by apply inv_remove.
      - eapply (inv_log s LClear); simpl; auto.
        + rewrite created_app; simpl. rewrite app_nil_r. apply I.
        + rewrite created_app; simpl. rewrite app_nil_r. apply I.
        + by rewrite registered_snoc.
        + apply sublist_nil_l.
      - (* emit *)
        assert (Hfresh : e_k s ∉ all_emits s).
        { unfold all_emits. rewrite elem_of_concat. intros (t' & st' & Ht' & Hk).
          apply elem_emits in Hk as (? & ? & ? & Hk). pose proof (i_frames s I _ _ _ _ _ _ Ht' Hk). lia. }
        constructor; simpl.
        + rewrite created_app; simpl. rewrite app_nil_r. apply I.
        + rewrite created_app; simpl. rewrite app_nil_r. apply I.
        + rewrite registered_snoc. apply I.
        + rewrite created_app; simpl. rewrite app_nil_r. apply I.
        + unfold all_emits; simpl.
          pose proof (emits_perm s t st (FEmit (e_k s) sub ev (range sub (e_ls s)) :: st) Ht) as Hp.
          simpl in Hp.
          assert (Hq : concat (emits_of <$> <[t:=FEmit (e_k s) sub ev (range sub (e_ls s)) :: st]> (e_thr s)) ≡ₚ e_k s :: all_emits s).
          { apply (Permutation_app_inv_r (emits_of st)). rewrite Hp. solve_Permutation. }
          rewrite Hq. constructor; [done|apply I].
        + intros k Hk. destruct (decide (k = e_k s)) as [->|Hnk].
          * exists sub, ev, (l_id <$> range sub (e_ls s)). split_and!.
            -- exists (rev (e_log s)), []. split_and!; auto; [apply I; lia|set_solver| |set_solver].
               simpl. unfold registered_for. rewrite range_ids, (i_reg s I). done.
            -- intros Hin. exfalso. apply elem_of_app in Hin as [Hin|Hin]; [|set_solver].
               pose proof (i_new s I (e_k s) ltac:(lia)) as Hm. rewrite Forall_forall in Hm. by apply (Hm _ Hin).
            -- intros t' st' sub' ev' hs Ht' Hin.
               assert (HLE : LEnd (e_k s) ∉ rev (e_log s) ++ [LEmit (e_k s) sub ev]).
               { intros Hc. apply elem_of_app in Hc as [Hc|Hc]; [|set_solver].
                 pose proof (i_new s I (e_k s) ltac:(lia)) as Hm. rewrite Forall_forall in Hm. by apply (Hm _ Hc). }
               apply list_lookup_insert_case in Ht' as [[<- ->]|[Hne' Ht']].
               ++ apply elem_of_cons in Hin as [Hin|Hin].
                  ** injection Hin as -> -> ->. done.
                  ** exfalso. pose proof (i_frames s I _ _ _ _ _ _ Ht Hin); lia.
               ++ exfalso. pose proof (i_frames s I _ _ _ _ _ _ Ht' Hin); lia.
          * destruct (i_old s I k ltac:(lia)) as (sub0 & ev0 & rest & Hp & He & Hf).
            exists sub0, ev0, rest. split_and!.
            -- apply progress_snoc; [done|]. simpl. congruence.
            -- intros Hin. apply He. apply elem_of_app in Hin as [Hin|Hin]; [done|set_solver].
            -- intros t' st' sub' ev' hs Ht' Hin.
               assert (Hold : exists t2 st2, e_thr s !! t2 = Some st2 /\ FEmit k sub' ev' hs ∈ st2).
               { apply list_lookup_insert_case in Ht' as [[<- ->]|[Hne' Ht']]; [|eauto].
                 apply elem_of_cons in Hin as [Hin|Hin]; [congruence|eauto]. }
               destruct Hold as (t2 & st2 & Ht2 & Hin2).
               destruct (Hf t2 st2 sub' ev' hs Ht2 Hin2) as (? & ? & ? & Hn). split_and!; auto.
               intros Hc. apply Hn. apply elem_of_app in Hc as [Hc|Hc]; [done|set_solver].
        + intros k Hk. apply Forall_snoc_m; [apply I; lia|]. simpl. lia.
        + intros t' st' k sub' ev' hs Ht' Hin.
          apply list_lookup_insert_case in Ht' as [[<- ->]|[Hne' Ht']].
          * apply elem_of_cons in Hin as [Hin|Hin]; [injection Hin; lia|].
            pose proof (i_frames s I _ _ _ _ _ _ Ht Hin); lia.
          * pose proof (i_frames s I _ _ _ _ _ _ Ht' Hin); lia.
        + intros t' st' k h Ht' Hin.
          apply list_lookup_insert_case in Ht' as [[<- ->]|[Hne' Ht']].
          * apply elem_of_cons in Hin as [Hin|Hin]; [done|].
            pose proof (i_cbs s I _ _ _ _ Ht Hin); lia.
          * pose proof (i_cbs s I _ _ _ _ Ht' Hin); lia.
      - (* discard *)
        assert (E : key <$> discard sub (e_ls s) = key <$> e_ls s /\ l_id <$> discard sub (e_ls s) = l_id <$> e_ls s).
        { unfold discard. rewrite <- !list_fmap_compose. split; apply list_fmap_ext; intros i l _; simpl;
            destruct (_ && _); done. }
        destruct E as [E1 E2].
        eapply (inv_log s (LDiscard sub)); simpl; auto; rewrite ?created_app; simpl; rewrite ?app_nil_r; try apply I.
        + rewrite registered_snoc, E1. apply I.
        + rewrite E2. apply I. }
    destruct (e_thr s !! t) as [st|] eqn:Ht; [|done].
    destruct st as [|[k sub ev hs|k h] st]; [apply Hcall; done|done|apply Hcall; auto; done].
  - (* step *)
    destruct (e_thr s !! t) as [st|] eqn:Ht; [|done].
    destruct st as [|[k sub ev hs|k h] st]; try done.
    pose proof (i_frames s I t _ k sub ev hs Ht ltac:(set_solver)) as Hk.
    destruct (i_old s I k Hk) as (sub0 & ev0 & rest & Hp & He & Hf).
    destruct (Hf t _ sub ev hs Ht ltac:(set_solver)) as (<- & <- & -> & Hn).
    destruct hs as [|h hs]; simpl in *.
    + constructor; simpl.
      * rewrite created_app; simpl. rewrite app_nil_r. apply I.
      * rewrite created_app; simpl. rewrite app_nil_r. apply I.
      * rewrite registered_snoc. apply I.
      * rewrite created_app; simpl. rewrite app_nil_r. apply I.
      * unfold all_emits; simpl. pose proof (emits_perm s t _ st Ht) as Hpm. simpl in Hpm.
        assert (Hq : k :: concat (emits_of <$> <[t:=st]> (e_thr s)) ≡ₚ all_emits s).
        { apply (Permutation_app_inv_r (emits_of st)). rewrite <- Hpm. solve_Permutation. }
        pose proof (i_emits s I) as Hnd. rewrite <- Hq in Hnd. by apply NoDup_cons in Hnd as [_ ?].
      * intros k' Hk'. destruct (decide (k' = k)) as [->|Hne].
        -- exists sub, ev, []. split_and!; [apply progress_end; auto|done|].
           intros t' st' sub' ev' hs' Ht' Hin. exfalso.
           apply list_lookup_insert_case in Ht' as [[<- ->]|[Hne' Ht']].
           ++ destruct (emit_unique s t t _ _ k sub ev [] sub' ev' hs' (i_emits s I) Ht Ht ltac:(set_solver)). done.
           ++ destruct (emit_unique s t t' _ _ k sub ev [] sub' ev' hs' (i_emits s I) Ht Ht' Hin). done.
        -- destruct (i_old s I k' Hk') as (sub1 & ev1 & rest1 & Hp1 & He1 & Hf1).
           exists sub1, ev1, rest1. split_and!.
           ++ apply progress_snoc; [done|simpl; congruence].
           ++ intros Hin. apply He1. apply elem_of_app in Hin as [Hin|Hin]; [done|set_solver].
           ++ intros t' st' sub' ev' hs' Ht' Hin.
              assert (Hold : exists t2 st2, e_thr s !! t2 = Some st2 /\ FEmit k' sub' ev' hs' ∈ st2).
              { apply list_lookup_insert_case in Ht' as [[<- ->]|[Hne' Ht']]; [|eauto].
                exists t. eexists. split; [exact Ht|set_solver]. }
              destruct Hold as (t2 & st2 & Ht2 & Hin2).
              destruct (Hf1 t2 st2 sub' ev' hs' Ht2 Hin2) as (? & ? & ? & Hn1). split_and!; auto.
              intros Hc. apply Hn1. apply elem_of_app in Hc as [Hc|Hc]; [done|set_solver].
      * intros k' Hk'. apply Forall_snoc_m; [by apply I|]. simpl. lia.
      * intros t' st' k' sub' ev' hs' Ht' Hin. apply list_lookup_insert_case in Ht' as [[<- ->]|[Hne' Ht']].
        -- eapply (i_frames s I t); [exact Ht|]. apply elem_of_cons. right. exact Hin.
        -- by eapply (i_frames s I t').
      * intros t' st' k' h' Ht' Hin. apply list_lookup_insert_case in Ht' as [[<- ->]|[Hne' Ht']].
        -- eapply (i_cbs s I t); [exact Ht|]. apply elem_of_cons. right. exact Hin.
        -- by eapply (i_cbs s I t').
    + constructor; simpl.
      * rewrite created_app; simpl. rewrite app_nil_r. apply I.
      * rewrite created_app; simpl. rewrite app_nil_r. apply I.
      * rewrite registered_snoc. apply I.
      * rewrite created_app; simpl. rewrite app_nil_r. apply I.
      * unfold all_emits; simpl.
        pose proof (emits_perm s t _ (FCb k h :: FEmit k sub ev hs :: st) Ht) as Hpm. simpl in Hpm.
        assert (Hq : concat (emits_of <$> <[t:=FCb k h :: FEmit k sub ev hs :: st]> (e_thr s)) ≡ₚ all_emits s).
        { apply (Permutation_app_inv_r (k :: emits_of st)). exact Hpm. }
        rewrite Hq. apply I.
      * intros k' Hk'. destruct (decide (k' = k)) as [->|Hne].
        -- exists sub, ev, (l_id <$> hs). split_and!; [by apply progress_invoke| |].
           { intros Hin. exfalso. apply elem_of_app in Hin as [Hin|Hin]; [done|set_solver]. }
           intros t' st' sub' ev' hs' Ht' Hin.
           assert (HE : LEnd k ∉ rev (e_log s) ++ [LInvoke k (l_id h) (l_cb h) ev]).
           { intros Hc. apply elem_of_app in Hc as [Hc|Hc]; [done|set_solver]. }
           apply list_lookup_insert_case in Ht' as [[<- ->]|[Hne' Ht']].
           ++ apply elem_of_cons in Hin as [Hin|Hin]; [done|]. apply elem_of_cons in Hin as [Hin|Hin].
              ** injection Hin as -> -> ->. done.
              ** exfalso. destruct (emit_unique s t t _ _ k sub ev (h :: hs) sub' ev' hs' (i_emits s I) Ht Ht ltac:(set_solver)). done.
           ++ exfalso. destruct (emit_unique s t t' _ _ k sub ev (h :: hs) sub' ev' hs' (i_emits s I) Ht Ht' Hin). done.
        -- destruct (i_old s I k' Hk') as (sub1 & ev1 & rest1 & Hp1 & He1 & Hf1).
           exists sub1, ev1, rest1. split_and!.
           ++ apply progress_snoc; [done|simpl; congruence].
           ++ intros Hin. apply He1. apply elem_of_app in Hin as [Hin|Hin]; [done|set_solver].
           ++ intros t' st' sub' ev' hs' Ht' Hin.
              assert (Hold : exists t2 st2, e_thr s !! t2 = Some st2 /\ FEmit k' sub' ev' hs' ∈ st2).
              { apply list_lookup_insert_case in Ht' as [[<- ->]|[Hne' Ht']]; [|eauto].
                exists t. eexists. split; [exact Ht|].
                apply elem_of_cons in Hin as [Hin|Hin]; [done|].
                apply elem_of_cons in Hin as [Hin|Hin]; [congruence|set_solver]. }
              destruct Hold as (t2 & st2 & Ht2 & Hin2).
              destruct (Hf1 t2 st2 sub' ev' hs' Ht2 Hin2) as (? & ? & ? & Hn1). split_and!; auto.
              intros Hc. apply Hn1. apply elem_of_app in Hc as [Hc|Hc]; [done|set_solver].
      * intros k' Hk'. apply Forall_snoc_m; [by apply I|]. simpl. lia.
      * intros t' st' k' sub' ev' hs' Ht' Hin. apply list_lookup_insert_case in Ht' as [[<- ->]|[Hne' Ht']].
        -- apply elem_of_cons in Hin as [Hin|Hin]; [done|]. apply elem_of_cons in Hin as [Hin|Hin]; [congruence|].
           eapply (i_frames s I t); [exact Ht|]. apply elem_of_cons. right. exact Hin.
        -- by eapply (i_frames s I t').
      * intros t' st' k' h' Ht' Hin. apply list_lookup_insert_case in Ht' as [[<- ->]|[Hne' Ht']].
        -- apply elem_of_cons in Hin as [Hin|Hin]; [congruence|]. apply elem_of_cons in Hin as [Hin|Hin]; [done|].
           eapply (i_cbs s I t); [exact Ht|]. apply elem_of_cons. right. exact Hin.
        -- by eapply (i_cbs s I t').
  - (* return *)
    destruct (e_thr s !! t) as [st|] eqn:Ht; [|done].
    destruct st as [|[k sub ev hs|k h] st]; try done.
    destruct (l_once h); [|by apply (inv_pop s t [FCb k h] st)].
    pose proof (inv_remove s (l_id h) I) as I'. pose proof (remove_thr (l_id h) s) as Et.
    destruct (remove_listener (l_id h) s) as [s' [|]]; simpl in *.
    + apply (inv_pop s' t [FCb k h] st); [done|by rewrite Et].
    + eapply inv_unwind; [done|by rewrite Et].
  - destruct (e_thr s !! t) as [st|] eqn:Ht; [|done].
    destruct st as [|[k sub ev hs|k h] st]; try done. by eapply inv_unwind.
Qed.
