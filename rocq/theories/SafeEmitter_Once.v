(** Proofs for once listeners (C08) and removed listeners (C52). *)
From stdpp Require Import prelude strings list_numbers.
From Verif Require Import Base SafeEmitter_Model SafeEmitter_Spec SafeEmitter_Proofs.
Local Open Scope Z_scope.

Definition known (s : em) (h : listener) : Prop := LOn (l_id h) (l_sub h) (l_once h) (l_cb h) ∈ e_log s.

Definition frame_ok (s : em) (f : frame) : Prop :=
  match f with
  | FEmit _ sub _ hs => Forall (fun h => known s h /\ l_sub h = sub) hs /\ NoDup (l_id <$> hs)
  | FCb _ h => known s h
  end.
Fixpoint wf (st : list frame) : Prop :=
  match st with
  | [] => True
  | FEmit _ _ _ _ :: st' => (match st' with FEmit _ _ _ _ :: _ => False | _ => True end) /\ wf st'
  | FCb k h :: st' => (match st' with FEmit k' sub _ _ :: _ => k' = k /\ sub = l_sub h | _ => False end) /\ wf st'
  end.
Lemma wf_tail f st : wf (f :: st) -> wf st.
Proof. destruct f; simpl; tauto. Qed.

Record K (s : em) : Prop := {
  k_ls : Forall (known s) (e_ls s);
  k_fr : forall t st f, e_thr s !! t = Some st -> f ∈ st -> frame_ok s f;
  k_wf : forall t st, e_thr s !! t = Some st -> wf st
}.

Lemma known_mono s s' h : (forall e, e ∈ e_log s -> e ∈ e_log s') -> known s h -> known s' h.
Proof. intros H Hc. apply H, Hc. Qed.
Lemma frame_ok_mono s s' f : (forall e, e ∈ e_log s -> e ∈ e_log s') -> frame_ok s f -> frame_ok s' f.
Proof.
  intros H. destruct f as [k sub ev hs|k h]; simpl; [|by apply known_mono].
  intros [H1 H2]. split; [|done]. eapply Forall_impl; [exact H1|]. intros h [? ?]. split; [by eapply known_mono|done].
Qed.

(** Generic preservation: the log grows, listeners are known, the stack of one thread changes. *)
Lemma k_step s s' t st' : K s -> (forall e, e ∈ e_log s -> e ∈ e_log s') ->
  (forall h, h ∈ e_ls s' -> known s' h) ->
  e_thr s' = <[t:=st']> (e_thr s) -> (forall f, f ∈ st' -> frame_ok s' f) -> wf st' -> K s'.
Proof.
  intros HK Hl Hls Et Hf Hw. constructor.
  - by apply Forall_forall.
  - intros t' st f. rewrite Et. intros Ht Hin. apply list_lookup_insert_case in Ht as [[_ ->]|[_ Ht]]; [auto|].
    eapply frame_ok_mono; [exact Hl|]. by eapply (k_fr s HK).
  - intros t' st. rewrite Et. intros Ht. apply list_lookup_insert_case in Ht as [[_ ->]|[_ Ht]]; [auto|].
    by eapply (k_wf s HK).
Qed.
Lemma k_step0 s s' : K s -> (forall e, e ∈ e_log s -> e ∈ e_log s') ->
  (forall h, h ∈ e_ls s' -> known s' h) -> e_thr s' = e_thr s -> K s'.
Proof.
  intros HK Hl Hls Et. constructor.
  - by apply Forall_forall.
  - intros t' st f. rewrite Et. intros Ht Hin. eapply frame_ok_mono; [exact Hl|]. by eapply (k_fr s HK).
  - intros t' st. rewrite Et. by eapply (k_wf s HK).
Qed.

Lemma erase_id_elem id ls ls' l : erase_id id ls = Some ls' -> l ∈ ls' -> l ∈ ls.
Proof.
  revert ls'; induction ls as [|x ls IH]; intros ls' E Hl; simpl in E; [done|].
  destruct (l_id x =? id); [injection E as <-; set_solver|].
  destruct (erase_id id ls); [|done]. injection E as <-. set_solver.
Qed.

Lemma remove_elem id s l : l ∈ e_ls (remove_listener id s).1 -> l ∈ e_ls s.
Proof.
  unfold remove_listener. destruct (erase_id id (e_ls s)) eqn:E; simpl; [|done]. by apply erase_id_elem with (id := id).
Qed.
Lemma remove_log id s e : e ∈ e_log s -> e ∈ e_log (remove_listener id s).1.
Proof. unfold remove_listener. destruct (erase_id id (e_ls s)); simpl; set_solver. Qed.

Lemma k_remove s id : K s -> K (remove_listener id s).1.
Proof.
  intros HK. apply (k_step0 s); [done|apply remove_log| |apply remove_thr].
  intros h Hh. apply (known_mono s); [apply remove_log|]. pose proof (k_ls s HK) as Hk. rewrite Forall_forall in Hk.
  by apply Hk, (remove_elem id).
Qed.

Lemma k_pop s t pre st : K s -> e_thr s !! t = Some (pre ++ st) -> K (set_stack t st s).
Proof.
  intros HK Ht. apply (k_step s _ t st); simpl; auto.
  - intros h Hh. pose proof (k_ls s HK) as Hk. rewrite Forall_forall in Hk. by apply Hk.
  - intros f Hf. apply (frame_ok_mono s); [done|]. eapply (k_fr s HK); [exact Ht|set_solver].
  - pose proof (k_wf s HK t _ Ht) as Hw. clear Ht. induction pre as [|f pre IH]; [done|]. by apply IH, (wf_tail f).
Qed.
Lemma k_log s e : K s -> K (log e s).
Proof.
  intros HK. apply (k_step0 s); simpl; auto; [set_solver|].
  intros h Hh. pose proof (k_ls s HK) as Hk. rewrite Forall_forall in Hk.
  apply (known_mono s); [simpl; set_solver|]. by apply Hk.
Qed.
Lemma k_unwind s t k h st : K s -> e_thr s !! t = Some (FCb k h :: st) -> K (unwind t k st s).
Proof.
  intros HK Ht. apply k_log. destruct st as [|[k' sub ev hs|k' h'] st].
  - by apply (k_pop s t [FCb k h] []).
  - by apply (k_pop s t [FCb k h; FEmit k' sub ev hs] st).
  - by apply (k_pop s t [FCb k h] (FCb k' h' :: st)).
Qed.

Lemma range_sublist sub ls : range sub ls `sublist_of` ls.
Proof.
  unfold range. induction ls as [|l ls IH]; [done|]. destruct (decide (l_sub l = sub)).
  - rewrite filter_cons_True by done. by apply sublist_skip.
  - rewrite filter_cons_False by done. by apply sublist_cons.
Qed.
Lemma fmap_sublist {A B} (f : A -> B) l k : l `sublist_of` k -> (f <$> l) `sublist_of` (f <$> k).
Proof. induction 1; simpl; by constructor. Qed.

Lemma discard_elem sub ls l : l ∈ discard sub ls -> exists l', l' ∈ ls /\ key l = key l' /\ l_cb l = l_cb l'.
Proof.
  unfold discard. intros Hin. apply elem_of_list_fmap in Hin as (l' & -> & Hl'). exists l'. split; [done|].
  by destruct (_ && _).
Qed.
Lemma known_key s l l' : key l = key l' /\ l_cb l = l_cb l' -> known s l' -> known s l.
Proof. unfold key. intros [[= E1 E2 E3] E4]. unfold known. by rewrite E1, E2, E3, E4. Qed.

Lemma exec_K s a : NoDup (l_id <$> e_ls s) -> K s -> K (exec s a).
Proof.
  intros Hnd HK. pose proof (k_ls s HK) as Hkl. rewrite Forall_forall in Hkl.
  destruct a as [t c|t|t|t]; simpl.
  - assert (Hcall : forall st, e_thr s !! t = Some st -> (forall k sub ev hs st', st = FEmit k sub ev hs :: st' -> False) ->
       K (do_call t st c s)).
    { intros st Ht Hne. destruct c as [sub cb|sub cb|id| |sub ev|sub]; cbn [do_call].
      1,2: apply (k_step0 s); simpl; auto; [set_solver|]; intros h Hh; apply elem_of_app in Hh as [Hh|Hh];
        [apply (known_mono s); [simpl; set_solver|by apply Hkl]|];
        apply elem_of_list_singleton in Hh as ->; unfold known; simpl; set_solver.
      - by apply k_remove.
      - apply (k_step0 s); simpl; auto; [set_solver|set_solver].
      - eapply (k_step s _ t); simpl; [done|set_solver| |reflexivity| |].
        + intros h Hh. apply (known_mono s); [simpl; set_solver|by apply Hkl].
        + intros f Hf. apply elem_of_cons in Hf as [->|Hf].
          * simpl. split.
            -- apply Forall_forall. intros h Hh. apply elem_of_list_filter in Hh as [Hs Hh]. split; [|done].
               apply (known_mono s); [simpl; set_solver|by apply Hkl].
            -- eapply sublist_NoDup; [|exact Hnd]. apply fmap_sublist, range_sublist.
          * apply (frame_ok_mono s); [simpl; set_solver|]. by eapply (k_fr s HK).
        + split; [|by eapply (k_wf s HK)]. destruct st as [|[]]; auto. by eapply Hne.
      - apply (k_step0 s); simpl; auto; [set_solver|]. intros h Hh. apply discard_elem in Hh as (l' & Hl' & E).
        apply (known_mono s); [simpl; set_solver|]. eapply known_key; [exact E|]. by apply Hkl. }
    destruct (e_thr s !! t) as [st|] eqn:Ht; [|done].
    destruct st as [|[k sub ev hs|k h] st]; [apply Hcall; done|done|apply Hcall; auto; done].
  - destruct (e_thr s !! t) as [st|] eqn:Ht; [|done].
    destruct st as [|[k sub ev [|h hs]|k h] st]; try done.
    + apply k_log. by apply (k_pop s t [FEmit k sub ev []] st).
    + apply k_log. pose proof (k_fr s HK t _ (FEmit k sub ev (h :: hs)) Ht ltac:(set_solver)) as [Hf Hn].
      rewrite Forall_cons in Hf. destruct Hf as [[Hk Hs] Hf]. rewrite fmap_cons in Hn.
      eapply (k_step s _ t); simpl; [done|auto|by intros; apply Hkl|reflexivity| |].
      * intros f Hin. apply elem_of_cons in Hin as [->|Hin]; [done|]. apply elem_of_cons in Hin as [->|Hin].
        -- simpl. apply NoDup_cons in Hn as [_ Hn]. done.
        -- eapply frame_ok_mono; [|eapply (k_fr s HK); [exact Ht|set_solver]]. done.
      * pose proof (k_wf s HK t _ Ht) as Hw. simpl in Hw. split; [done|done].
  - destruct (e_thr s !! t) as [st|] eqn:Ht; [|done].
    destruct st as [|[k sub ev hs|k h] st]; try done.
    destruct (l_once h); [|by apply (k_pop s t [FCb k h] st)].
    pose proof (k_remove s (l_id h) HK) as I'. pose proof (remove_thr (l_id h) s) as Et.
    destruct (remove_listener (l_id h) s) as [s' [|]]; simpl in *.
    + apply (k_pop s' t [FCb k h] st); [done|by rewrite Et].
    + eapply k_unwind; [done|by rewrite Et].
  - destruct (e_thr s !! t) as [st|] eqn:Ht; [|done].
    destruct st as [|[k sub ev hs|k h] st]; try done. by eapply k_unwind.
Qed.

Lemma created_unique h id sub o cb sub' o' cb' : NoDup (created h) ->
  LOn id sub o cb ∈ h -> LOn id sub' o' cb' ∈ h -> sub = sub' /\ o = o'.
Proof.
  intros Hnd H1 H2.
  assert (Hc : forall h i s o c, LOn i s o c ∈ h -> i ∈ created h).
  { clear. induction h as [|[] h IH]; simpl; intros i s o c Hin; [by apply elem_of_nil in Hin|..];
      apply elem_of_cons in Hin as [Hin|Hin]; try done; try (by eapply IH).
    - injection Hin as -> -> -> ->. set_solver.
    - apply elem_of_cons. right. by eapply IH. }
  induction h as [|e h IH]; [by apply elem_of_nil in H1|].
  apply elem_of_cons in H1 as [H1|H1]; apply elem_of_cons in H2 as [H2|H2].
  - subst e. injection H2 as -> -> ->. auto.
  - subst e. simpl in Hnd. apply NoDup_cons in Hnd as [Hn _]. exfalso. apply Hn. by eapply Hc.
  - subst e. simpl in Hnd. apply NoDup_cons in Hnd as [Hn _]. exfalso. apply Hn. by eapply Hc.
  - apply IH; auto. destruct e; simpl in Hnd; auto. by apply NoDup_cons in Hnd as [_ ?].
Qed.

(** ** Whole runs *)
Lemma exec_log s a : exists l, e_log (exec s a) = l ++ e_log s.
Proof.
  destruct a as [t c|t|t|t]; simpl; destruct (e_thr s !! t) as [st|] eqn:Ht; try (by exists []);
    destruct st as [|[k sub ev hs|k h] st]; try (by exists []).
  1,2: destruct c as [sub cb|sub cb|id| |sub ev|sub]; simpl; unfold remove_listener; try destruct (erase_id _ _); simpl;
    first [by eexists [_]|by exists []].
  - destruct hs; by eexists [_].
  - destruct (l_once h); [|by exists []]. unfold remove_listener.
    destruct (erase_id _ _); simpl; [by eexists [_]|by eexists [_; _]].
  - by eexists [_].
Qed.
Lemma run_log s acts : exists l, e_log (run s acts) = l ++ e_log s.
Proof.
  revert s; induction acts as [|a acts IH]; intros s; [by exists []|].
  destruct (IH (exec s a)) as [l2 E2]. destruct (exec_log s a) as [l1 E1]. exists (l2 ++ l1).
  cbn [run fold_left]. unfold run in E2. rewrite E2, E1. by rewrite (assoc_L (++)).
Qed.
Definition few (s : em) : Prop := Z.of_nat (length (created (rev (e_log s)))) < 4294967296.
Lemma few_exec s a acts : few (run s (a :: acts)) -> few (exec s a).
Proof.
  unfold few. change (run s (a :: acts)) with (run (exec s a) acts).
  destruct (run_log (exec s a) acts) as [l ->]. rewrite rev_app_distr, created_app, app_length. lia.
Qed.
Definition G (s : em) : Prop := Inv s /\ K s.
Lemma exec_G s a : G s -> few (exec s a) -> G (exec s a).
Proof. intros [I HK] Hf. split; [by apply exec_inv|]. apply exec_K; [by apply ls_nodup|done]. Qed.
Lemma run_G s acts : G s -> few (run s acts) -> G (run s acts).
Proof.
  revert s; induction acts as [|a acts IH]; intros s HG Hf; [done|].
  pose proof (few_exec _ _ _ Hf). apply (IH (exec s a)); [by apply exec_G|done].
Qed.
Lemma init_G n : G (em_new n).
Proof.
  assert (Hr : forall t st, e_thr (em_new n) !! t = Some st -> st = []).
  { intros t st Ht. simpl in Ht. by apply lookup_replicate in Ht as [-> _]. }
  split; constructor; simpl; auto; try done.
  - unfold all_emits. simpl. replace (concat (emits_of <$> replicate n [])) with (@nil nat); [constructor|].
    induction n; simpl; auto. apply IHn. intros t st Ht. simpl in Ht. by apply lookup_replicate in Ht as [-> _].
  - lia.
  - intros t st k sub ev hs Ht. rewrite (Hr t st Ht). set_solver.
  - intros t st k h Ht. rewrite (Hr t st Ht). set_solver.
  - intros t st f Ht. rewrite (Hr t st Ht). set_solver.
  - intros t st Ht. by rewrite (Hr t st Ht).
Qed.

(** ** Counting *)
Definition occ (id : Z) (l : list Z) : nat := length (filter (fun x => x = id) l).
Lemma occ_app id l k : occ id (l ++ k) = (occ id l + occ id k)%nat.
Proof. unfold occ. by rewrite filter_app, app_length. Qed.
Lemma occ_perm id l k : l ≡ₚ k -> occ id l = occ id k.
Proof. intros H. unfold occ. by rewrite H. Qed.
Lemma occ_pos id l : (occ id l > 0)%nat <-> id ∈ l.
Proof.
  unfold occ. induction l as [|x l IH]; [split; simpl; [lia|set_solver]|].
  rewrite filter_cons. case_decide; simpl; [subst; split; [set_solver|lia]|]. rewrite IH. set_solver.
Qed.
Lemma occ_nodup id l : NoDup l -> (occ id l <= 1)%nat.
Proof.
  induction 1 as [|x l Hx Hl IH]; [unfold occ; simpl; lia|]. unfold occ in *. rewrite filter_cons. case_decide; [|done].
  subst. assert (~ (occ id l > 0)%nat) by (by rewrite occ_pos). unfold occ in *. simpl. lia.
Qed.

Definition subs_of (st : list frame) : list string :=
  omap (fun f => match f with FEmit _ sub _ _ => Some sub | _ => None end) st.
Definition all_subs (s : em) : list string := concat (subs_of <$> e_thr s).
Definition snaps_of (st : list frame) : list Z :=
  st ≫= (fun f => match f with FEmit _ _ _ hs => l_id <$> hs | _ => [] end).
Definition all_snaps (s : em) : list Z := concat (snaps_of <$> e_thr s).

Lemma snaps_emit k sub ev hs st : snaps_of (FEmit k sub ev hs :: st) = (l_id <$> hs) ++ snaps_of st.
Proof. done. Qed.
Lemma snaps_cb k h st : snaps_of (FCb k h :: st) = snaps_of st.
Proof. done. Qed.
Lemma snaps_app st st' : snaps_of (st ++ st') = snaps_of st ++ snaps_of st'.
Proof. apply bind_app. Qed.
Lemma subs_elem s sub : sub ∈ all_subs s <-> active sub s.
Proof.
  unfold all_subs, active. rewrite elem_of_concat. split.
  - intros (t & st & Ht & Hin). unfold subs_of in Hin. apply elem_of_list_omap in Hin as ([k sub' ev hs|] & Hin & E); [|done].
    injection E as ->. eauto 10.
  - intros (t & st & k & ev & hs & Ht & Hin). exists t, st. split; [done|]. apply elem_of_list_omap. eexists. split; [exact Hin|done].
Qed.
Lemma snaps_elem s id : id ∈ all_snaps s <->
  exists t st k sub ev hs h, e_thr s !! t = Some st /\ FEmit k sub ev hs ∈ st /\ h ∈ hs /\ l_id h = id.
Proof.
  unfold all_snaps. rewrite elem_of_concat. split.
  - intros (t & st & Ht & Hin). unfold snaps_of in Hin. apply elem_of_list_bind in Hin as ([k sub' ev hs|] & Hin & E).
    + apply elem_of_list_fmap in Hin as (h & -> & Hh). exists t, st, k, sub', ev, hs, h. auto.
    + by apply elem_of_nil in Hin.
  - intros (t & st & k & sub & ev & hs & h & Ht & Hin & Hh & <-). exists t, st. split; [done|].
    unfold snaps_of. apply elem_of_list_bind. exists (FEmit k sub ev hs). split; [|done]. apply elem_of_list_fmap. eauto.
Qed.

Lemma subs_perm (s : em) t st st' : e_thr s !! t = Some st ->
  concat (subs_of <$> <[t:=st']> (e_thr s)) ++ subs_of st ≡ₚ all_subs s ++ subs_of st'.
Proof. intros H. by apply concat_insert. Qed.
Lemma snaps_perm (s : em) t st st' id : e_thr s !! t = Some st ->
  (occ id (concat (snaps_of <$> <[t:=st']> (e_thr s))) + occ id (snaps_of st) = occ id (all_snaps s) + occ id (snaps_of st'))%nat.
Proof. intros H. rewrite <- !occ_app. apply occ_perm. by apply concat_insert. Qed.

Lemma wf_cb st k h : wf st -> FCb k h ∈ st -> exists ev hs, FEmit k (l_sub h) ev hs ∈ st.
Proof.
  induction st as [|f st IH]; intros Hw Hin; [by apply elem_of_nil in Hin|].
  apply elem_of_cons in Hin as [<-|Hin].
  - simpl in Hw. destruct Hw as [Hw _]. destruct st as [|[k' sub ev hs|] st]; try done. destruct Hw as [Hw1 Hw2]. subst.
    exists ev, hs. set_solver.
  - destruct (IH (wf_tail _ _ Hw) Hin) as (ev & hs & H). exists ev, hs. set_solver.
Qed.

(** ** Once listeners *)
Record J (s : em) : Prop := {
  j_subs : NoDup (all_subs s);
  j_inv : forall id, (invocations id (e_log s) > 0)%nat -> id ∈ created (e_log s);
  j_cnt : forall id sub cb, LOn id sub true cb ∈ e_log s -> (invocations id (e_log s) + occ id (all_snaps s) <= 1)%nat;
  j_act : forall id sub cb, LOn id sub true cb ∈ e_log s -> id ∈ l_id <$> e_ls s -> (invocations id (e_log s) > 0)%nat ->
     exists t st k h, e_thr s !! t = Some st /\ FCb k h ∈ st /\ l_id h = id
}.

Lemma created_rev h : created (rev h) ≡ₚ created h.
Proof.
  induction h as [|e h IH]; [done|]. cbn [rev]. rewrite created_app, IH. destruct e; simpl; rewrite ?app_nil_r; try done.
  by rewrite Permutation_app_comm.
Qed.
Lemma G_created s : G s -> NoDup (created (e_log s)).
Proof. intros [I _]. rewrite <- created_rev, (i_created s I). apply (NoDup_fmap_2 Z.of_nat). apply NoDup_seq. Qed.
Lemma known_created s h : known s h -> l_id h ∈ created (e_log s).
Proof.
  intros Hin. unfold known in Hin. induction (e_log s) as [|[] l IH]; simpl; [by apply elem_of_nil in Hin|..];
    apply elem_of_cons in Hin as [Hin|Hin]; try done; try (by apply IH).
  - injection Hin as <- _ _ _. apply elem_of_list_here.
  - apply elem_of_cons. right. by apply IH.
Qed.

(** Steps logging an event that neither registers nor invokes, keeping stacks and not adding listeners. *)
Definition quiet (e : logev) : Prop := match e with LOn _ _ _ _ | LInvoke _ _ _ _ => False | _ => True end.
Lemma quiet_log e h id : quiet e -> invocations id (e :: h) = invocations id h /\ created (e :: h) = created h /\
  (forall id sub o cb, LOn id sub o cb ∈ e :: h -> LOn id sub o cb ∈ h).
Proof.
  intros Hq. split_and!; [by destruct e|by destruct e|]. intros i sub o cb Hin. apply elem_of_cons in Hin as [<-|?]; done.
Qed.
Lemma j_quiet s s' es : J s -> Forall quiet es -> e_log s' = es ++ e_log s -> NoDup (all_subs s') ->
  (forall id, occ id (all_snaps s') <= occ id (all_snaps s))%nat ->
  (forall id sub cb, LOn id sub true cb ∈ e_log s -> id ∈ l_id <$> e_ls s' -> id ∈ l_id <$> e_ls s /\
    (forall t st k h, e_thr s !! t = Some st -> FCb k h ∈ st -> l_id h = id ->
       exists t st k h, e_thr s' !! t = Some st /\ FCb k h ∈ st /\ l_id h = id)) -> J s'.
Proof.
  intros HJ Hq El Hs Hsn Hls.
  assert (H : forall id, invocations id (e_log s') = invocations id (e_log s) /\ created (e_log s') = created (e_log s) /\
    forall i sub o cb, LOn i sub o cb ∈ e_log s' -> LOn i sub o cb ∈ e_log s).
  { intros id. rewrite El. clear -Hq. induction es as [|e es IH]; [done|].
    apply Forall_cons in Hq as [He Hq]. destruct (IH Hq) as (A & B & C). simpl app.
    destruct (quiet_log e (es ++ e_log s) id He) as (A' & B' & C'). rewrite A', B', A, B. split_and!; auto. }
  constructor; auto.
  - intros id. destruct (H id) as (-> & -> & _). apply HJ.
  - intros id sub cb Hin. destruct (H id) as (-> & _ & Hl). apply Hl in Hin. pose proof (j_cnt s HJ id sub cb Hin).
    specialize (Hsn id). lia.
  - intros id sub cb Hin Hreg Hi. destruct (H id) as (Ei & _ & Hl). rewrite Ei in Hi. apply Hl in Hin.
    destruct (Hls id sub cb Hin Hreg) as [Hreg' Hw].
    destruct (j_act s HJ id sub cb Hin Hreg' Hi) as (t & st & k & h & H1 & H2 & H3). by eapply Hw.
Qed.

Lemma remove_cases id s : (exists ls, erase_id id (e_ls s) = Some ls /\ remove_listener id s = (log (LRemoved id) (set_ls ls s), true)) \/
  (erase_id id (e_ls s) = None /\ remove_listener id s = (log (LInvalid id) s, false)).
Proof. unfold remove_listener. destruct (erase_id id (e_ls s)); eauto. Qed.

Lemma exec_J s a : G s -> J s -> few (exec s a) ->
  match a with ACall _ (CEmit sub _) => ~ active sub s | AThrow _ => False | _ => True end ->
  (forall k, LAbort k ∉ e_log (exec s a)) -> J (exec s a).
Proof.
  intros HG HJ Hfew Hcalm Hab. pose proof HG as [I HK].
  pose proof (exec_G s a HG Hfew) as HG'. pose proof (G_created _ HG) as Hnd. pose proof (ls_nodup s I) as Hls.
  destruct a as [t c|t|t|t]; simpl in Hcalm; [| | |done].
  - assert (Hcall : forall st, e_thr s !! t = Some st -> G (do_call t st c s) -> J (do_call t st c s)).
    { clear HG' Hfew Hab. intros st Ht HG'. pose proof (G_created _ HG') as Hnd'.
      assert (Hadd : forall sub once cb, NoDup (created (e_log (add_listener sub once cb s))) -> J (add_listener sub once cb s)).
      { clear Hcalm HG' Hnd'. intros sub once cb Hnd'. set (id0 := u32 (e_last s + 1)). unfold add_listener in *. cbv zeta in *. fold id0 in Hnd' |- *.
        cbn [e_log log created] in Hnd'. apply NoDup_cons in Hnd' as [Hni _].
        assert (Hi0 : invocations id0 (e_log s) = 0%nat).
        { destruct (decide (invocations id0 (e_log s) = 0)%nat) as [|Hn]; [done|]. exfalso. apply Hni, (j_inv s HJ). lia. }
        assert (Ho0 : occ id0 (all_snaps s) = 0%nat).
        { destruct (decide (occ id0 (all_snaps s) = 0)%nat) as [|Hn]; [done|]. exfalso. apply Hni.
          assert (Ho : (occ id0 (all_snaps s) > 0)%nat) by lia. apply occ_pos, snaps_elem in Ho as (t' & st' & k & sub' & ev & hs & h & H1 & H2 & H3 & <-).
          pose proof (k_fr s HK _ _ _ H1 H2) as [Hf _]. rewrite Forall_forall in Hf. by apply known_created, Hf. }
        assert (Hold : forall id sub' cb', LOn id sub' true cb' ∈ LOn id0 sub once cb :: e_log s -> id <> id0 -> LOn id sub' true cb' ∈ e_log s).
        { intros id sub' cb' Hin Hne. apply elem_of_cons in Hin as [Hin|Hin]; [congruence|done]. }
        constructor; cbn [e_log e_ls e_thr log all_snaps all_subs invocations created].
        - apply HJ.
        - intros id Hi. apply elem_of_cons. right. by apply (j_inv s HJ).
        - intros id sub' cb' Hin. change (all_snaps _) with (all_snaps s).
          destruct (decide (id = id0)) as [->|Hne]; [lia|]. eapply (j_cnt s HJ). by eapply Hold.
        - intros id sub' cb' Hin Hreg Hi. destruct (decide (id = id0)) as [->|Hne]; [lia|].
          eapply (j_act s HJ); [by eapply Hold| |done]. rewrite fmap_app in Hreg. simpl in Hreg. set_solver. }
      destruct c as [sub cb|sub cb|id| |sub ev|sub]; cbn [do_call] in *; try (by apply Hadd).
      - destruct (remove_cases id s) as [(ls & E & ->)|[E ->]]; simpl.
        + eapply (j_quiet s _ [LRemoved id]); simpl; auto; [apply HJ|].
          intros i sub cb Hin Hreg. destruct (erase_id_some _ _ _ Hls E) as (_ & Hsub & _).
          split; [|by eauto 10]. eapply elem_of_submseteq; [exact Hreg|by apply sublist_submseteq].
        + eapply (j_quiet s _ [LInvalid id]); simpl; auto; [apply HJ|]. by eauto 10.
      - eapply (j_quiet s _ [LClear]); simpl; auto; [apply HJ|]. intros i sub cb Hin Hreg. set_solver.
      - (* emit *)
        pose proof (subs_perm s t st (FEmit (e_k s) sub ev (range sub (e_ls s)) :: st) Ht) as Hp.
        pose proof (fun id => snaps_perm s t st (FEmit (e_k s) sub ev (range sub (e_ls s)) :: st) id Ht) as Hq.
        constructor; simpl.
        + unfold all_subs; simpl. simpl in Hp.
          assert (Hp' : concat (subs_of <$> <[t:=FEmit (e_k s) sub ev (range sub (e_ls s)) :: st]> (e_thr s)) ≡ₚ sub :: all_subs s).
          { apply (Permutation_app_inv_r (subs_of st)). rewrite Hp. solve_Permutation. }
          rewrite Hp'. constructor; [by rewrite subs_elem|apply HJ].
        + apply HJ.
        + intros id sub0 cb Hin. apply elem_of_cons in Hin as [Hin|Hin]; [done|].
          specialize (Hq id). unfold all_snaps at 1; simpl. rewrite ?snaps_emit, ?snaps_cb, ?snaps_emit, ?fmap_cons, ?fmap_nil, ?app_nil_l in Hq.
          rewrite ?occ_app in Hq. 
          pose proof (j_cnt s HJ id sub0 cb Hin) as Hc.
          assert (Hr1 : (occ id (l_id <$> range sub (e_ls s)) <= 1)%nat).
          { apply occ_nodup. eapply sublist_NoDup; [|exact Hls]. apply fmap_sublist, range_sublist. }
          destruct (decide (occ id (l_id <$> range sub (e_ls s)) = 0)%nat) as [Hz|Hz]; [lia|].
          assert (Hz' : (occ id (l_id <$> range sub (e_ls s)) > 0)%nat) by lia.
          apply occ_pos, elem_of_list_fmap in Hz' as (h & -> & Hh). apply elem_of_list_filter in Hh as [Hsub Hh].
          pose proof (k_ls s HK) as Hkl. rewrite Forall_forall in Hkl. pose proof (Hkl h Hh) as Hkh. unfold known in Hkh.
          destruct (created_unique _ _ _ _ _ _ _ _ Hnd Hin Hkh) as [-> Ho].
          assert (Hi0 : invocations (l_id h) (e_log s) = 0%nat).
          { destruct (decide (invocations (l_id h) (e_log s) = 0)%nat) as [|Hn]; [done|]. exfalso.
            destruct (j_act s HJ _ _ _ Hin ltac:(apply elem_of_list_fmap; eauto) ltac:(lia)) as (t' & st' & k & h' & H1 & H2 & H3).
            pose proof (k_fr s HK _ _ _ H1 H2) as Hk'. cbn [frame_ok] in Hk'. unfold known in Hk'. rewrite H3 in Hk'.
            destruct (created_unique _ _ _ _ _ _ _ _ Hnd Hin Hk') as [E _].
            destruct (wf_cb _ _ _ (k_wf s HK _ _ H1) H2) as (ev' & hs' & Hf). apply Hcalm.
            exists t', st', k, ev', hs'. split; [done|]. by rewrite <- Hsub, E. }
          assert (Ho0 : occ (l_id h) (all_snaps s) = 0%nat).
          { destruct (decide (occ (l_id h) (all_snaps s) = 0)%nat) as [|Hn]; [done|]. exfalso.
            assert (Hoo : (occ (l_id h) (all_snaps s) > 0)%nat) by lia. apply occ_pos, snaps_elem in Hoo as (t' & st' & k & sub' & ev' & hs & h' & H1 & H2 & H3 & H4).
            pose proof (k_fr s HK _ _ _ H1 H2) as [Hf _]. rewrite Forall_forall in Hf. destruct (Hf h' H3) as [Hk' Hs']. unfold known in Hk'.
            rewrite H4 in Hk'. destruct (created_unique _ _ _ _ _ _ _ _ Hnd Hin Hk') as [E _]. apply Hcalm.
            exists t', st', k, ev', hs. split; [done|]. by rewrite <- Hsub, E, Hs'. }
          lia.
        + intros id sub0 cb Hin Hreg Hi. apply elem_of_cons in Hin as [Hin|Hin]; [done|].
          destruct (j_act s HJ _ _ _ Hin Hreg Hi) as (t' & st' & k & h' & H1 & H2 & H3).
          destruct (decide (t = t')) as [<-|Hne].
          * exists t. eexists. exists k, h'. split; [apply list_lookup_insert; by eapply lookup_lt_Some|].
            rewrite Ht in H1. injection H1 as ->. split; [set_solver|done].
          * exists t', st', k, h'. rewrite list_lookup_insert_ne by done. auto.
      - eapply (j_quiet s _ [LDiscard sub]); simpl; auto; [apply HJ|]. intros i sub' cb Hin Hreg. split; [|by eauto 10].
        apply elem_of_list_fmap in Hreg as (l & -> & Hl). apply discard_elem in Hl as (l' & Hl' & E).
        apply elem_of_list_fmap. exists l'. destruct E as [E _]. injection E as -> _ _. auto. }
    cbn [exec] in *. destruct (e_thr s !! t) as [st|] eqn:Ht; [|done].
    destruct st as [|[k sub ev hs|k h] st]; [apply Hcall; done|done|apply Hcall; auto; done].
  - clear HG' Hfew. cbn [exec] in *. destruct (e_thr s !! t) as [st|] eqn:Ht; [|done].
    destruct st as [|[k sub ev [|h hs]|k h] st]; try done.
    + pose proof (subs_perm s t _ st Ht) as Hp. pose proof (fun id => snaps_perm s t _ st id Ht) as Hq.
      eapply (j_quiet s _ [LEnd k]); simpl; auto; [ | |].
      * unfold all_subs; simpl. simpl in Hp.
        assert (Hp' : sub :: concat (subs_of <$> <[t:=st]> (e_thr s)) ≡ₚ all_subs s).
        { apply (Permutation_app_inv_r (subs_of st)). rewrite <- Hp. solve_Permutation. }
        pose proof (j_subs s HJ) as Hn. rewrite <- Hp' in Hn. by apply NoDup_cons in Hn as [_ ?].
      * intros id. specialize (Hq id). unfold all_snaps at 1; simpl. rewrite ?snaps_emit, ?snaps_cb, ?snaps_emit, ?fmap_cons, ?fmap_nil, ?app_nil_l in Hq.  lia.
      * intros id sub' cb Hin Hreg. split; [done|]. intros t' st' k' h' H1 H2 H3. destruct (decide (t = t')) as [<-|Hne].
        -- exists t, st, k', h'. split; [apply list_lookup_insert; by eapply lookup_lt_Some|].
           rewrite Ht in H1. injection H1 as <-. split; [|done]. apply elem_of_cons in H2 as [?|?]; done.
        -- exists t', st', k', h'. rewrite list_lookup_insert_ne by done. auto.
    + pose proof (subs_perm s t _ (FCb k h :: FEmit k sub ev hs :: st) Ht) as Hp.
      pose proof (fun id => snaps_perm s t _ (FCb k h :: FEmit k sub ev hs :: st) id Ht) as Hq.
      pose proof (k_fr s HK t _ (FEmit k sub ev (h :: hs)) Ht ltac:(set_solver)) as [Hf _].
      rewrite Forall_cons in Hf. destruct Hf as [[Hkh _] _].
      assert (Hq' : forall id, (occ id (all_snaps s) = (if (id =? l_id h)%Z then 1 else 0) + occ id (concat (snaps_of <$> <[t:=FCb k h :: FEmit k sub ev hs :: st]> (e_thr s))))%nat).
      { intros id. specialize (Hq id). rewrite ?snaps_emit, ?snaps_cb, ?snaps_emit, ?fmap_cons, ?fmap_nil, ?app_nil_l in Hq. 
        rewrite ?snaps_emit, ?fmap_cons, ?fmap_nil, ?app_nil_l in Hq. change (l_id h :: (l_id <$> hs)) with ([l_id h] ++ (l_id <$> hs)) in Hq. rewrite !occ_app in Hq.
        assert (E : occ id [l_id h] = (if (id =? l_id h)%Z then 1 else 0)%nat).
        { unfold occ. destruct (Z.eqb_spec id (l_id h)) as [->|Hne].
          - by rewrite filter_cons_True.
          - rewrite filter_cons_False by congruence. done. }
        lia. }
      assert (HW : forall t' st' k' h', e_thr s !! t' = Some st' -> FCb k' h' ∈ st' -> exists t2 st2 k2 h2,
        <[t:=FCb k h :: FEmit k sub ev hs :: st]> (e_thr s) !! t2 = Some st2 /\ FCb k2 h2 ∈ st2 /\ l_id h2 = l_id h').
      { intros t' st' k' h' H1 H2. destruct (decide (t = t')) as [<-|Hne].
        - exists t. eexists. exists k', h'. split; [apply list_lookup_insert; by eapply lookup_lt_Some|].
          rewrite Ht in H1. injection H1 as <-. split; [|done]. apply elem_of_cons in H2 as [?|?]; [done|set_solver].
        - exists t', st', k', h'. rewrite list_lookup_insert_ne by done. auto. }
      constructor; simpl.
      * unfold all_subs; simpl. simpl in Hp.
        assert (Hp' : concat (subs_of <$> <[t:=FCb k h :: FEmit k sub ev hs :: st]> (e_thr s)) ≡ₚ all_subs s).
        { apply (Permutation_app_inv_r (sub :: subs_of st)). exact Hp. }
        rewrite Hp'. apply HJ.
      * intros id Hi. destruct (Z.eqb_spec id (l_id h)) as [Ei|Hne]; [rewrite Ei; by apply known_created|].
        apply (j_inv s HJ). lia.
      * intros id sub0 cb Hin. apply elem_of_cons in Hin as [Hin|Hin]; [done|].
        pose proof (j_cnt s HJ id sub0 cb Hin) as Hc. rewrite Hq' in Hc. unfold all_snaps; simpl. lia.
      * intros id sub0 cb Hin Hreg Hi. apply elem_of_cons in Hin as [Hin|Hin]; [done|].
        destruct (Z.eqb_spec id (l_id h)) as [Ei|Hne].
        -- exists t. eexists. exists k, h. split; [apply list_lookup_insert; by eapply lookup_lt_Some|]. split; [set_solver|done].
        -- destruct (j_act s HJ _ _ _ Hin Hreg ltac:(lia)) as (t' & st' & k' & h' & H1 & H2 & <-). by eapply HW.
  - clear HG' Hfew. cbn [exec] in *. destruct (e_thr s !! t) as [st|] eqn:Ht; [|done].
    destruct st as [|[k sub ev hs|k h] st]; try done.
    pose proof (subs_perm s t _ st Ht) as Hp. pose proof (fun id => snaps_perm s t _ st id Ht) as Hq.
    assert (Hp' : concat (subs_of <$> <[t:=st]> (e_thr s)) ≡ₚ all_subs s).
    { apply (Permutation_app_inv_r (subs_of st)). exact Hp. }
    assert (HW : forall id, id <> l_id h -> forall t' st' k' h', e_thr s !! t' = Some st' -> FCb k' h' ∈ st' -> l_id h' = id ->
      exists t2 st2 k2 h2, <[t:=st]> (e_thr s) !! t2 = Some st2 /\ FCb k2 h2 ∈ st2 /\ l_id h2 = id).
    { intros id Hne t' st' k' h' H1 H2 H3. destruct (decide (t = t')) as [<-|Hnt].
      - exists t, st, k', h'. split; [apply list_lookup_insert; by eapply lookup_lt_Some|].
        rewrite Ht in H1. injection H1 as <-. split; [|done]. apply elem_of_cons in H2 as [E|?]; [|done].
        injection E as -> ->. done.
      - exists t', st', k', h'. rewrite list_lookup_insert_ne by done. auto. }
    assert (Hsub : NoDup (concat (subs_of <$> <[t:=st]> (e_thr s)))) by (rewrite Hp'; apply HJ).
    assert (Hsn : forall id, (occ id (concat (snaps_of <$> <[t:=st]> (e_thr s))) <= occ id (all_snaps s))%nat).
    { intros id. specialize (Hq id). rewrite ?snaps_emit, ?snaps_cb, ?snaps_emit, ?fmap_cons, ?fmap_nil, ?app_nil_l in Hq.  lia. }
    destruct (l_once h) eqn:Ho.
    + destruct (remove_cases (l_id h) s) as [(ls & E & Er)|[E Er]]; rewrite Er in *; simpl in *.
      * eapply (j_quiet s _ [LRemoved (l_id h)]); simpl; auto.
        intros i sub cb Hin Hreg. destruct (erase_id_some _ _ _ Hls E) as (_ & Hsl & _ & _ & Hni).
        split; [eapply elem_of_submseteq; [exact Hreg|by apply sublist_submseteq]|].
        apply HW. intros ->. done.
      * exfalso. apply (Hab k). set_solver.
    + eapply (j_quiet s _ []); simpl; auto.
      intros i sub cb Hin Hreg. split; [done|]. apply HW. intros ->.
      pose proof (k_fr s HK _ _ _ Ht ltac:(apply elem_of_list_here)) as Hk'. cbn [frame_ok] in Hk'. unfold known in Hk'. rewrite Ho in Hk'.
      by destruct (created_unique _ _ _ _ _ _ _ _ Hnd Hin Hk') as [_ ?].
Qed.

Lemma init_J n : J (em_new n).
Proof.
  constructor; simpl.
  - unfold all_subs; simpl. replace (concat (subs_of <$> replicate n [])) with (@nil string); [constructor|].
    induction n; simpl; auto.
  - lia.
  - set_solver.
  - set_solver.
Qed.
Lemma run_J s acts : G s -> J s -> calm s acts -> few (run s acts) -> J (run s acts).
Proof.
  revert s; induction acts as [|a acts IH]; intros s HG HJ Hc Hf; [done|]. destruct Hc as (H1 & H2 & H3).
  pose proof (few_exec _ _ _ Hf) as Hfa. apply (IH (exec s a)); [by apply exec_G|by apply exec_J|done|done].
Qed.
Lemma invocations_rev id h : invocations id (rev h) = invocations id h.
Proof. induction h as [|e h IH]; [done|]. cbn [rev]. rewrite invocations_app, IH. destruct e; simpl; lia. Qed.

Lemma once_lemma n acts id : let s := run (em_new n) acts in few s -> calm (em_new n) acts ->
  is_once id (rev (e_log s)) -> (invocations id (rev (e_log s)) <= 1)%nat.
Proof.
  intros s Hf Hc (sub & cb & Hin). pose proof (run_J _ acts (init_G n) (init_J n) Hc Hf) as HJ. fold s in HJ.
  rewrite invocations_rev. rewrite elem_of_list_In, <- in_rev, <- elem_of_list_In in Hin.
  pose proof (j_cnt s HJ id sub cb Hin). lia.
Qed.

(** ** Removed listeners *)
Record R (id : Z) (s : em) : Prop := {
  r_cr : id ∈ created (e_log s); r_ls : id ∉ l_id <$> e_ls s; r_sn : id ∉ all_snaps s }.
Lemma created_app_elem id l h : id ∈ created h -> id ∈ created (l ++ h).
Proof. intros. rewrite created_app. set_solver. Qed.

Lemma exec_R id s a : G s -> R id s -> few (exec s a) ->
  R id (exec s a) /\ invocations id (e_log (exec s a)) = invocations id (e_log s).
Proof.
  intros HG HR Hfew. pose proof HG as [I HK]. pose proof (exec_G s a HG Hfew) as HG'. pose proof (ls_nodup s I) as Hls.
  assert (Hocc : occ id (all_snaps s) = 0%nat).
  { destruct (decide (occ id (all_snaps s) = 0)%nat) as [|Hn]; [done|]. exfalso. apply (r_sn id s HR), occ_pos. lia. }
  assert (Hno : forall s', (occ id (all_snaps s') = 0)%nat -> id ∉ all_snaps s').
  { intros s' E Hin. apply occ_pos in Hin. lia. }
  assert (Hrem : forall i l, l ∈ e_ls (remove_listener i s).1 -> l ∈ e_ls s) by (intros; by eapply remove_elem).
  destruct a as [t c|t|t|t]; cbn [exec] in *; (destruct (e_thr s !! t) as [st|] eqn:Ht; [|done]).
  - assert (Hcall : G (do_call t st c s) -> R id (do_call t st c s) /\ invocations id (e_log (do_call t st c s)) = invocations id (e_log s)).
    { clear HG' Hfew. intros HG'. pose proof (G_created _ HG') as Hnd'.
      destruct c as [sub cb|sub cb|i| |sub ev|sub]; cbn [do_call] in *.
      1,2: split; [|done]; cbn [add_listener e_log log created] in Hnd'; apply NoDup_cons in Hnd' as [Hni _];
        pose proof (r_cr id s HR); constructor; cbn [add_listener log e_log e_ls created]; [set_solver| |apply HR];
        rewrite fmap_app; cbn [fmap list_fmap l_id]; pose proof (r_ls id s HR); set_solver.
      - assert (E : invocations id (e_log (remove_listener i s).1) = invocations id (e_log s) /\
           created (e_log (remove_listener i s).1) = created (e_log s)) by (unfold remove_listener; by destruct (erase_id _ _)).
        destruct E as [E1 E2]. split; [|done]. constructor.
        + rewrite E2. apply HR.
        + intros Hin. apply elem_of_list_fmap in Hin as (l & -> & Hl). apply Hrem in Hl. apply (r_ls _ s HR). apply elem_of_list_fmap. eauto.
        + unfold all_snaps. rewrite remove_thr. apply HR.
      - split; [|done]. constructor; simpl; [apply HR|set_solver|apply HR].
      - split; [|done]. constructor; simpl; [apply HR|apply HR|]. apply Hno. unfold all_snaps; simpl.
        pose proof (snaps_perm s t st (FEmit (e_k s) sub ev (range sub (e_ls s)) :: st) id Ht) as Hq.
        rewrite ?snaps_emit, ?snaps_cb, ?snaps_emit, ?fmap_cons, ?fmap_nil, ?app_nil_l in Hq. rewrite ?occ_app in Hq. 
        assert (occ id (l_id <$> range sub (e_ls s)) = 0)%nat; [|lia].
        destruct (decide (occ id (l_id <$> range sub (e_ls s)) = 0)%nat) as [|Hn]; [done|]. exfalso.
        assert (Hin : id ∈ l_id <$> range sub (e_ls s)) by (apply occ_pos; lia).
        apply elem_of_list_fmap in Hin as (l & -> & Hl). apply elem_of_list_filter in Hl as [_ Hl].
        apply (r_ls _ s HR). apply elem_of_list_fmap. eauto.
      - split; [|done]. constructor; simpl; [apply HR| |apply HR]. intros Hin.
        apply elem_of_list_fmap in Hin as (l & -> & Hl). apply discard_elem in Hl as (l' & Hl' & E). destruct E as [E _]. injection E as E _ _.
        rewrite E in *. apply (r_ls _ s HR). apply elem_of_list_fmap. eauto. }
    destruct st as [|[k sub ev hs|k h] st]; [by apply Hcall|done|by apply Hcall].
  - destruct st as [|[k sub ev [|h hs]|k h] st]; try done.
    + split; [|done]. constructor; simpl; [apply HR|apply HR|]. apply Hno. unfold all_snaps; simpl.
      pose proof (snaps_perm s t _ st id Ht) as Hq. rewrite ?snaps_emit, ?snaps_cb, ?snaps_emit, ?fmap_cons, ?fmap_nil, ?app_nil_l in Hq.  lia.
    + assert (Hne : id <> l_id h).
      { intros ->. apply (r_sn _ s HR). apply snaps_elem. exists t. eexists. exists k, sub, ev, (h :: hs), h. split_and!; [exact Ht| | |done]; set_solver. }
      split; [|simpl; destruct (Z.eqb_spec id (l_id h)); [done|lia]]. constructor; simpl; [apply HR|apply HR|]. apply Hno.
      unfold all_snaps; simpl. pose proof (snaps_perm s t _ (FCb k h :: FEmit k sub ev hs :: st) id Ht) as Hq.
      rewrite ?snaps_emit, ?snaps_cb, ?snaps_emit, ?fmap_cons, ?fmap_nil, ?app_nil_l in Hq. 
      rewrite ?snaps_emit, ?fmap_cons, ?fmap_nil, ?app_nil_l in Hq. change (l_id h :: (l_id <$> hs)) with ([l_id h] ++ (l_id <$> hs)) in Hq. rewrite !occ_app in Hq. lia.
  - destruct st as [|[k sub ev hs|k h] st]; try done.
    assert (Hsn : forall st', (exists pre, FCb k h :: st = pre ++ st') -> id ∉ concat (snaps_of <$> <[t:=st']> (e_thr s))).
    { intros st' [pre Hpre] Hin. apply occ_pos in Hin. pose proof (snaps_perm s t _ st' id Ht) as Hq. rewrite Hpre in Hq.
      rewrite snaps_app, occ_app in Hq. lia. }
    assert (Hpop : exists pre, FCb k h :: st = pre ++ st) by (by exists [FCb k h]).
    assert (Hpop2 : exists pre, FCb k h :: st = pre ++ match st with FEmit _ _ _ _ :: r => r | _ => st end).
    { destruct st as [|[k1 s1 e1 h1|k1 h1] st]; [by exists [FCb k h]|by exists [FCb k h; FEmit k1 s1 e1 h1]|by exists [FCb k h]]. }
    destruct (l_once h).
    + destruct (remove_cases (l_id h) s) as [(ls & E & Er)|[E Er]]; rewrite Er in *; simpl in *.
      * split; [|done]. constructor; simpl; [apply HR| |by apply Hsn].
        destruct (erase_id_some _ _ _ Hls E) as (_ & Hsl & _). intros Hin. apply (r_ls _ s HR).
        eapply elem_of_submseteq; [exact Hin|by apply sublist_submseteq].
      * split; [|done]. constructor; simpl; [apply HR|apply HR|by apply Hsn].
    + split; [|done]. constructor; simpl; [apply HR|apply HR|by apply Hsn].
  - destruct st as [|[k sub ev hs|k h] st]; try done.
    assert (Hsn : forall st', (exists pre, FCb k h :: st = pre ++ st') -> id ∉ concat (snaps_of <$> <[t:=st']> (e_thr s))).
    { intros st' [pre Hpre] Hin. apply occ_pos in Hin. pose proof (snaps_perm s t _ st' id Ht) as Hq. rewrite Hpre in Hq.
      rewrite snaps_app, occ_app in Hq. lia. }
    assert (Hpop2 : exists pre, FCb k h :: st = pre ++ match st with FEmit _ _ _ _ :: r => r | _ => st end).
    { destruct st as [|[k1 s1 e1 h1|k1 h1] st]; [by exists [FCb k h]|by exists [FCb k h; FEmit k1 s1 e1 h1]|by exists [FCb k h]]. }
    split; [|done]. constructor; simpl; [apply HR|apply HR|by apply Hsn].
Qed.

Lemma run_R id s acts : G s -> R id s -> few (run s acts) -> invocations id (e_log (run s acts)) = invocations id (e_log s).
Proof.
  revert s; induction acts as [|a acts IH]; intros s HG HR Hf; [done|].
  pose proof (few_exec _ _ _ Hf) as Hfa. destruct (exec_R id s a HG HR Hfa) as [HR' <-].
  apply (IH (exec s a)); [by apply exec_G|done|done].
Qed.

(** ** The callback invoked for a listener is the one it was registered with *)
Definition cb_ok (s : em) : Prop := forall k id cb ev, LInvoke k id cb ev ∈ e_log s -> exists sub o, LOn id sub o cb ∈ e_log s.
Lemma exec_cb_ok s a : K s -> cb_ok s -> cb_ok (exec s a).
Proof.
  intros HK Hc.
  assert (Hq : forall l s', e_log s' = l ++ e_log s -> Forall (fun e => forall k id cb ev, e <> LInvoke k id cb ev) l -> cb_ok s').
  { intros l s' E Hl k id cb ev. rewrite E. intros Hin. apply elem_of_app in Hin as [Hin|Hin].
    - rewrite Forall_forall in Hl. by destruct (Hl _ Hin k id cb ev).
    - destruct (Hc _ _ _ _ Hin) as (sub & o & H). exists sub, o. set_solver. }
  destruct a as [t c|t|t|t]; simpl; destruct (e_thr s !! t) as [st|] eqn:Ht; try done;
    destruct st as [|[k sub ev hs|k h] st]; try done.
  1,2: destruct c as [sub cb|sub cb|id| |sub ev|sub]; simpl; unfold remove_listener; try destruct (erase_id _ _); simpl;
    first [by eapply (Hq [_]); [reflexivity|]; repeat constructor|by eapply (Hq []); [reflexivity|]; repeat constructor].
  - destruct hs as [|h hs].
    + by eapply (Hq [_]); [reflexivity|]; repeat constructor.
    + intros k' id cb ev' Hin. simpl in *. apply elem_of_cons in Hin as [Hin|Hin].
      * injection Hin as -> -> -> ->. exists (l_sub h), (l_once h). apply elem_of_cons. right.
        pose proof (k_fr s HK t _ _ Ht ltac:(apply elem_of_list_here)) as [Hf _].
        rewrite Forall_cons in Hf. apply Hf.
      * destruct (Hc _ _ _ _ Hin) as (sub' & o & H). exists sub', o. set_solver.
  - destruct (l_once h); [|done]. unfold remove_listener.
    destruct (erase_id _ _); simpl; [by eapply (Hq [_]); [reflexivity|]; repeat constructor|by eapply (Hq [_; _]); [reflexivity|]; repeat constructor].
  - by eapply (Hq [_]); [reflexivity|]; repeat constructor.
Qed.
Lemma run_cb_ok s acts : G s -> few (run s acts) -> cb_ok s -> cb_ok (run s acts).
Proof.
  revert s; induction acts as [|a acts IH]; intros s HG Hf Hc; [done|].
  pose proof (few_exec _ _ _ Hf). apply (IH (exec s a)); [by apply exec_G|done|apply exec_cb_ok; [apply HG|done]].
Qed.

(** ** Removal: success exactly for registered ids *)
Lemma registered_ls s id : Inv s -> (id ∈ (fun x => x.1.1) <$> registered (rev (e_log s))) <-> id ∈ l_id <$> e_ls s.
Proof. intros I. rewrite (i_reg s I), <- list_fmap_compose. done. Qed.

Definition rem_ok (h : list logev) : Prop := forall h1 e h2, h = h1 ++ e :: h2 ->
  match e with
  | LRemoved id => id ∈ (fun x => x.1.1) <$> registered h1
  | LInvalid id => id ∉ (fun x => x.1.1) <$> registered h1
  | _ => True
  end.
Lemma rem_ok_snoc h e : rem_ok h -> match e with
  | LRemoved id => id ∈ (fun x => x.1.1) <$> registered h
  | LInvalid id => id ∉ (fun x => x.1.1) <$> registered h
  | _ => True end -> rem_ok (h ++ [e]).
Proof.
  intros H He h1 x h2 E. apply snoc_decomp in E as [(-> & -> & ->)|(h2' & -> & E)]; [done|]. by eapply H.
Qed.
Lemma rem_ok_remove s id : Inv s -> rem_ok (rev (e_log s)) -> rem_ok (rev (e_log (remove_listener id s).1)).
Proof.
  intros I H. unfold remove_listener. pose proof (ls_nodup s I) as Hnd.
  destruct (erase_id id (e_ls s)) eqn:E; simpl; apply rem_ok_snoc; auto; rewrite registered_ls by done.
  - by destruct (erase_id_some _ _ _ Hnd E) as (_ & _ & ? & _).
  - by apply erase_id_none.
Qed.
Lemma exec_rem_ok s a : Inv s -> rem_ok (rev (e_log s)) -> rem_ok (rev (e_log (exec s a))).
Proof.
  intros I Hc.
  destruct a as [t c|t|t|t]; simpl; destruct (e_thr s !! t) as [st|] eqn:Ht; try done;
    destruct st as [|[k sub ev hs|k h] st]; try done.
  1,2: destruct c as [sub cb|sub cb|id| |sub ev|sub]; cbn [do_call]; try (by apply rem_ok_remove); try done; by apply rem_ok_snoc.
  - destruct hs as [|h hs]; by apply rem_ok_snoc.
  - destruct (l_once h); [|done]. pose proof (rem_ok_remove s (l_id h) I Hc) as H.
    destruct (remove_listener (l_id h) s) as [s' [|]]; simpl in *; [done|]. by apply rem_ok_snoc.
  - by apply rem_ok_snoc.
Qed.
Lemma run_rem_ok s acts : G s -> few (run s acts) -> rem_ok (rev (e_log s)) -> rem_ok (rev (e_log (run s acts))).
Proof.
  revert s; induction acts as [|a acts IH]; intros s HG Hf Hc; [done|].
  pose proof (few_exec _ _ _ Hf). apply (IH (exec s a)); [by apply exec_G|done|apply exec_rem_ok; [apply HG|done]].
Qed.

(** ** Emits *)
Lemma not_mentions_invoked k h : Forall (fun e => ~ mentions k e) h -> invoked_by k h = [].
Proof.
  induction 1 as [|e h He Hh IH]; [done|]. destruct e; simpl; auto. destruct (Nat.eqb_spec k k0); [|done]. subst. by destruct He.
Qed.
Lemma decomp_unique {A} (P : A -> Prop) (l1 l2 l1' l2' : list A) x x' : l1 ++ x :: l2 = l1' ++ x' :: l2' ->
  P x -> P x' -> Forall (fun y => ~ P y) l1 -> Forall (fun y => ~ P y) l2 -> l1 = l1' /\ x = x' /\ l2 = l2'.
Proof.
  revert l1'; induction l1 as [|y l1 IH]; intros [|y' l1'] E Hx Hx' H1 H2; simpl in E.
  - injection E as -> ->. auto.
  - injection E as E1 E2. subst. rewrite Forall_forall in H2. exfalso. eapply H2; [|exact Hx']. set_solver.
  - injection E as E1 E2. subst. apply Forall_cons in H1 as [H1 _]. done.
  - injection E as -> E. apply Forall_cons in H1 as [_ H1]. destruct (IH _ E Hx Hx' H1 H2) as (-> & -> & ->). auto.
Qed.
Lemma emit_lemma s h1 k sub ev h2 : Inv s -> rev (e_log s) = h1 ++ LEmit k sub ev :: h2 ->
  invoked_by k h1 = [] /\ (invoked_by k h2) `prefix_of` (registered_for sub h1) /\
  (LEnd k ∈ h2 -> invoked_by k h2 = registered_for sub h1) /\
  (forall id cb e, LInvoke k id cb e ∈ h2 -> e = ev).
Proof.
  intros I E.
  assert (Hk : (k < e_k s)%nat).
  { destruct (decide (k < e_k s)%nat) as [|Hn]; [done|]. exfalso. pose proof (i_new s I k ltac:(lia)) as Hm.
    rewrite E, Forall_forall in Hm. apply (Hm (LEmit k sub ev)); [set_solver|done]. }
  destruct (i_old s I k Hk) as (sub' & ev' & rest & (g1 & g2 & Eg & H1 & H2 & H3 & H4) & He & _).
  rewrite E in Eg. symmetry in Eg.
  destruct (decomp_unique (fun e => exists sub ev, e = LEmit k sub ev) _ _ _ _ _ _ Eg) as (-> & Ee & ->).
  - eauto.
  - eauto.
  - eapply Forall_impl; [exact H1|]. intros e He' (s0 & e0 & ->). by apply He'.
  - apply Forall_forall. intros e He' (s0 & e0 & ->). by eapply H2.
  - injection Ee as -> ->. split_and!.
    + by apply not_mentions_invoked.
    + exists rest. done.
    + intros Hend. rewrite (He ltac:(rewrite E; set_solver)), app_nil_r in H3. done.
    + done.
Qed.
