From stdpp Require Import prelude strings gmap.
From Verif Require Import Base SafeEmitter_Model SafeEmitter_Proofs UnsafeEmitters_Model UnsafeEmitters_Spec UnsafeEmitters_Proofs
  Subscriber_Model Subscriber_Spec.

(** ** Multi-listener emitter: refinement of the name registry *)
Definition MR (s : subscriber) (g : list (string * nat)) : Prop :=
  exists m gm, sb_em s = EMulti m /\ Rel m gm /\
    (forall r, r ∈ rs gm -> r_event r = sb_event s /\ sb_map s !! r_name r = Some (Z.of_nat (r_id r))) /\
    (forall n id, sb_map s !! n = Some id -> exists r, r ∈ rs gm /\ r_name r = n) /\
    g = (fun r => (r_name r, r_cb r)) <$> rs gm.

Lemma of_event_all e l : (forall r, r ∈ l -> r_event r = e) -> of_event e l = l.
Proof.
  unfold of_event. induction l as [|r l IH]; [done|]. intros H. rewrite filter_cons_True by (apply H; set_solver). f_equal.
  apply IH. intros r' Hr'. apply H. set_solver.
Qed.
Lemma has_reg n (l : list reg) : has n ((fun r => (r_name r, r_cb r)) <$> l) <-> exists r, r ∈ l /\ r_name r = n.
Proof.
  unfold has. rewrite <- list_fmap_compose. rewrite elem_of_list_fmap. simpl. split.
  - intros (r & -> & Hr). eauto.
  - intros (r & Hr & <-). eauto.
Qed.
Lemma filter_reg id n (l : list reg) : (forall r, r ∈ l -> r_id r = id <-> r_name r = n) ->
  (fun r => (r_name r, r_cb r)) <$> filter (fun r => r_id r <> id) l =
  filter (fun p => p.1 <> n) ((fun r => (r_name r, r_cb r)) <$> l).
Proof.
  induction l as [|r l IH]; [done|]. intros H. rewrite fmap_cons.
  destruct (decide (r_id r = id)) as [E|E].
  - rewrite filter_cons_False by (by intros ?). rewrite filter_cons_False.
    + apply IH. intros r' Hr'. apply H. set_solver.
    + simpl. intros Hn. apply Hn. apply H; [set_solver|done].
  - rewrite filter_cons_True by done. rewrite fmap_cons. rewrite filter_cons_True.
    + f_equal. apply IH. intros r' Hr'. apply H. set_solver.
    + simpl. intros Hn. apply E. apply H; [set_solver|done].
Qed.

Lemma mr_step s g o : MR s g -> match o with SubStats n => has n g | _ => True end ->
  MR (sub_step s o).1 (subspec_step g o).1 /\ (sub_step s o).2 = (subspec_step g o).2.
Proof.
  intros (m & gm & Em & R & H1 & H2 & ->) Hpol. destruct o as [n cb|n| |n]; simpl in *; rewrite ?Em; simpl.
  - pose proof (on_rel (sb_cont s) n (sb_event s) cb m gm R) as [R' Eo]. simpl in *.
    destruct (multi_on (sb_cont s) n (sb_event s) cb m) as [m' id]. simpl in *. split; [|done].
    destruct (named n (rs gm)) as [|r l] eqn:En; simpl in *; injection Eo as ->.
    + rewrite decide_False.
      2:{ rewrite has_reg. intros (r & Hr & <-). by destruct (named_nil _ _ En r Hr). }
      eexists m', _. split; [done|]. split; [exact R'|]. simpl. split_and!.
      * intros r Hr. apply elem_of_app in Hr as [Hr|Hr].
        -- split; [by apply H1|]. rewrite lookup_insert_ne; [by apply H1|]. intros E. by destruct (named_nil _ _ En r Hr).
        -- apply elem_of_list_singleton in Hr as ->. simpl. by rewrite lookup_insert.
      * intros n' id. rewrite lookup_insert_Some. intros [[<- <-]|[Hne Hn']].
        -- eexists. split; [apply elem_of_app; right; by apply elem_of_list_singleton|done].
        -- destruct (H2 n' id Hn') as (r & Hr & <-). exists r. set_solver.
      * by rewrite fmap_app.
    + assert (Hr : r ∈ named n (rs gm)) by (rewrite En; set_solver). apply elem_of_list_filter in Hr as [Hn Hr].
      rewrite decide_True by (rewrite has_reg; eauto).
      eexists m', gm. split; [done|]. split; [exact R'|]. simpl. split_and!; auto.
      * intros r' Hr'. split; [by apply H1|]. destruct (decide (r_name r' = n)) as [<-|Hne].
        -- rewrite lookup_insert. do 2 f_equal. f_equal. eapply nodup_name; [apply R| | |]; auto.
        -- rewrite lookup_insert_ne by done. by apply H1.
      * intros n' id. rewrite lookup_insert_Some. intros [[<- <-]|[Hne Hn']]; [eauto|]. by eapply H2.
  - destruct (sb_map s !! n) as [id|] eqn:En; simpl.
    + split; [|done]. destruct (H2 n id En) as (r & Hr & Hn). pose proof (H1 r Hr) as [_ Hm]. rewrite Hn, En in Hm. injection Hm as ->.
      rewrite Nat2Z.id. pose proof (remove_rel (sb_cont s) (r_id r) m gm R) as R'. simpl in R'.
      eexists _, _. split; [reflexivity|]. split; [exact R'|]. simpl.
      assert (Hiff : forall r', r' ∈ rs gm -> r_id r' = r_id r <-> r_name r' = n).
      { intros r' Hr'. split; intros E.
        - rewrite <- Hn. f_equal. eapply nodup_id; [apply R| | |]; auto.
        - f_equal. eapply nodup_name; [apply R| | |]; auto. congruence. }
      split_and!.
      * intros r' Hr'. apply elem_of_list_filter in Hr' as [Hne Hr']. split; [by apply H1|].
        rewrite lookup_delete_ne; [by apply H1|]. intros E. apply Hne, Hiff; auto.
      * intros n' id'. rewrite lookup_delete_Some. intros [Hne Hn']. destruct (H2 n' id' Hn') as (r' & Hr' & <-).
        exists r'. split; [|done]. apply elem_of_list_filter. split; [|done]. rewrite (Hiff r' Hr'). congruence.
      * symmetry. by apply filter_reg.
    + split; [|done]. eexists m, gm. split_and!; auto. clear Hpol.
      assert (Hno : forall r, r ∈ rs gm -> r_name r <> n). { intros r Hr <-. by rewrite (proj2 (H1 r Hr)) in En. }
      clear -Hno. induction (rs gm) as [|r l IH]; [done|]. rewrite fmap_cons. rewrite filter_cons_True by (simpl; apply Hno; set_solver).
      f_equal. apply IH. intros r' Hr'. apply Hno. set_solver.
  - pose proof (emit_rel (sb_event s) m gm R) as [R' Eo]. simpl in *. injection Eo as Eo. rewrite Eo. split.
    + eexists _, gm. split; [reflexivity|]. split; [exact R'|]. simpl. auto.
    + f_equal. rewrite of_event_all by (intros r Hr; by apply H1). rewrite <- list_fmap_compose. done.
  - split; [|done]. apply has_reg in Hpol as (r & Hr & <-).
    eexists m, gm. split; [done|]. split; [exact R|]. simpl. rewrite (proj2 (H1 r Hr)). simpl.
    rewrite insert_id by (by apply H1). auto.
Qed.

Lemma mr_run s g os : MR s g -> polite false g os -> (sub_run s os).2 = (subspec_run g os).2 /\ MR (sub_run s os).1 (subspec_run g os).1.
Proof.
  revert s g; induction os as [|o os IH]; intros s g H Hp; [done|]. destruct Hp as [Ho Hp]. simpl.
  destruct (mr_step s g o H) as [H' E]; [by destruct o|].
  destruct (sub_step s o) as [s' r], (subspec_step g o) as [g' r']. simpl in *.
  destruct (IH s' g' H' Hp) as [E' H'']. destruct (sub_run s' os), (subspec_run g' os). simpl in *. by subst.
Qed.
Lemma mr_new c ev : MR (sub_new KMulti c ev) [].
Proof. exists multi_new, registry_new. split_and!; auto; [apply rel_new|set_solver|]. intros n id. simpl. by rewrite lookup_empty. Qed.

(** ** Safe emitter, without duplicate registrations *)
Local Open Scope Z_scope.
Definition SR (k : Z) (s : subscriber) (g : list (string * nat)) : Prop :=
  exists e, sb_em s = ESafe e /\ e_last e = k /\ NoDup (l_id <$> e_ls e) /\ (forall l, l ∈ e_ls e -> 1 <= l_id l <= k /\ l_once l = false) /\
    Forall2 (fun l p => l_sub l = sb_event s /\ l_cb l = p.2 /\ sb_map s !! p.1 = Some (l_id l)) (e_ls e) g /\
    (forall n id, sb_map s !! n = Some id -> has n g) /\ NoDup (fst <$> g).

Lemma range_all (e : string) ls g (P : listener -> string * nat -> Prop) : Forall2 (fun l p => l_sub l = e /\ l_cb l = p.2 /\ P l p) ls g ->
  l_cb <$> range e ls = snd <$> g.
Proof.
  induction 1 as [|l p ls g (H1 & H2 & _) _ IH]; [done|]. unfold range in *. rewrite filter_cons_True by done.
  rewrite !fmap_cons. by rewrite H2, IH.
Qed.

Lemma sr_remove (ev : string) (mp : gmap string Z) n id ls g :
  Forall2 (fun l p => l_sub l = ev /\ l_cb l = p.2 /\ mp !! p.1 = Some (l_id l)) ls g ->
  NoDup (l_id <$> ls) -> NoDup (fst <$> g) -> mp !! n = Some id -> has n g ->
  exists ls', erase_id id ls = Some ls' /\
    Forall2 (fun l p => l_sub l = ev /\ l_cb l = p.2 /\ delete n mp !! p.1 = Some (l_id l)) ls' (filter (fun p => p.1 <> n) g).
Proof.
  intros HF Hnd Hng Hm Hh. induction HF as [|l [n0 cb0] ls g (H1 & H2 & H3) HF IH]; [by apply elem_of_nil in Hh|].
  rewrite fmap_cons in Hnd. rewrite fmap_cons in Hng. apply NoDup_cons in Hnd as [Hl Hnd]. apply NoDup_cons in Hng as [Hg Hng]. simpl in *.
  destruct (decide (n0 = n)) as [->|Hne].
  - rewrite Hm in H3. injection H3 as ->. rewrite Z.eqb_refl. eexists. split; [done|].
    rewrite filter_cons_False by (simpl; auto).
    assert (Hf : filter (fun p : string * nat => p.1 <> n) g = g).
    { clear -Hg. induction g as [|[n1 c1] g IH]; [done|]. rewrite fmap_cons, not_elem_of_cons in Hg. simpl in Hg.
      rewrite filter_cons_True by (simpl; naive_solver). f_equal. naive_solver. }
    rewrite Hf. clear -HF Hg. induction HF as [|l' [n1 c1] ls g (H1 & H2 & H3) HF IH]; [constructor|].
    rewrite fmap_cons, not_elem_of_cons in Hg. simpl in *. constructor; [|naive_solver].
    split_and!; auto. simpl. rewrite lookup_delete_ne by naive_solver. done.
  - destruct IH as (ls' & E & HF'); auto. { unfold has in *. set_solver. }
    assert (Hid : l_id l <> id).
    { intros <-. apply Hl. apply erase_id_some in E; [|done]. apply E. }
    rewrite (proj2 (Z.eqb_neq _ _) Hid), E. eexists. split; [done|]. rewrite filter_cons_True by done. constructor; [|done].
    split_and!; auto. simpl. by rewrite lookup_delete_ne.
Qed.

Definition is_reg (o : sop) : bool := match o with SubReg _ _ => true | _ => false end.
Lemma sr_step k s g o : SR k s g -> 0 <= k -> k + 1 < 4294967296 ->
  match o with SubStats n => has n g | SubReg n _ => ~ has n g | _ => True end ->
  SR (if is_reg o then k + 1 else k) (sub_step s o).1 (subspec_step g o).1 /\ (sub_step s o).2 = (subspec_step g o).2.
Proof.
  intros (e & Em & Ek & Hnd & Hid & HF & Hm & Hng) Hk0 Hk Hpol. destruct o as [n cb|n| |n]; simpl in *; rewrite ?Em; simpl.
  - rewrite decide_False by done. split; [|done].
    assert (Eid : u32 (e_last e + 1) = k + 1) by (rewrite Ek; unfold u32; rewrite Z.mod_small; lia).
    eexists. split; [reflexivity|]. cbn [add_listener log e_last e_ls sb_map sb_event]. rewrite Eid. split; [done|]. split_and!.
    + rewrite fmap_app. apply NoDup_app. split; [done|]. split; [|by apply NoDup_singleton]. intros x Hx Hx'.
      apply elem_of_list_fmap in Hx as (l & -> & Hl). simpl in Hx'. apply elem_of_list_singleton in Hx'. apply Hid in Hl. lia.
    + intros l Hl. apply elem_of_app in Hl as [Hl|Hl]; [apply Hid in Hl as [? ?]; split; [lia|done]|]. apply elem_of_list_singleton in Hl as ->. simpl. split; [lia|done].
    + apply Forall2_app; [|constructor; [|constructor]; simpl; by rewrite lookup_insert].
      assert (Hne : forall p, p ∈ g -> p.1 <> n).
      { intros p Hp <-. apply Hpol. apply elem_of_list_fmap. eauto. }
      clear -HF Hne. induction HF as [|l p ls g (H1 & H2 & H3) HF IH]; [constructor|]. constructor.
      * rewrite lookup_insert_ne by (apply not_eq_sym, Hne; set_solver). auto.
      * apply IH. intros q Hq. apply Hne. set_solver.
    + intros n' id. rewrite lookup_insert_Some. unfold has in *. rewrite fmap_app. intros [[<- <-]|[Hne Hn']]; [set_solver|].
      apply Hm in Hn'. set_solver.
    + rewrite fmap_app. apply NoDup_app. split; [done|]. split; [|by apply NoDup_singleton]. intros x Hx Hx'.
      simpl in Hx'. apply elem_of_list_singleton in Hx' as ->. done.
  - destruct (sb_map s !! n) as [id|] eqn:En; simpl.
    + destruct (sr_remove _ _ n id _ _ HF Hnd Hng En (Hm _ _ En)) as (ls' & E & HF').
      unfold remove_listener. rewrite E. simpl. split; [|done].
      destruct (erase_id_some _ _ _ Hnd E) as (_ & Hsl & _ & Hin & _).
      eexists. split; [reflexivity|]. simpl. split; [done|]. split_and!; auto.
      * by eapply sublist_NoDup.
      * intros n' id'. rewrite lookup_delete_Some. intros [Hne Hn']. apply Hm in Hn'. unfold has in *.
        apply elem_of_list_fmap in Hn' as (p & -> & Hp). apply elem_of_list_fmap. exists p. split; [done|]. by apply elem_of_list_filter.
      * by apply nodup_fmap_filter.
    + split; [|done]. exists e. split; [done|]. split; [done|].
      assert (Hf : filter (fun p : string * nat => p.1 <> n) g = g).
      { clear -HF En. induction HF as [|l [n1 c1] ls g (H1 & H2 & H3) HF IH]; [done|]. simpl in *.
        rewrite filter_cons_True by (simpl; intros ->; congruence). by f_equal. }
      rewrite Hf. auto.
  - assert (Ef : List.filter (fun l => negb (bool_decide (l_sub l = sb_event s) && l_once l)) (e_ls e) = e_ls e).
    { clear -Hid. induction (e_ls e) as [|l ls IH]; [done|]. cbn. rewrite (proj2 (Hid l ltac:(left))), andb_false_r. cbn. f_equal. apply IH. intros l' Hl'. apply Hid. by right. }
    split; [exists e; rewrite Ef; split_and!; auto; by destruct e|]. f_equal. exact (range_all _ _ _ (fun l p => sb_map s !! p.1 = Some (l_id l)) HF).
  - split; [|done]. exists e. split; [done|]. simpl. 
    assert (Hi : exists id, sb_map s !! n = Some id).
    { clear -HF Hpol. induction HF as [|l [n1 c1] ls g (H1 & H2 & H3) HF IH]; [by apply elem_of_nil in Hpol|].
      apply elem_of_cons in Hpol as [->|Hpol]; eauto. }
    destruct Hi as [id Hi]. rewrite Hi. simpl. rewrite insert_id by done. by split_and!.
Qed.

Definition regs (os : list sop) : Z := Z.of_nat (length (filter (fun o => is_reg o = true) os)).
Lemma sr_run k s g os : SR k s g -> 0 <= k -> k + regs os < 4294967295 -> polite true g os ->
  (sub_run s os).2 = (subspec_run g os).2.
Proof.
  revert k s g; induction os as [|o os IH]; intros k s g H Hk0 Hk Hp; [done|]. destruct Hp as [Ho Hp]. cbn [sub_run subspec_run].
  unfold regs in *. 
  assert (Hr : k + (if is_reg o then 1 else 0) + Z.of_nat (length (filter (fun o => is_reg o = true) os)) < 4294967295).
  { rewrite filter_cons in Hk. destruct (is_reg o); simpl in Hk; lia. }
  destruct (sr_step k s g o H Hk0 ltac:(destruct (is_reg o); lia)) as [H' E]; [destruct o; auto|].
  destruct (sub_step s o) as [s' r], (subspec_step g o) as [g' r']. simpl in *.
  specialize (IH _ s' g' H' ltac:(destruct (is_reg o); lia) ltac:(destruct (is_reg o); lia) Hp).
  destruct (sub_run s' os), (subspec_run g' os). simpl in *. by subst.
Qed.
Lemma sr_new c ev : SR 0 (sub_new KSafe c ev) [].
Proof.
  exists (em_new 1). split_and!; auto; simpl; try (by constructor); [set_solver|]. intros n id. by rewrite lookup_empty.
Qed.

(** ** A removed name is silent (multi and single emitters) *)
Lemma sub_run_app s os1 os2 : sub_run s (os1 ++ os2) =
  ((sub_run (sub_run s os1).1 os2).1, (sub_run s os1).2 ++ (sub_run (sub_run s os1).1 os2).2).
Proof.
  revert s; induction os1 as [|o os1 IH]; intros s; simpl; [by destruct (sub_run s os2)|].
  destruct (sub_step s o) as [s' r]. rewrite IH. destruct (sub_run s' os1) as [s1 l1]. simpl. by destruct (sub_run s1 os2).
Qed.

(** What is active in an emitter: names and callbacks that a publication can
    reach; none of them is under the name [bad]. *)
Definition MA (owner : nat -> string) (bad : option string) (s : subscriber) : Prop := exists m gm, sb_em s = EMulti m /\ Rel m gm /\
  (forall r, r ∈ rs gm -> r_event r = sb_event s /\ sb_map s !! r_name r = Some (Z.of_nat (r_id r)) /\ owner (r_cb r) = r_name r /\ Some (r_name r) <> bad).
Definition SA (owner : nat -> string) (bad : option string) (s : subscriber) : Prop := exists x, sb_em s = ESingle x /\
  (s_reg x = true -> sb_map s !! s_lname x = Some 0 /\ Some (s_lname x) <> bad) /\
  (forall cb, s_cb x = Some cb -> owner cb = s_lname x) /\
  (forall n id, sb_map s !! n = Some id -> id = 0) /\
  (s_reg x = true -> s_wrap x = WPlain \/ (s_wrap x = WStats /\ is_Some (s_stats x))).
Definition AA (owner : nat -> string) (bad : option string) (s : subscriber) : Prop := MA owner bad s \/ SA owner bad s.

Definition op_ok (owner : nat -> string) (bad : option string) (o : sop) : Prop :=
  match o with SubReg n cb => owner cb = n /\ Some n <> bad | _ => True end.
Definition out_ok (owner : nat -> string) (bad : option string) (r : sres) : Prop :=
  match r with RCalled l => forall cb, cb ∈ l -> Some (owner cb) <> bad | RBroken => False | _ => True end.

Lemma ma_step owner bad s o : MA owner bad s -> op_ok owner bad o ->
  MA owner bad (sub_step s o).1 /\ out_ok owner bad (sub_step s o).2 /\
  (forall n, o = SubRemove n -> MA owner (Some n) (sub_step s o).1).
Proof.
  intros (m & gm & Em & R & H1) Hok. destruct o as [n cb|n| |n]; simpl in *; rewrite ?Em; simpl.
  - pose proof (on_rel (sb_cont s) n (sb_event s) cb m gm R) as [R' Eo]. simpl in *.
    destruct (multi_on (sb_cont s) n (sb_event s) cb m) as [m' id]. simpl in *. split_and!; [|done|done].
    destruct Hok as [Hcb Hbad].
    destruct (named n (rs gm)) as [|r l] eqn:En; simpl in *; injection Eo as ->.
    + eexists m', _. split; [done|]. split; [exact R'|]. simpl. intros r Hr. apply elem_of_app in Hr as [Hr|Hr].
      * rewrite lookup_insert_ne; [by apply H1|]. intros E. by destruct (named_nil _ _ En r Hr).
      * apply elem_of_list_singleton in Hr as ->. simpl. by rewrite lookup_insert.
    + assert (Hr : r ∈ named n (rs gm)) by (rewrite En; set_solver). apply elem_of_list_filter in Hr as [Hn Hr].
      eexists m', gm. split; [done|]. split; [exact R'|]. simpl. intros r' Hr'. destruct (H1 r' Hr') as (A & B & C & D).
      split_and!; auto. destruct (decide (r_name r' = n)) as [<-|Hne].
      * rewrite lookup_insert. do 2 f_equal. f_equal. eapply nodup_name; [apply R| | |]; auto.
      * by rewrite lookup_insert_ne.
  - destruct (sb_map s !! n) as [id|] eqn:En; simpl.
    + pose proof (remove_rel (sb_cont s) (Z.to_nat id) m gm R) as R'. simpl in R'.
      assert (HM : forall b, (b = bad \/ b = Some n) ->
         MA owner b (Sub (sb_cont s) (sb_event s) (delete n (sb_map s)) (EMulti (multi_remove (sb_cont s) (Z.to_nat id) m)))).
      { intros b Hb. eexists _, _. split; [reflexivity|]. split; [exact R'|]. simpl. intros r Hr.
        apply elem_of_list_filter in Hr as [Hne Hr]. destruct (H1 r Hr) as (A & B & C & D).
        assert (Hn : r_name r <> n). { intros E. rewrite E, En in B. injection B as ->. rewrite Nat2Z.id in Hne. done. }
        split_and!; auto; [by rewrite lookup_delete_ne|]. destruct Hb as [->| ->]; congruence. }
      split_and!; auto. intros n' [= <-]. auto.
    + split_and!; auto.
      * exists m, gm. auto.
      * intros n' [= <-]. exists m, gm. split_and!; auto. intros r Hr. destruct (H1 r Hr) as (A & B & C & D). split_and!; auto.
        intros [= E]. by rewrite E, En in B.
  - pose proof (emit_rel (sb_event s) m gm R) as [R' Eo]. simpl in *. injection Eo as Eo. rewrite Eo. split_and!; [| |done].
    + eexists _, gm. split; [reflexivity|]. split; [exact R'|]. done.
    + intros cb Hcb. apply elem_of_list_fmap in Hcb as (r & -> & Hr). apply elem_of_list_filter in Hr as [_ Hr].
      destruct (H1 r Hr) as (A & B & C & D). congruence.
  - split_and!; [|done|done]. exists m, gm. split_and!; auto. simpl. intros r Hr. destruct (H1 r Hr) as (A & B & C & D).
    split_and!; auto. destruct (decide (r_name r = n)) as [<-|Hne]; [rewrite lookup_insert, B; done|by rewrite lookup_insert_ne].
Qed.

Lemma sa_step owner bad s o : SA owner bad s -> op_ok owner bad o ->
  SA owner bad (sub_step s o).1 /\ out_ok owner bad (sub_step s o).2 /\
  (forall n, o = SubRemove n -> SA owner (Some n) (sub_step s o).1).
Proof.
  intros (x & Em & H1 & H2 & H3 & H4) Hok. destruct o as [n cb|n| |n]; simpl in *; rewrite ?Em; simpl.
  - destruct Hok as [Hcb Hbad]. unfold single_on. destruct (s_reg x) eqn:Er; simpl.
    + split_and!; [|done|done]. exists x. split_and!; auto; simpl.
      * intros _. destruct (H1 eq_refl) as [A B]. split; [|done]. destruct (decide (s_lname x = n)) as [<-|]; [by rewrite lookup_insert|by rewrite lookup_insert_ne].
      * intros n' id. rewrite lookup_insert_Some. intros [[_ <-]|[_ Hn']]; [done|by eapply H3].
    + split_and!; [|done|done]. eexists. split; [reflexivity|]. simpl. split_and!; auto.
      * intros _. by rewrite lookup_insert.
      * intros c [= <-]. done.
      * intros n' id. rewrite lookup_insert_Some. intros [[_ <-]|[_ Hn']]; [done|by eapply H3].
      * intros _. destruct (sb_cont s); [right|left]; eauto.
  - destruct (sb_map s !! n) as [id|] eqn:En; simpl.
    + rewrite (H3 n id En). unfold single_remove. simpl.
      assert (HM : forall b, SA owner b (Sub (sb_cont s) (sb_event s) (delete n (sb_map s)) (ESingle
        (Single false (s_sub x) (s_lname x) (if sb_cont s then None else s_stats x) None (s_wrap x)
          (if sb_cont s then CDetach (s_stats x) :: s_cont x else s_cont x))))).
      { intros b. eexists. split; [reflexivity|]. simpl. split_and!; try done.
        intros n' id'. rewrite lookup_delete_Some. intros [_ Hn']. by eapply H3. }
      split_and!; auto.
    + split; [exists x; by split_and!|]. split; [done|].
      * intros n' [= <-]. exists x. split_and!; auto. intros Er. destruct (H1 Er) as [A B]. split; [done|]. intros [= E].
        by rewrite E, En in A.
  - split_and!; [exists x; by split_and!| |done]. unfold single_emit.
    destruct (s_reg x) eqn:Er; [|rewrite orb_true_r; simpl; set_solver].
    destruct (negb _ || negb true); [simpl; set_solver|]. destruct (H1 eq_refl) as [A B].
    destruct (H4 eq_refl) as [->|[-> [st ->]]]; (destruct (s_cb x) as [c|] eqn:Ec; simpl; [|set_solver]);
      intros cb Hcb; apply elem_of_list_singleton in Hcb as ->; by rewrite (H2 c eq_refl).
  - split_and!; [|done|done]. exists x. split_and!; auto; simpl.
    + intros Er. destruct (H1 Er) as [A B]. split; [|done].
      destruct (decide (s_lname x = n)) as [<-|]; [by rewrite lookup_insert, A|by rewrite lookup_insert_ne].
    + intros n' id. rewrite lookup_insert_Some. intros [[_ <-]|[_ Hn']]; [|by eapply H3].
      destruct (sb_map s !! n) eqn:E; [by eapply H3|done].
Qed.

Lemma aa_step owner bad s o : AA owner bad s -> op_ok owner bad o ->
  AA owner bad (sub_step s o).1 /\ out_ok owner bad (sub_step s o).2 /\
  (forall n, o = SubRemove n -> AA owner (Some n) (sub_step s o).1).
Proof.
  intros [H|H] Hok; [destruct (ma_step _ _ _ _ H Hok) as (A & B & C)|destruct (sa_step _ _ _ _ H Hok) as (A & B & C)].
  - split; [by left|]. split; [done|]. intros n E. left. by apply C.
  - split; [by right|]. split; [done|]. intros n E. right. by apply C.
Qed.
Lemma aa_run owner bad s os : AA owner bad s -> Forall (op_ok owner bad) os ->
  AA owner bad (sub_run s os).1 /\ Forall (out_ok owner bad) (sub_run s os).2.
Proof.
  revert s; induction os as [|o os IH]; intros s H Hos; [split; [done|constructor]|]. apply Forall_cons in Hos as [Ho Hos]. simpl.
  destruct (aa_step owner bad s o H Ho) as (H' & Hr & _). destruct (sub_step s o) as [s' r]. simpl in *.
  destruct (IH s' H' Hos) as [A B]. destruct (sub_run s' os). simpl in *. auto.
Qed.
Lemma aa_new owner k c ev : k <> KSafe -> AA owner None (sub_new k c ev).
Proof.
  destruct k; [done| |]; intros _; [left|right].
  - exists multi_new, registry_new. split; [done|]. split; [apply rel_new|]. set_solver.
  - exists single_new. simpl. by split_and!.
Qed.
