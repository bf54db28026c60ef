(** * C187, C188: containers and the statistics of listeners. *)
From stdpp Require Import prelude strings gmap.
From Verif Require Import StatsLife_Model.
Local Open Scope string_scope.
Local Open Scope list_scope.

(** ** Specification *)
(** What the user knows: the registered listeners, in order, each with the container its statistics were given to. *)
Record known := Known { k_no : nat; k_em : nat; k_name : string; k_cont : option nat }.
Definition know (st : nat * list known) (o : slop) : nat * list known :=
  let '(n, ks) := st in
  match o with
  | LOn em c nm => (S n, ks ++ [Known n em nm c])
  | LRemove i _ => (n, List.filter (fun k => negb (Nat.eqb (k_no k) i)) ks)
  | LRemoveAll em _ => (n, List.filter (fun k => negb (Nat.eqb (k_em k) em)) ks)
  | LSetContainer i c => (n, (fun k => if Nat.eqb (k_no k) i then Known (k_no k) (k_em k) (k_name k) (Some c) else k) <$> ks)
  | LStartStop _ => (n, ks)
  end.
Definition known_after (os : list slop) : list known := (fold_left know os (0, [])).2.
(** No listener whose statistics are in container [c] has this name. *)
Definition name_free (ks : list known) (c : nat) (nm : string) : Prop := forall k, k ∈ ks -> k_cont k = Some c -> k_name k <> nm.
(** A careful call: names in a container are distinct; a listener is removed with the container its statistics were given to, and they are given to one container at most. *)
Definition careful_call (ks : list known) (o : slop) : Prop :=
  match o with
  | LOn _ (Some c) nm => name_free ks c nm
  | LOn _ None _ => True
  | LRemove i c => forall k, k ∈ ks -> k_no k = i -> k_cont k = c
  | LRemoveAll em c => forall k, k ∈ ks -> k_em k = em -> k_cont k = c
  | LSetContainer i c => forall k, k ∈ ks -> k_no k = i -> k_cont k = None /\ name_free ks c (k_name k)
  | LStartStop _ => True
  end.
Definition careful (os : list slop) : Prop := forall pre o suf, os = pre ++ o :: suf -> careful_call (known_after pre) o.

(** ** Proofs *)
Definition as_lsn (k : known) : lsn := Lsn (k_no k) (k_em k) (k_name k).
Record SInv (s : slst) (n : nat) (ks : list known) : Prop := {
  si_next : sl_next s = n;
  si_live : sl_live s = as_lsn <$> ks;
  si_lt : forall k, k ∈ ks -> k_no k < n;
  si_nos : NoDup (k_no <$> ks);
  si_held : forall c i m, (i, m) ∈ sl_held s !!! c <-> exists k, k ∈ ks /\ k_no k = i /\ k_name k = m /\ k_cont k = Some c;
  si_nodup : forall c, NoDup (sl_held s !!! c);
  si_names : forall k1 k2 c, k1 ∈ ks -> k2 ∈ ks -> k_cont k1 = Some c -> k_cont k2 = Some c -> k_name k1 = k_name k2 -> k1 = k2;
  si_ub : sl_ub s = false
}.
Lemma alive_spec ks i : alive (as_lsn <$> ks) i = true <-> exists k, k ∈ ks /\ k_no k = i.
Proof.
  unfold alive. rewrite existsb_exists. split.
  - intros (x & Hx & E). apply elem_of_list_In, elem_of_list_fmap in Hx as (k & -> & Hk). exists k. split; [done|]. by apply Nat.eqb_eq in E.
  - intros (k & Hk & <-). exists (as_lsn k). split; [apply elem_of_list_In, elem_of_list_fmap; eauto|]. cbn. apply Nat.eqb_refl.
Qed.
Lemma erase_live ls n l : (forall x, x ∈ l -> alive ls x.1 = true) -> NoDup (l.*2) ->
  (erase_name ls n l).2 = false /\ (forall x, x ∈ (erase_name ls n l).1 <-> x ∈ l /\ x.2 <> n) /\ (NoDup l -> NoDup (erase_name ls n l).1).
Proof.
  induction l as [|[i m] l IH]; intros Ha Hn; cbn [erase_name].
  - split_and!; [done| |done]. intros x. cbn. split; [intros H; by apply elem_of_nil in H|intros [H _]; by apply elem_of_nil in H].
  - assert (Hi : alive ls i = true) by (apply (Ha (i, m)); constructor). rewrite Hi. cbn [negb fst]. clear Hi. cbn in Hn. apply NoDup_cons in Hn as [Hm Hn]. destruct (String.eqb_spec m n) as [->|Hne].
    + split_and!; [done| |by intros [_ ?]%NoDup_cons]. intros x. cbn. rewrite elem_of_cons. split.
      * intros Hx. split; [by right|]. intros E. apply Hm. rewrite <-E. apply elem_of_list_fmap. eauto.
      * intros [[->|Hx] Hc]; [done|done].
    + destruct IH as (H1 & H2 & H3); [intros x Hx; apply Ha; by right|done|]. destruct (erase_name ls n l) as [l'' u]. cbn in *. split_and!; [done| |].
      * intros x. rewrite !elem_of_cons, H2. split; [intros [->|[? ?]]; [split; [by left|done]|split; [by right|done]]|intros [[->|?] ?]; [by left|right; done]].
      * intros [Hi Hl]%NoDup_cons. constructor; [|by apply H3]. rewrite H2. by intros [? _].
Qed.
Lemma held_names s n ks c : SInv s n ks -> NoDup ((sl_held s !!! c).*2) /\ (forall x, x ∈ sl_held s !!! c -> alive (sl_live s) x.1 = true).
Proof.
  intros I. split.
  - pose proof (si_nodup s n ks I c) as Hn. assert (Hall : forall x, x ∈ sl_held s !!! c -> exists k, k ∈ ks /\ k_no k = x.1 /\ k_name k = x.2 /\ k_cont k = Some c).
    { intros [i m] Hx. by apply (si_held s n ks I c i m). }
    induction (sl_held s !!! c) as [|x l IH]; [constructor|]. apply NoDup_cons in Hn as [Hx Hn]. cbn. constructor; [|apply IH; [done|]; intros y Hy; apply Hall; by right].
    intros Hin. apply elem_of_list_fmap in Hin as (y & E & Hy). destruct (Hall x) as (k1 & H1 & E1 & E2 & E3); [constructor|]. destruct (Hall y) as (k2 & H2 & F1 & F2 & F3); [by right|].
    assert (k1 = k2) by (eapply (si_names s n ks I); eauto; congruence). subst k2. apply Hx. destruct x, y; cbn in *; subst; done.
  - intros [i m] Hx. apply (si_held s n ks I) in Hx as (k & Hk & E & _). rewrite (si_live s n ks I). apply alive_spec. eauto.
Qed.
Lemma find_live ks i : match List.find (fun l => Nat.eqb (l_no l) i) (as_lsn <$> ks) with Some l => exists k, k ∈ ks /\ k_no k = i /\ l = as_lsn k | None => forall k, k ∈ ks -> k_no k <> i end.
Proof.
  destruct (List.find _ _) as [l|] eqn:E.
  - apply find_some in E as [Hin E]. apply elem_of_list_In, elem_of_list_fmap in Hin as (k & -> & Hk). apply Nat.eqb_eq in E. eauto.
  - intros k Hk En. pose proof (find_none _ _ E (as_lsn k)) as H. cbn in H. rewrite En, Nat.eqb_refl in H. apply diff_true_false, H. apply elem_of_list_In, elem_of_list_fmap. eauto.
Qed.
Lemma filter_lsn (p : nat -> nat -> bool) ks : List.filter (fun l => negb (p (l_no l) (l_em l))) (as_lsn <$> ks) = as_lsn <$> List.filter (fun k => negb (p (k_no k) (k_em k))) ks.
Proof. induction ks as [|k ks IH]; [done|]. cbn. destruct (p _ _); cbn; [done|]. by f_equal. Qed.
Lemma elem_filter {A} (p : A -> bool) l x : x ∈ List.filter p l <-> x ∈ l /\ p x = true.
Proof. rewrite !elem_of_list_In. apply filter_In. Qed.
Lemma no_inj ks k1 k2 : NoDup (k_no <$> ks) -> k1 ∈ ks -> k2 ∈ ks -> k_no k1 = k_no k2 -> k1 = k2.
Proof.
  intros Hn H1 H2 E. apply elem_of_list_lookup in H1 as [i1 H1]. apply elem_of_list_lookup in H2 as [i2 H2].
  assert (i1 = i2); [|congruence]. eapply NoDup_lookup; [exact Hn|rewrite list_lookup_fmap, H1; reflexivity|]. rewrite list_lookup_fmap, H2. cbn. congruence.
Qed.
Lemma nodup_filter (p : known -> bool) ks : NoDup (k_no <$> ks) -> NoDup (k_no <$> List.filter p ks).
Proof.
  induction ks as [|k ks IH]; [done|]. cbn. intros [H1 H2]%NoDup_cons. destruct (p k); [|by apply IH]. cbn. constructor; [|by apply IH].
  intros Hx. apply H1. apply elem_of_list_fmap in Hx as (y & E & Hy). apply elem_filter in Hy as [Hy _]. apply elem_of_list_fmap. eauto.
Qed.
Lemma attach_other c c' i n h : c <> c' -> attach c i n h !!! c' = h !!! c'.
Proof. intros H. unfold attach. by rewrite lookup_total_insert_ne. Qed.
Lemma attach_same c i n h : attach c i n h !!! c = h !!! c ++ [(i, n)].
Proof. unfold attach. by rewrite lookup_total_insert. Qed.
(** Detaching the statistics of listeners one after the other: what the containers hold afterwards. *)
Definition HInv (s : slst) (ks : list known) : Prop :=
  (forall x c, x ∈ sl_held s !!! c -> alive (sl_live s) x.1 = true) /\
  (forall c i m, (i, m) ∈ sl_held s !!! c <-> exists k, k ∈ ks /\ k_no k = i /\ k_name k = m /\ k_cont k = Some c) /\
  (forall c, NoDup (sl_held s !!! c)) /\ (forall c, NoDup ((sl_held s !!! c).*2)) /\ sl_ub s = false.
Lemma detach_one s ks k : HInv s ks -> k ∈ ks -> (forall k1 k2 c, k1 ∈ ks -> k2 ∈ ks -> k_cont k1 = Some c -> k_cont k2 = Some c -> k_name k1 = k_name k2 -> k1 = k2) ->
  NoDup (k_no <$> ks) ->
  let s' := detach s (k_cont k) (k_name k) in HInv s' (List.filter (fun x => negb (Nat.eqb (k_no x) (k_no k))) ks) /\ sl_live s' = sl_live s /\ sl_next s' = sl_next s.
Proof.
  intros (Ha & Hh & Hn & Hn2 & Hu) Hk Hinj Hnd. unfold detach. destruct (k_cont k) as [c0|] eqn:Ec.
  - destruct (erase_live (sl_live s) (k_name k) (sl_held s !!! c0)) as (E1 & E2 & E3); [intros x Hx; by apply (Ha x c0)|done|].
    destruct (erase_name (sl_live s) (k_name k) (sl_held s !!! c0)) as [l u] eqn:El. cbn [fst snd] in *. cbv zeta. cbn [sl_live sl_next]. split; [|done].
    assert (Hsub : forall c x, x ∈ (<[c0:=l]> (sl_held s) : gmap nat (list (nat * string))) !!! c <-> x ∈ sl_held s !!! c /\ (c = c0 -> x.2 <> k_name k)).
    { intros c x. destruct (decide (c = c0)) as [->|Hne]; [rewrite lookup_total_insert, E2; naive_solver|rewrite lookup_total_insert_ne by done; naive_solver]. }
    split_and!; cbn [sl_held sl_live sl_ub].
    + intros x c Hx. apply Hsub in Hx as [Hx _]. by apply (Ha x c).
    + intros c i m. rewrite Hsub, Hh. split.
      * intros [(k' & H1 & H2 & H3 & H4) Hc]. exists k'. split_and!; try done. apply elem_filter. split; [done|]. apply negb_true_iff, Nat.eqb_neq. intros Eno.
        assert (k' = k) by (by eapply no_inj). subst k'. rewrite Ec in H4. injection H4 as ->. apply Hc; [done|]. by rewrite <-H3.
      * intros (k' & H1 & H2 & H3 & H4). apply elem_filter in H1 as [H1 H1']. split; [eauto|]. intros -> E. cbn in E. subst m.
        assert (k' = k) by (eapply Hinj; eauto; by rewrite E). subst. by rewrite Nat.eqb_refl in H1'.
    + intros c. destruct (decide (c = c0)) as [->|Hne]; [rewrite lookup_total_insert; by apply E3|by rewrite lookup_total_insert_ne by done].
    + intros c. destruct (decide (c = c0)) as [->|Hne]; [rewrite lookup_total_insert|by rewrite lookup_total_insert_ne by done].
      assert (Hl : l = (erase_name (sl_live s) (k_name k) (sl_held s !!! c0)).1) by (by rewrite El). rewrite Hl. clear -Hn2.
      specialize (Hn2 c0). induction (sl_held s !!! c0) as [|[i m] r IH]; [constructor|]. cbn [erase_name]. destruct (negb _); [done|]. cbn in Hn2. apply NoDup_cons in Hn2 as [H1 H2].
      destruct (String.eqb m (k_name k)); [done|]. assert (Hsub : forall x, x ∈ (erase_name (sl_live s) (k_name k) r).1 -> x ∈ r).
      { clear. induction r as [|[i m] r IH]; [done|]. intros x. cbn [erase_name]. destruct (negb _); [done|]. destruct (String.eqb _ _); [by right|]. destruct (erase_name _ _ r). cbn in *. rewrite !elem_of_cons. naive_solver. }
      specialize (IH H2). destruct (erase_name _ _ r) as [r' u']. cbn in *. constructor; [|done]. intros Hx. apply H1. apply elem_of_list_fmap in Hx as (y & E & Hy). apply elem_of_list_fmap. eauto.
    + rewrite Hu. done.
  - cbv zeta. split; [|done]. split_and!; try done. intros c i m. rewrite Hh. split.
    + intros (k' & H1 & H2 & H3 & H4). exists k'. split_and!; try done. apply elem_filter. split; [done|]. apply negb_true_iff, Nat.eqb_neq. intros Eno. assert (k' = k) by (by eapply no_inj). congruence.
    + intros (k' & H1 & H2). apply elem_filter in H1 as [H1 _]. eauto.
Qed.
Lemma SInv_HInv s n ks : SInv s n ks -> HInv s ks.
Proof.
  intros I. split_and!; try apply I.
  - intros x c. apply (held_names s n ks c I).
  - intros c. apply (held_names s n ks c I).
Qed.
Lemma drop_inv s n ks (p : nat -> nat -> bool) s1 : SInv s n ks -> HInv s1 (List.filter (fun x => negb (p (k_no x) (k_em x))) ks) -> sl_live s1 = sl_live s -> sl_next s1 = sl_next s ->
  SInv (drop (fun x => p (l_no x) (l_em x)) s1) n (List.filter (fun x => negb (p (k_no x) (k_em x))) ks).
Proof.
  intros I (Ha & Hh & Hn & Hn2 & Hu) El En. destruct I. constructor; cbn; try done.
  - congruence.
  - rewrite El, si_live0. apply filter_lsn.
  - intros k Hk. apply elem_filter in Hk as [Hk _]. by apply si_lt0.
  - by apply nodup_filter.
  - intros k1 k2 c H1 H2. apply elem_filter in H1 as [H1 _]. apply elem_filter in H2 as [H2 _]. by apply si_names0.
Qed.
Lemma detach_all c todo : forall s ks, HInv s ks -> (forall k, k ∈ todo -> k ∈ ks /\ k_cont k = c) -> NoDup (k_no <$> todo) ->
  (forall k1 k2 c, k1 ∈ ks -> k2 ∈ ks -> k_cont k1 = Some c -> k_cont k2 = Some c -> k_name k1 = k_name k2 -> k1 = k2) -> NoDup (k_no <$> ks) ->
  let s' := fold_left (fun s l => detach s c (l_name l)) (as_lsn <$> todo) s in
  HInv s' (List.filter (fun x => negb (existsb (fun t => Nat.eqb (k_no t) (k_no x)) todo)) ks) /\ sl_live s' = sl_live s /\ sl_next s' = sl_next s.
Proof.
  induction todo as [|k todo IH]; intros s ks H Ht Hnt Hinj Hnd; cbv zeta.
  - cbn [existsb negb fmap list_fmap fold_left]. split; [|done]. assert (E : List.filter (fun _ : known => true) ks = ks); [|by rewrite E]. clear. induction ks; cbn; [done|by f_equal].
  - cbn [fmap list_fmap fold_left]. destruct (Ht k) as [Hk Hc]; [constructor|]. cbn in Hnt. apply NoDup_cons in Hnt as [Hk0 Hnt].
    destruct (detach_one s ks k H Hk Hinj Hnd) as (H1 & H2 & H3). rewrite Hc in H1, H2, H3. change (l_name (as_lsn k)) with (k_name k).
    set (s1 := detach s c (k_name k)) in *. set (ks1 := List.filter (fun x => negb (Nat.eqb (k_no x) (k_no k))) ks) in *.
    destruct (IH s1 ks1) as (G1 & G2 & G3); [done| |done| | |].
    + intros k' Hk'. destruct (Ht k') as [A B]; [by right|]. split; [|done]. apply elem_filter. split; [done|]. apply negb_true_iff, Nat.eqb_neq. intros E. apply Hk0. rewrite <-E. apply elem_of_list_fmap. eauto.
    + intros k1 k2 c' A B. apply elem_filter in A as [A _]. apply elem_filter in B as [B _]. by apply Hinj.
    + by apply nodup_filter.
    + split; [|split; congruence]. assert (E : List.filter (fun x => negb (existsb (fun t => Nat.eqb (k_no t) (k_no x)) todo)) ks1 = List.filter (fun x => negb (existsb (fun t => Nat.eqb (k_no t) (k_no x)) (k :: todo))) ks); [|by rewrite <-E].
      unfold ks1. clear. induction ks as [|x ks IH]; [done|]. cbn [List.filter existsb]. rewrite (Nat.eqb_sym (k_no k)). destruct (Nat.eqb (k_no x) (k_no k)); cbn [negb orb]; [done|]. cbn [List.filter]. destruct (existsb _ todo); cbn; [done|by f_equal].
Qed.
Lemma s_step s n ks o : SInv s n ks -> careful_call ks o -> SInv (sl_step s o) (know (n, ks) o).1 (know (n, ks) o).2.
Proof.
  intros I Hc. pose proof (SInv_HInv s n ks I) as H. destruct o as [em c nm|i c|em c|i c|c]; cbn [sl_step know fst snd].
  - pose proof I as [E1 E2 E3 E4 E5 E6 E7 E8]. rewrite E1. constructor; cbn [sl_next sl_live sl_held sl_ub]; try done.
    + rewrite E2, fmap_app. done.
    + intros k Hk. apply elem_of_app in Hk as [Hk|Hk]; [specialize (E3 k Hk); lia|]. apply elem_of_list_singleton in Hk as ->. cbn. lia.
    + rewrite fmap_app. apply NoDup_app. split_and!; [done| |cbn; apply NoDup_singleton]. intros x Hx Hy. cbn in Hy. apply elem_of_list_singleton in Hy as ->. apply elem_of_list_fmap in Hx as (k & E & Hk). specialize (E3 k Hk). lia.
    + intros c' i m. assert (Hold : forall c', (exists k, k ∈ ks ++ [Known n em nm c] /\ k_no k = i /\ k_name k = m /\ k_cont k = Some c') <->
         (exists k, k ∈ ks /\ k_no k = i /\ k_name k = m /\ k_cont k = Some c') \/ (i = n /\ m = nm /\ c = Some c')).
      { intros c2. split.
        - intros (k & Hk & A & B & D). apply elem_of_app in Hk as [Hk|Hk]; [left; eauto|]. apply elem_of_list_singleton in Hk as ->. right. cbn in *. auto.
        - intros [(k & Hk & A)|(-> & -> & ->)]; [exists k; split; [apply elem_of_app; by left|done]|]. exists (Known n em nm (Some c2)). split; [apply elem_of_app; right; constructor|done]. }
      rewrite Hold. destruct c as [c|]; [|rewrite E5; split; [by left|intros [HA|(_ & _ & E)]; [done|congruence]]]. destruct (decide (c = c')) as [->|Hne].
      * rewrite attach_same, elem_of_app, E5, elem_of_list_singleton. split; (intros [HA|HB]; [by left|right]); [by injection HB as -> ->|by destruct HB as (-> & -> & _)].
      * rewrite attach_other by done. rewrite E5. split; [by left|intros [HA|(_ & _ & E)]; [done|congruence]].
    + intros c'. destruct c as [c|]; [|done]. destruct (decide (c = c')) as [->|Hne]; [|by rewrite attach_other]. rewrite attach_same. apply NoDup_app. split_and!; [done| |apply NoDup_singleton].
      intros [i m] Hx Hy. apply elem_of_list_singleton in Hy. injection Hy as -> ->. apply E5 in Hx as (k & Hk & A & _). specialize (E3 k Hk). lia.
    + intros k1 k2 c' Hk1 Hk2 F1 F2 F3. apply elem_of_app in Hk1 as [Hk1|Hk1]; apply elem_of_app in Hk2 as [Hk2|Hk2]; try apply elem_of_list_singleton in Hk1 as ->; try apply elem_of_list_singleton in Hk2 as ->; cbn in *; subst; try done.
      * by eapply E7.
      * exfalso. by apply (Hc k1).
      * exfalso. by apply (Hc k2).
  - pose proof (find_live ks i) as Hf. rewrite <-(si_live s n ks I) in Hf. destruct (List.find _ _) as [l|].
    + destruct Hf as (k & Hk & Eno & ->). cbn in Hc. specialize (Hc k Hk Eno). subst c i. change (l_name (as_lsn k)) with (k_name k).
      destruct (detach_one s ks k H Hk (si_names s n ks I) (si_nos s n ks I)) as (G1 & G2 & G3).
      exact (drop_inv s n ks (fun a _ => Nat.eqb a (k_no k)) _ I G1 G2 G3).
    + assert (E : List.filter (fun k => negb (Nat.eqb (k_no k) i)) ks = ks); [|by rewrite E]. clear -Hf. induction ks as [|k ks IH]; [done|]. cbn. assert (Nat.eqb (k_no k) i = false) as -> by (apply Nat.eqb_neq, Hf; constructor). cbn. f_equal. apply IH. intros x Hx. apply Hf. by right.
  - cbn in Hc. rewrite (si_live s n ks I).
    assert (El : List.filter (fun l => Nat.eqb (l_em l) em) (as_lsn <$> ks) = as_lsn <$> List.filter (fun k => Nat.eqb (k_em k) em) ks).
    { clear. induction ks as [|k ks IH]; [done|]. cbn. destruct (Nat.eqb (k_em k) em); cbn; by rewrite IH. }
    rewrite El. destruct (detach_all c (List.filter (fun k => Nat.eqb (k_em k) em) ks) s ks H) as (G1 & G2 & G3).
    + intros k Hk. apply elem_filter in Hk as [Hk E]. apply Nat.eqb_eq in E. split; [done|]. by apply Hc.
    + apply nodup_filter, (si_nos s n ks I).
    + apply (si_names s n ks I).
    + apply (si_nos s n ks I).
    + apply (drop_inv s n ks (fun _ b => Nat.eqb b em) _ I); [|done|done].
      assert (E : List.filter (fun x => negb (existsb (fun t => Nat.eqb (k_no t) (k_no x)) (List.filter (fun k => Nat.eqb (k_em k) em) ks))) ks = List.filter (fun x => negb (Nat.eqb (k_em x) em)) ks); [|by rewrite <-E].
      pose proof (si_nos s n ks I) as Hnd. clear -Hnd.
      assert (Hx : forall x, x ∈ ks -> existsb (fun t => Nat.eqb (k_no t) (k_no x)) (List.filter (fun k => Nat.eqb (k_em k) em) ks) = Nat.eqb (k_em x) em).
      { intros x Hx. destruct (Nat.eqb (k_em x) em) eqn:E.
        - apply existsb_exists. exists x. split; [|apply Nat.eqb_refl]. apply elem_of_list_In, elem_filter. done.
        - destruct (existsb _ _) eqn:E2; [|done]. apply existsb_exists in E2 as (y & Hy & E3). apply elem_of_list_In, elem_filter in Hy as [Hy E4]. apply Nat.eqb_eq in E3. rewrite (no_inj ks y x Hnd Hy Hx E3) in E4. congruence. }
      revert Hx. generalize (List.filter (fun k => Nat.eqb (k_em k) em) ks) as t. clear. intros t Hx. induction ks as [|k ks IH]; [done|]. cbn. rewrite (Hx k) by constructor. destruct (Nat.eqb _ _); cbn; [|f_equal]; apply IH; intros x Hin; apply Hx; by right.
  - cbn in Hc. pose proof (find_live ks i) as Hf. rewrite <-(si_live s n ks I) in Hf. pose proof I as [E1 E2 E3 E4 E5 E6 E7 E8]. set (upd := fun k => if Nat.eqb (k_no k) i then Known (k_no k) (k_em k) (k_name k) (Some c) else k).
    assert (U1 : forall k, k_no (upd k) = k_no k) by (intros k; unfold upd; by destruct (Nat.eqb _ _)).
    assert (U2 : forall k, k_name (upd k) = k_name k) by (intros k; unfold upd; by destruct (Nat.eqb _ _)).
    assert (U3 : forall k, as_lsn (upd k) = as_lsn k) by (intros k; unfold upd; by destruct (Nat.eqb _ _)).
    assert (U4 : forall k, k_no k = i -> k_cont (upd k) = Some c) by (intros k <-; unfold upd; by rewrite Nat.eqb_refl).
    assert (U5 : forall k, k_no k <> i -> upd k = k) by (intros k Hne; unfold upd; apply Nat.eqb_neq in Hne; by rewrite Hne).
    destruct (List.find _ _) as [l|].
    + destruct Hf as (k0 & Hk0 & Eno & ->). destruct (Hc k0 Hk0 Eno) as [Hnone Hfree]. change (l_name (as_lsn k0)) with (k_name k0). constructor; cbn [sl_next sl_live sl_held sl_ub]; try done.
      * rewrite E2, <-list_fmap_compose. apply list_fmap_ext. intros ? x _. by rewrite <-U3.
      * intros k Hk. apply elem_of_list_fmap in Hk as (x & -> & Hx). rewrite U1. by apply E3.
      * rewrite <-list_fmap_compose. rewrite (list_fmap_ext (k_no ∘ upd) k_no ks); [done|]. intros ? x _. apply U1.
      * intros c' j m. assert (Hnew : (exists k, k ∈ upd <$> ks /\ k_no k = j /\ k_name k = m /\ k_cont k = Some c') <->
          (exists k, k ∈ ks /\ k_no k = j /\ k_name k = m /\ k_cont k = Some c') \/ (j = i /\ m = k_name k0 /\ c' = c)).
        { split.
          - intros (k & Hk & A & B & D). apply elem_of_list_fmap in Hk as (x & -> & Hx). rewrite U1 in A. rewrite U2 in B. destruct (decide (k_no x = i)) as [Ei|Ei].
            + right. rewrite (U4 x Ei) in D. injection D as ->. assert (x = k0) by (eapply no_inj; eauto; congruence). subst x. split_and!; congruence.
            + left. rewrite (U5 x Ei) in D. eauto.
          - intros [(k & Hk & A & B & D)|(-> & -> & ->)].
            + exists k. split; [|done]. apply elem_of_list_fmap. exists k. split; [|done]. symmetry. apply U5. intros Ei. assert (k = k0) by (eapply no_inj; eauto; congruence). congruence.
            + exists (upd k0). split_and!; [apply elem_of_list_fmap; eauto|by rewrite U1|by rewrite U2|by apply U4]. }
        rewrite Hnew. destruct (decide (c = c')) as [<-|Hne].
        -- rewrite attach_same, elem_of_app, E5, elem_of_list_singleton. split; (intros [HA|HB]; [by left|right]); [by injection HB as -> ->|by destruct HB as (-> & -> & _)].
        -- rewrite attach_other by done. rewrite E5. split; [by left|intros [HA|(_ & _ & E)]; [done|congruence]].
      * intros c'. destruct (decide (c = c')) as [<-|Hne]; [|by rewrite attach_other]. rewrite attach_same. apply NoDup_app. split_and!; [done| |apply NoDup_singleton].
        intros [j m] Hx Hy. apply elem_of_list_singleton in Hy. injection Hy as -> ->. apply E5 in Hx as (k & Hk & A & B & D). by apply (Hfree k Hk D).
      * intros k1 k2 c' Hk1 Hk2 F1 F2 F3. apply elem_of_list_fmap in Hk1 as (x1 & -> & H1). apply elem_of_list_fmap in Hk2 as (x2 & -> & H2). rewrite !U2 in F3.
        destruct (decide (k_no x1 = i)) as [Ei|Ei]; destruct (decide (k_no x2 = i)) as [Ej|Ej].
        -- f_equal. eapply no_inj; eauto. congruence.
        -- rewrite (U4 x1 Ei) in F1. injection F1 as <-. rewrite (U5 x2 Ej) in F2. assert (x1 = k0) by (eapply no_inj; eauto; congruence). subst x1. by destruct (Hfree x2 H2 F2).
        -- rewrite (U4 x2 Ej) in F2. injection F2 as <-. rewrite (U5 x1 Ei) in F1. assert (x2 = k0) by (eapply no_inj; eauto; congruence). subst x2. by destruct (Hfree x1 H1 F1).
        -- f_equal. rewrite (U5 x1 Ei) in F1. rewrite (U5 x2 Ej) in F2. by eapply E7.
    + assert (E : upd <$> ks = ks); [|by rewrite E]. clear -Hf U5. induction ks as [|k ks IH]; [done|]. cbn. rewrite U5 by (apply Hf; constructor). f_equal. apply IH. intros x Hx. apply Hf. by right.
  - pose proof I as [E1 E2 E3 E4 E5 E6 E7 E8]. constructor; try done. cbn. rewrite E8. cbn. destruct (existsb _ _) eqn:E; [|done]. apply existsb_exists in E as (x & Hx & E). apply elem_of_list_In in Hx.
    destruct H as (Ha & _). rewrite (Ha x c Hx) in E. done.
Qed.
Lemma careful_run os : careful os -> let st := fold_left know os (0, []) in SInv (sl_run os) st.1 st.2.
Proof.
  induction os as [|o os IH] using rev_ind; intros Hc; cbv zeta.
  - constructor; cbn; try done; try (by intros ? H; apply elem_of_nil in H).
    + constructor.
    + intros c i m. change ((∅ : gmap nat (list (nat * string))) !!! c) with (@nil (nat * string)). split; [intros H; by apply elem_of_nil in H|intros (k & H & _); by apply elem_of_nil in H].
    + intros c. change ((∅ : gmap nat (list (nat * string))) !!! c) with (@nil (nat * string)). constructor.
    + intros k1 k2 c H. by apply elem_of_nil in H.
  - unfold sl_run. rewrite !fold_left_app. cbn [fold_left]. fold (sl_run os). rewrite (surjective_pairing (fold_left know os (0, []))) at 1 2. apply s_step.
    + apply IH. intros pre o' suf ->. apply (Hc pre o' (suf ++ [o])). by rewrite <-app_assoc.
    + apply (Hc os o []). done.
Qed.
(** C187: for careful users no container ever uses, or holds, a pointer to the statistics of a listener that is gone, and it holds exactly the statistics of the registered listeners given to it. *)
Theorem C187_no_dangling os : careful os -> sl_ub (sl_run os) = false.
Proof. intros H. apply (careful_run os H). Qed.
Print Assumptions C187_no_dangling.
Theorem C187_exact os c : careful os -> NoDup (sl_held (sl_run os) !!! c).*1 /\
  forall i, i ∈ (sl_held (sl_run os) !!! c).*1 <-> exists k, k ∈ known_after os /\ k_no k = i /\ k_cont k = Some c.
Proof.
  intros H. pose proof (careful_run os H) as I. cbv zeta in I. fold (known_after os) in I. set (n := (fold_left know os (0, [])).1) in I. split.
  - pose proof (si_nodup _ _ _ I c) as Hn. assert (Hall : forall x, x ∈ sl_held (sl_run os) !!! c -> exists k, k ∈ known_after os /\ k_no k = x.1 /\ k_name k = x.2).
    { intros [i m] Hx. apply (si_held _ _ _ I) in Hx as (k & A & B & D & _). eauto. }
    revert Hall Hn. induction (sl_held (sl_run os) !!! c) as [|x l IH]; intros Hall Hn; [constructor|]. apply NoDup_cons in Hn as [Hx Hn]. cbn. constructor; [|apply IH; [|done]; intros y Hy; apply Hall; by right].
    intros Hy. apply elem_of_list_fmap in Hy as (y & E & Hy). destruct (Hall x) as (k1 & A & B & D); [constructor|]. destruct (Hall y) as (k2 & A' & B' & D'); [by right|].
    assert (k1 = k2) by (eapply (no_inj (known_after os)); [apply I|done|done|congruence]). subst k2. apply Hx. destruct x, y; cbn in *; subst; done.
  - intros i. rewrite elem_of_list_fmap. split.
    + intros ([i' m] & -> & Hx). apply (si_held _ _ _ I) in Hx as (k & A & B & D & E). cbn. eauto.
    + intros (k & A & B & D). exists (i, k_name k). split; [done|]. apply (si_held _ _ _ I). eauto.
Qed.
Print Assumptions C187_exact.

(** Two emitters (say, of two event loop providers) and a scheduler's executor that gets its container later; all is removed, the container is used in between. *)
Definition demo : list slop := [LOn 0 (Some 0) "a"; LOn 1 (Some 0) "b"; LOn 2 None "c"; LStartStop 0; LSetContainer 2 1; LRemove 0 (Some 0); LOn 0 (Some 0) "a"; LStartStop 0;
  LRemoveAll 1 (Some 0); LRemove 2 (Some 1); LStartStop 0; LStartStop 1].
(** Checking carefulness by computation. *)
Definition name_freeb (ks : list known) (c : nat) (nm : string) : bool := forallb (fun k => negb (bool_decide (k_cont k = Some c) && String.eqb (k_name k) nm)) ks.
Definition careful_callb (ks : list known) (o : slop) : bool :=
  match o with
  | LOn _ (Some c) nm => name_freeb ks c nm
  | LOn _ None _ => true
  | LRemove i c => forallb (fun k => negb (Nat.eqb (k_no k) i) || bool_decide (k_cont k = c)) ks
  | LRemoveAll em c => forallb (fun k => negb (Nat.eqb (k_em k) em) || bool_decide (k_cont k = c)) ks
  | LSetContainer i c => forallb (fun k => negb (Nat.eqb (k_no k) i) || (bool_decide (k_cont k = None) && name_freeb ks c (k_name k))) ks
  | LStartStop _ => true
  end.
Fixpoint carefulb (st : nat * list known) (os : list slop) : bool := match os with [] => true | o :: os' => careful_callb st.2 o && carefulb (know st o) os' end.
Lemma name_freeb_ok ks c nm : name_freeb ks c nm = true -> name_free ks c nm.
Proof.
  intros H k Hk Hc E. unfold name_freeb in H. rewrite forallb_forall in H. specialize (H k). rewrite <-elem_of_list_In in H. specialize (H Hk). rewrite bool_decide_true in H by done. subst nm. by rewrite String.eqb_refl in H.
Qed.
Lemma careful_callb_ok ks o : careful_callb ks o = true -> careful_call ks o.
Proof.
  destruct o as [em [c|] nm|i c|em c|i c|c]; cbn; try done.
  - apply name_freeb_ok.
  - intros H k Hk <-. rewrite forallb_forall in H. specialize (H k (proj1 (elem_of_list_In _ _) Hk)). rewrite Nat.eqb_refl in H. cbn in H. by apply bool_decide_eq_true in H.
  - intros H k Hk <-. rewrite forallb_forall in H. specialize (H k (proj1 (elem_of_list_In _ _) Hk)). rewrite Nat.eqb_refl in H. cbn in H. by apply bool_decide_eq_true in H.
  - intros H k Hk <-. rewrite forallb_forall in H. specialize (H k (proj1 (elem_of_list_In _ _) Hk)). rewrite Nat.eqb_refl in H. cbn in H. apply andb_true_iff in H as [H1 H2]. apply bool_decide_eq_true in H1. split; [done|by apply name_freeb_ok].
Qed.
Lemma carefulb_ok os : carefulb (0, []) os = true -> careful os.
Proof.
  assert (G : forall os0 os, carefulb (fold_left know os0 (0, [])) os = true -> forall pre o suf, os = pre ++ o :: suf -> careful_call (known_after (os0 ++ pre)) o).
  { intros os0 os1. revert os0. induction os1 as [|x os1 IH]; intros os0 H pre o suf E; [by destruct pre|]. cbn in H. apply andb_true_iff in H as [H1 H2]. destruct pre as [|y pre].
    - injection E as -> ->. rewrite app_nil_r. by apply careful_callb_ok.
    - injection E as -> ->. replace (os0 ++ y :: pre) with ((os0 ++ [y]) ++ pre) by (by rewrite <-app_assoc). eapply IH; [|reflexivity]. rewrite fold_left_app. done. }
  intros H pre o suf E. apply (G [] os H pre o suf E).
Qed.
Example C187_case : careful demo /\ (sl_held (sl_run demo) !!! 0).*1 = [3] /\ (sl_held (sl_run demo) !!! 1) = [] /\
  (k_no <$> known_after demo) = [3].
Proof. split; [apply carefulb_ok; vm_compute; reflexivity|]. vm_compute. done. Qed.

Lemma empty_held c : (∅ : gmap nat (list (nat * string))) !!! c = [].
Proof. done. Qed.
Local Ltac sl_eval := repeat (cbn [fold_left sl_step sl_new sl_next sl_live sl_held sl_ub app List.find List.filter l_no l_em Nat.eqb l_name detach drop erase_name alive existsb negb orb fst snd];
  unfold attach; rewrite ?lookup_total_insert, ?empty_held, ?String.eqb_refl).
(** C188: none of the three provisos can be dropped; each time a container uses the statistics of a listener that is gone.
    Equal names: a listener registered twice under one name in one emitter, one of them removed. *)
Theorem C188_same_name_refuted nm : let os := [LOn 0 (Some 0) nm; LOn 0 (Some 0) nm; LRemove 1 (Some 0); LStartStop 0] in sl_ub (sl_run os) = true.
Proof. cbv zeta. unfold sl_run. sl_eval. done. Qed.
Print Assumptions C188_same_name_refuted.
(** Two event loop providers with a subscriber of the same event name and a common container; the second is destroyed first. *)
Theorem C188_two_providers_refuted nm : let os := [LOn 0 (Some 0) nm; LOn 1 (Some 0) nm; LRemoveAll 1 (Some 0); LStartStop 0] in sl_ub (sl_run os) = true.
Proof. cbv zeta. unfold sl_run. sl_eval. done. Qed.
Print Assumptions C188_two_providers_refuted.
(** setContainer called twice: with another container the first keeps the pointer; with the same one it holds it twice and loses it once. *)
Theorem C188_set_container_twice_refuted nm c c' : let os := [LOn 0 None nm; LSetContainer 0 c; LSetContainer 0 c'; LRemove 0 (Some c'); LStartStop c] in sl_ub (sl_run os) = true.
Proof.
  cbv zeta. unfold sl_run. destruct (decide (c = c')) as [->|Hne].
  - do 6 sl_eval. done.
  - sl_eval. rewrite ?lookup_total_insert_ne by done. sl_eval. rewrite ?lookup_total_insert_ne by done. sl_eval. rewrite ?lookup_total_insert_ne by done. sl_eval. done.
Qed.
Print Assumptions C188_set_container_twice_refuted.
(** Removed without the container it was registered with. *)
Theorem C188_other_container_refuted nm c : let os := [LOn 0 (Some c) nm; LRemove 0 None; LStartStop c] in sl_ub (sl_run os) = true.
Proof. cbv zeta. unfold sl_run. sl_eval. done. Qed.
Print Assumptions C188_other_container_refuted.
(** Not only start() and stop(): detaching another listener reads the name of the one that is gone. *)
Theorem C188_detach_reads_refuted nm nm' c : let os := [LOn 0 (Some c) nm; LOn 0 (Some c) nm'; LRemove 0 None; LRemove 1 (Some c)] in sl_ub (sl_run os) = true.
Proof. cbv zeta. unfold sl_run. sl_eval. done. Qed.
Print Assumptions C188_detach_reads_refuted.
