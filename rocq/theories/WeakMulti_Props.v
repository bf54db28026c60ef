(** * A multi-producer ring on weak memory (C87). *)
From Coq Require Import ZArith Lia ZifyBool.
From stdpp Require Import prelude list_numbers.
From Verif Require Import WeakMem WeakMulti_Model.
Local Open Scope Z_scope.
Notation evt tr i t o := (tr !! i = Some (Ev t o)).
Lemma m_snoc {A} (l : list A) (x y : A) i : (l ++ [x]) !! i = Some y -> l !! i = Some y \/ (i = length l /\ y = x).
Proof. intros [H|[? H]]%lookup_app_Some; [by left|]. right. apply list_lookup_singleton_Some in H as [? <-]. split; [lia|done]. Qed.
Section Inv.
  Context (size : Z) (resets : bool) (nprod ncons : nat) (Hsize : 0 < size) (Hcons : (0 < ncons)%nat) (Hreset : resets = true -> ncons = 1%nat).
  Let g := MCfg size true resets.
  (** Thread t has seen, before position u, that consumer c has passed w. *)
  Definition kn (tr : list mev) (t c : nat) (w : Z) (u : nat) : Prop :=
    w <= -1 \/ exists e r v o, (r < u)%nat /\ evt tr r t o /\ evt tr e (ctid c) (AWrite (LSeq c) v) /\ hb tr e r /\ w <= v.
  (** Consumer c has seen, before position u, that event n has been written. *)
  Definition sn (tr : list mev) (c : nat) (n : Z) (u : nat) : Prop :=
    exists d r o t, (r < u)%nat /\ evt tr r (ctid c) o /\ evt tr d t (DWrite (SData (n mod size)) (n, true)) /\ hb tr d r.
  Definition okev (tr : list mev) (j t : nat) (o : mop) : Prop :=
    match o with
    | AWrite LCursor v => v = -1
    | AWrite LCache w => forall c, (c < ncons)%nat -> kn tr t c w j
    | AWrite (LSeq c) v => (0 <= v -> t = ctid c) /\ forall m, 0 <= m <= v -> exists k, (k < j)%nat /\ evt tr k (ctid c) (DRead (SData (m mod size)) (m, true))
    | AWrite (LFlag i) f => exists n d, 0 <= n /\ i = n mod size /\ f = n / size /\ (d < j)%nat /\ evt tr d t (DWrite (SData i) (n, true))
    | ARead _ f _ => (f < j)%nat
    | ARmw l f v => (f < j)%nat /\ l = LCursor
    | DRead x y => exists c m, t = ctid c /\ (c < ncons)%nat /\ x = SData (m mod size) /\ y = (m, true) /\ 0 <= m /\ sn tr c m j
    | DWrite x (n, true) => (exists p, t = ptid p) /\ x = SData (n mod size) /\ 0 <= n /\ forall c, (c < ncons)%nat -> kn tr t c (n - size) j
    | DWrite x (n, false) => exists c, t = ctid c /\ (c < ncons)%nat /\ x = SData (n mod size) /\ 0 <= n /\ resets = true /\ sn tr c n j
    end.
  Definition touch (c : nat) (m : Z) (t : nat) (o : mop) : Prop := t = ctid c /\ (o = DRead (SData (m mod size)) (m, true) \/ o = DWrite (SData (m mod size)) (m, false)).
  Definition cbound (p : mcpc) : Z := match p with MWait n => n | MLook n _ _ => n | MHandle cur _ | MReset cur _ => cur | MFail cur => cur + 1 end.
  Definition creads (p : mcpc) : Z := match p with MReset cur _ => cur + 1 | _ => cbound p end.
  Definition okprod (s : mst) (p : nat) (pc : mppc) : Prop :=
    let tr := m_tr s in let u := length (m_tr s) in
    match pc with
    | MIdle => True
    | MCache cur => -1 <= cur
    | MScan cur todo m => -1 <= cur /\ forall c, (c < ncons)%nat -> c ∉ todo -> kn tr (ptid p) c m u
    | MStore cur m => -1 <= cur /\ forall c, (c < ncons)%nat -> kn tr (ptid p) c m u
    | MCas cur => -1 <= cur /\ forall c, (c < ncons)%nat -> kn tr (ptid p) c (cur + 1 - size) u
    | MFill n => 0 <= n <= m_cursor s /\ (forall c, (c < ncons)%nat -> kn tr (ptid p) c (n - size) u) /\ (forall j t x, ~ evt tr j t (DWrite x (n, true))) /\
                 (forall p', m_prods s !! p' = Some (MFill n) -> p' = p)
    | MFlag n => 0 <= n /\ exists d, evt tr d (ptid p) (DWrite (SData (n mod size)) (n, true))
    end.
  Definition okcons (s : mst) (c : nat) (pc : mcpc) : Prop :=
    let tr := m_tr s in let u := length (m_tr s) in
    0 <= cbound pc /\ m_reads c tr = (fun n => (n, true)) <$> seqZ 0 (creads pc) /\
    (forall e t v, evt tr e t (AWrite (LSeq c) v) -> v < cbound pc) /\
    (forall j t o m, evt tr j t o -> touch c m t o -> m < creads pc) /\
    (forall m, 0 <= m < creads pc -> exists k, evt tr k (ctid c) (DRead (SData (m mod size)) (m, true))) /\
    match pc with
    | MWait _ => True
    | MLook next k avail => next <= k <= avail + 1 /\ forall m, next <= m < k -> sn tr c m u
    | MHandle cur avail => cur <= avail + 1 /\ forall m, cur <= m <= avail -> sn tr c m u
    | MReset cur avail => cur <= avail /\ resets = true /\ forall m, cur <= m <= avail -> sn tr c m u
    | MFail cur => True
    end.
  Record inv (s : mst) : Prop := {
    i_lenp : length (m_prods s) = nprod;
    i_lenc : length (m_cons s) = ncons;
    i_ok : forall j t o, evt (m_tr s) j t o -> okev (m_tr s) j t o;
    i_uniq : forall i j t t' x x' n, evt (m_tr s) i t (DWrite x (n, true)) -> evt (m_tr s) j t' (DWrite x' (n, true)) -> i = j;
    i_bound : forall j t x n, evt (m_tr s) j t (DWrite x (n, true)) -> n <= m_cursor s;
    i_after : forall e j t t' c v m o, evt (m_tr s) e t (AWrite (LSeq c) v) -> evt (m_tr s) j t' o -> touch c m t' o -> (e < j)%nat -> v < m;
    i_last : (m_last s < length (m_tr s))%nat /\ -1 <= m_cursor s /\ forall j t f v, evt (m_tr s) j t (ARmw LCursor f v) -> 0 <= v;
    i_prod : forall p pc, m_prods s !! p = Some pc -> okprod s p pc;
    i_consi : forall c pc, m_cons s !! c = Some pc -> okcons s c pc
  }.
  Lemma kn_mono tr tr' t c w w' u u' : kn tr t c w u -> (u <= u')%nat -> w' <= w -> kn (tr ++ tr') t c w' u'.
  Proof.
    intros [?|(e & r & v & o & ? & Hr & He & Hh & ?)] ? ?; [left; lia|]. right. exists e, r, v, o.
    split_and!; [lia|by apply lookup_app_l_Some|by apply lookup_app_l_Some|by apply hb_app|lia].
  Qed.
  Lemma kn_weak tr t c w w' u : kn tr t c w u -> w' <= w -> kn tr t c w' u.
  Proof. intros [?|(e & r & v & o & ? & Hr & He & Hh & ?)] ?; [left; lia|]. right. exists e, r, v, o. split_and!; try done. lia. Qed.
  Lemma sn_mono tr tr' c n u u' : sn tr c n u -> (u <= u')%nat -> sn (tr ++ tr') c n u'.
  Proof. intros (d & r & o & t & ? & Hr & Hd & Hh) ?. exists d, r, o, t. split_and!; [lia|by apply lookup_app_l_Some|by apply lookup_app_l_Some|by apply hb_app]. Qed.
  Lemma okev_mono tr tr' j t o : okev tr j t o -> okev (tr ++ tr') j t o.
  Proof.
    destruct o as [l v|l f v|l f v|x y|x [n []]]; cbn [okev]; try done.
    - destruct l; try done.
      + intros H c Hc. eapply kn_mono; [by apply H|done|done].
      + intros [H1 H2]. split; [done|]. intros m Hm. destruct (H2 m Hm) as (k & ? & ?). exists k. split; [done|]. by apply lookup_app_l_Some.
      + intros (n & d & ? & ? & ? & ? & ?). exists n, d. split_and!; try done. by apply lookup_app_l_Some.
    - intros (c & m & ? & ? & ? & ? & ? & ?). exists c, m. split_and!; try done. by eapply sn_mono.
    - intros (? & ? & ? & H). split_and!; try done. intros c Hc. eapply kn_mono; [by apply H|done|done].
    - intros (c & ? & ? & ? & ? & ? & ?). exists c. split_and!; try done. by eapply sn_mono.
  Qed.
  Lemma m_value_spec tr l from v : m_value tr l from = Some v -> exists t o, evt tr from t o /\ writes_to o l v.
  Proof. unfold m_value. destruct (tr !! from) as [[t []]|] eqn:E; try done; case_decide; try done; intros [= ->]; subst; eexists _, _; (split; [done|]); [by left|right; eauto]. Qed.
  Lemma m_content_snoc tr e x : m_content (tr ++ [e]) x = match ev_op e with DWrite y v => if decide (y = x) then v else m_content tr x | _ => m_content tr x end.
  Proof. unfold m_content. by rewrite fold_left_app. Qed.
  Lemma m_content_last tr x d t v : evt tr d t (DWrite x v) -> (forall j t' v', evt tr j t' (DWrite x v') -> (j <= d)%nat) -> m_content tr x = v.
  Proof.
    induction tr as [|e tr IH] using rev_ind; intros Hd Hlast; [done|].
    rewrite m_content_snoc. apply m_snoc in Hd as [Hd|[-> [= <-]]].
    - assert (d < length tr)%nat by (by eapply lookup_lt_Some).
      destruct (ev_op e) eqn:E; try (apply IH; [done|intros j t' v' ?; eapply Hlast; by apply lookup_app_l_Some]).
      case_decide; [|apply IH; [done|intros j t' v' ?; eapply Hlast; by apply lookup_app_l_Some]].
      subst. assert (length tr <= d)%nat; [|lia]. destruct e as [te oe]; cbn in E; subst. eapply (Hlast _ te). by apply list_lookup_middle.
    - cbn. by rewrite decide_True.
  Qed.
  Lemma mod_win n m : n mod size = m mod size -> n < m -> n <= m - size.
  Proof.
    intros H ?. pose proof (Z_div_mod_eq_full n size). pose proof (Z_div_mod_eq_full m size).
    assert (n / size < m / size) by nia. nia.
  Qed.
  Lemma m_reads_snoc c tr e : m_reads c (tr ++ [e]) = m_reads c tr ++ match e with Ev t (DRead (SData _) v) => if decide (t = ctid c) then [v] else [] | _ => [] end.
  Proof. unfold m_reads. rewrite omap_app. f_equal. cbn. destruct e as [t [| | |[]|]]; try done. by case_decide. Qed.
  Lemma hb_earlier s i j : inv s -> hb (m_tr s) i j -> (i < j)%nat.
  Proof.
    intros I. apply hb_lt. intros a b ([ta oa] & [tb ob] & Ha & Hb & l & v & _ & [[v' E]|[v' E]]); cbn in E; subst ob; pose proof (i_ok _ I _ _ _ Hb) as H; cbn in H; [done|by destruct H].
  Qed.
  Notation ext s oe := (m_tr s ++ match oe with Some e => [e] | None => [] end).
  Lemma ext_lookup (tr : list mev) oe i x : (tr ++ match oe with Some e => [e] | None => [] end) !! i = Some x -> tr !! i = Some x \/ (i = length tr /\ oe = Some x).
  Proof. destruct oe as [e|]; [|rewrite app_nil_r; by left]. intros [H|[? H]]%m_snoc; [by left|right; subst; done]. Qed.
  Lemma old_okprod s s' oe p pc : inv s -> m_prods s !! p = Some pc -> m_tr s' = ext s oe -> m_cursor s <= m_cursor s' ->
    (forall n t x, pc = MFill n -> oe <> Some (Ev t (DWrite x (n, true)))) -> (forall n p', pc = MFill n -> m_prods s' !! p' = Some (MFill n) -> m_prods s !! p' = Some (MFill n)) -> okprod s' p pc.
  Proof.
    intros I Hp Htr Hcur Hoe Hpr. pose proof (i_prod _ I _ _ Hp) as H.
    assert (Hlen : (length (m_tr s) <= length (m_tr s'))%nat) by (rewrite Htr, app_length; lia).
    destruct pc as [|cur|cur todo m|cur m|cur|n|n]; cbn [okprod] in *; try done.
    - destruct H as [? H]. split; [done|]. intros c Hc Hin. rewrite Htr at 1. eapply kn_mono; [by apply H|done|done].
    - destruct H as [? H]. split; [done|]. intros c Hc. rewrite Htr at 1. eapply kn_mono; [by apply H|done|done].
    - destruct H as [? H]. split; [done|]. intros c Hc. rewrite Htr at 1. eapply kn_mono; [by apply H|done|done].
    - destruct H as (? & H & Hw & Hu). split_and!; [lia|lia| | |].
      + intros c Hc. rewrite Htr at 1. eapply kn_mono; [by apply H|done|done].
      + intros j t x. rewrite Htr. intros [Hj|[_ Hj]]%ext_lookup; [by eapply Hw|by eapply Hoe].
      + intros p' Hp'. apply Hu. by eapply Hpr.
    - destruct H as (? & d & H). split; [done|]. exists d. rewrite Htr. by apply lookup_app_l_Some.
  Qed.
  Lemma old_okcons s s' oe c pc : inv s -> m_cons s !! c = Some pc -> m_tr s' = ext s oe ->
    (forall t o, oe = Some (Ev t o) -> t <> ctid c /\ forall v, o <> AWrite (LSeq c) v) -> okcons s' c pc.
  Proof.
    intros I Hp Htr Hoe. destruct (i_consi _ I _ _ Hp) as (H1 & H2 & H3 & H4 & H5 & H6).
    assert (Hlen : (length (m_tr s) <= length (m_tr s'))%nat) by (rewrite Htr, app_length; lia).
    split_and!; [done|..].
    - rewrite Htr. destruct oe as [[t o]|]; [|by rewrite app_nil_r]. rewrite m_reads_snoc, H2. destruct (Hoe _ _ eq_refl) as [Ht _].
      destruct o as [| | |[]|]; try by rewrite app_nil_r. rewrite decide_False by done. by rewrite app_nil_r.
    - intros e t v. rewrite Htr. intros [He|[_ ->]]%ext_lookup; [by eapply H3|]. destruct (Hoe _ _ eq_refl) as [_ Ht]. by destruct (Ht v).
    - intros j t o m. rewrite Htr. intros [He|[_ ->]]%ext_lookup ?; [by eapply H4|]. destruct (Hoe _ _ eq_refl) as [Ht _]. by destruct H as [? _].
    - intros m Hm. destruct (H5 m Hm) as [k ?]. exists k. rewrite Htr. by apply lookup_app_l_Some.
    - destruct pc as [|next k avail|cur avail|cur avail|]; try done.
      + destruct H6 as [? H6]. split; [done|]. intros m Hm. rewrite Htr at 1. eapply sn_mono; [by apply H6|done].
      + destruct H6 as [? H6]. split; [done|]. intros m Hm. rewrite Htr at 1. eapply sn_mono; [by apply H6|done].
      + destruct H6 as (? & ? & H6). split_and!; [done|done|]. intros m Hm. rewrite Htr at 1. eapply sn_mono; [by apply H6|done].
  Qed.
  Lemma prod_step s p pc pc' oe : inv s -> m_prods s !! p = Some pc ->
    (forall t o, oe = Some (Ev t o) -> t = ptid p /\ okev (ext s oe) (length (m_tr s)) t o /\ (forall c v, o <> AWrite (LSeq c) v) /\ (forall l f v, o <> ARmw l f v) /\
       (forall x n b, o = DWrite x (n, b) -> b = true /\ pc = MFill n) /\ forall x y, o <> DRead x y) ->
    (forall n, pc' <> MFill n) -> okprod (m_emit s oe (<[p := pc']> (m_prods s)) (m_cons s)) p pc' ->
    inv (m_emit s oe (<[p := pc']> (m_prods s)) (m_cons s)).
  Proof.
    intros I Hp Hoe Hpc' Hok. assert (Hplt : (p < length (m_prods s))%nat) by (by eapply lookup_lt_Some).
    pose proof (i_last _ I) as (Hl1 & Hl2 & Hl3).
    split; unfold m_emit; cbn [m_tr m_prods m_cons m_last m_cursor].
    - rewrite insert_length. apply I.
    - apply I.
    - intros j t o [H|[-> H]]%ext_lookup; [by apply okev_mono, I|]. by apply Hoe in H as (_ & ? & _).
    - intros i j t t' x x' n [H1|[-> H1]]%ext_lookup [H2|[-> H2]]%ext_lookup; [by eapply i_uniq| | |done].
      + apply Hoe in H2 as (_ & _ & _ & _ & Hw & _). destruct (Hw _ _ _ eq_refl) as [_ ->]. destruct (i_prod _ I _ _ Hp) as (_ & _ & Hno & _). by apply Hno in H1.
      + apply Hoe in H1 as (_ & _ & _ & _ & Hw & _). destruct (Hw _ _ _ eq_refl) as [_ ->]. destruct (i_prod _ I _ _ Hp) as (_ & _ & Hno & _). by apply Hno in H2.
    - intros j t x n [H|[-> H]]%ext_lookup; [by eapply i_bound|]. apply Hoe in H as (_ & _ & _ & _ & Hw & _). destruct (Hw _ _ _ eq_refl) as [_ ->]. destruct (i_prod _ I _ _ Hp) as (? & _). lia.
    - intros e j t t' c v m o [H1|[-> H1]]%ext_lookup [H2|[-> H2]]%ext_lookup Ht Hlt.
      + by eapply i_after.
      + apply Hoe in H2 as (-> & _). destruct Ht as [Ht _]. unfold ptid, ctid in Ht. lia.
      + apply lookup_lt_Some in H2. lia.
      + lia.
    - split_and!; [rewrite app_length; lia|done|]. intros j t f v [H|[-> H]]%ext_lookup; [by eapply Hl3|]. apply Hoe in H as (_ & _ & _ & Hr & _). by destruct (Hr LCursor f v).
    - intros p' pc0 [(<- & <- & _)|[Hne H]]%list_lookup_insert_Some; [done|]. eapply (old_okprod s _ oe); try done.
      + intros n t x -> ->. destruct (Hoe _ _ eq_refl) as (_ & _ & _ & _ & Hw & _). destruct (Hw _ _ _ eq_refl) as [_ ->]. destruct (i_prod _ I _ _ H) as (_ & _ & _ & Hu). by apply Hne, Hu.
      + intros n p'' -> [(_ & E & _)|[_ ?]]%list_lookup_insert_Some; [by destruct (Hpc' n)|done].
    - intros c pc0 H. eapply (old_okcons s _ oe); try done. intros t o ->. destruct (Hoe _ _ eq_refl) as (-> & _ & Hs & _). split; [unfold ptid, ctid; lia|done].
  Qed.
  Lemma cas_step s p cur : inv s -> m_prods s !! p = Some (MCas cur) -> m_cursor s = cur ->
    inv (Mst (m_tr s ++ [Ev (ptid p) (ARmw LCursor (m_last s) (cur + 1))]) (length (m_tr s)) (cur + 1) (<[p := MFill (cur + 1)]> (m_prods s)) (m_cons s)).
  Proof.
    intros I Hp Hcur. assert (Hplt : (p < length (m_prods s))%nat) by (by eapply lookup_lt_Some).
    pose proof (i_last _ I) as (Hl1 & Hl2 & Hl3). destruct (i_prod _ I _ _ Hp) as [_ Hk].
    assert (Hnf : forall p', m_prods s !! p' <> Some (MFill (cur + 1))). { intros p' H. destruct (i_prod _ I _ _ H) as (? & _). lia. }
    split; cbn [m_tr m_prods m_cons m_last m_cursor].
    - rewrite insert_length. apply I.
    - apply I.
    - intros j t o [H|[-> [= -> ->]]]%m_snoc; [by apply okev_mono, I|]. cbn. done.
    - intros i j t t' x x' n [H1|[-> [=]]]%m_snoc [H2|[-> [=]]]%m_snoc. by eapply i_uniq.
    - intros j t x n [H|[-> [=]]]%m_snoc. eapply i_bound in H; [|done]. lia.
    - intros e j t t' c v m o [H1|[-> [=]]]%m_snoc [H2|[-> [= -> ->]]]%m_snoc Ht Hlt; [by eapply i_after|]. destruct Ht as [Ht _]. unfold ptid, ctid in Ht. lia.
    - split_and!; [rewrite app_length; cbn; lia|lia|]. intros j t f v [H|[-> [= -> -> ->]]]%m_snoc; [by eapply Hl3|]. lia.
    - intros p' pc0 [(<- & <- & _)|[Hne H]]%list_lookup_insert_Some.
      + split_and!; [cbn; lia|cbn; lia| | |].
        * intros c Hc. cbn [m_tr]. rewrite app_length. eapply kn_mono; [by apply Hk|lia|lia].
        * intros j t x [H|[_ [=]]]%m_snoc. eapply i_bound in H; [|done]. lia.
        * intros p' [(-> & _)|[_ H]]%list_lookup_insert_Some; [done|]. by apply Hnf in H.
      + eapply (old_okprod s _ (Some _)); try done; [cbn; lia|].
        intros n p'' -> [(<- & E & _)|[_ ?]]%list_lookup_insert_Some; [|done]. injection E as <-. by apply Hnf in H.
    - intros c pc0 H. eapply (old_okcons s _ (Some _)); try done. intros t o [= <- <-]. split; [unfold ptid, ctid; lia|done].
  Qed.
  Lemma cons_step s c pc pc' oe : inv s -> m_cons s !! c = Some pc ->
    (forall t o, oe = Some (Ev t o) -> t = ctid c /\ okev (ext s oe) (length (m_tr s)) t o /\ (forall c' v, o = AWrite (LSeq c') v -> c' = c) /\ (forall l f v, o <> ARmw l f v) /\
       (forall x n, o <> DWrite x (n, true)) /\ forall m, touch c m t o -> m = cbound pc) ->
    okcons (m_emit s oe (m_prods s) (<[c := pc']> (m_cons s))) c pc' ->
    inv (m_emit s oe (m_prods s) (<[c := pc']> (m_cons s))).
  Proof.
    intros I Hp Hoe Hok. assert (Hclt : (c < length (m_cons s))%nat) by (by eapply lookup_lt_Some).
    pose proof (i_last _ I) as (Hl1 & Hl2 & Hl3).
    split; unfold m_emit; cbn [m_tr m_prods m_cons m_last m_cursor].
    - apply I.
    - rewrite insert_length. apply I.
    - intros j t o [H|[-> H]]%ext_lookup; [by apply okev_mono, I|]. by apply Hoe in H as (_ & ? & _).
    - intros i j t t' x x' n [H1|[-> H1]]%ext_lookup [H2|[-> H2]]%ext_lookup; [by eapply i_uniq| | |done].
      + apply Hoe in H2 as (_ & _ & _ & _ & Hw & _). by destruct (Hw x' n).
      + apply Hoe in H1 as (_ & _ & _ & _ & Hw & _). by destruct (Hw x n).
    - intros j t x n [H|[-> H]]%ext_lookup; [by eapply i_bound|]. apply Hoe in H as (_ & _ & _ & _ & Hw & _). by destruct (Hw x n).
    - intros e j t t' c' v m o [H1|[-> H1]]%ext_lookup [H2|[-> H2]]%ext_lookup Ht Hlt.
      + by eapply i_after.
      + apply Hoe in H2 as (-> & _ & _ & _ & _ & Hm). assert (c' = c) as -> by (destruct Ht as [Ht _]; unfold ctid in Ht; lia).
        rewrite (Hm m Ht). destruct (i_consi _ I _ _ Hp) as (_ & _ & Hs & _). by eapply Hs.
      + apply lookup_lt_Some in H2. lia.
      + lia.
    - split_and!; [rewrite app_length; lia|done|]. intros j t f v [H|[-> H]]%ext_lookup; [by eapply Hl3|]. apply Hoe in H as (_ & _ & _ & Hr & _). by destruct (Hr LCursor f v).
    - intros p pc0 H. eapply (old_okprod s _ oe); try done. intros n t x -> ->. destruct (Hoe _ _ eq_refl) as (_ & _ & _ & _ & Hw & _). by destruct (Hw x n).
    - intros c' pc0 [(<- & <- & _)|[Hne H]]%list_lookup_insert_Some; [done|]. eapply (old_okcons s _ oe); try done.
      intros t o ->. destruct (Hoe _ _ eq_refl) as (-> & _ & Hs & _). split; [unfold ctid; lia|]. intros v ->. by apply Hne, eq_sym, (Hs c' v).
  Qed.
  (** ** What the trace says about the accesses to one slot. *)
  Lemma po_ev s i j t o o' : (i < j)%nat -> evt (m_tr s) i t o -> evt (m_tr s) j t o' -> hb (m_tr s) i j.
  Proof. intros. by eapply po_intro. Qed.
  Lemma touched_after s c m j t o : inv s -> evt (m_tr s) j t o -> touch c m t o -> exists d t', evt (m_tr s) d t' (DWrite (SData (m mod size)) (m, true)) /\ hb (m_tr s) d j.
  Proof.
    intros I Hj [-> Ho]. assert (Hsn : sn (m_tr s) c m j).
    { pose proof (i_ok _ I _ _ _ Hj) as H. destruct Ho as [-> | ->]; cbn in H.
      - destruct H as (c' & m' & Hc & _ & _ & [= <-] & _ & H). assert (c' = c) as -> by (unfold ctid in Hc; lia). done.
      - destruct H as (c' & Hc & _ & _ & _ & _ & H). assert (c' = c) as -> by (unfold ctid in Hc; lia). done. }
    destruct Hsn as (d & r & o' & t' & Hrj & Hr & Hd & Hh). exists d, t'. split; [done|]. eapply hb_trans; [done|]. by eapply po_ev.
  Qed.
  (** A write of event n comes after all touches, by consumer c, of events at least a ring older; and each of these was read. *)
  Lemma write_knows s c n m j t x : inv s -> (c < ncons)%nat -> evt (m_tr s) j t (DWrite x (n, true)) -> 0 <= m <= n - size ->
    exists e v, evt (m_tr s) e (ctid c) (AWrite (LSeq c) v) /\ m <= v /\ hb (m_tr s) e j /\ exists k, (k < e)%nat /\ evt (m_tr s) k (ctid c) (DRead (SData (m mod size)) (m, true)).
  Proof.
    intros I Hc Hj Hm. pose proof (i_ok _ I _ _ _ Hj) as (_ & _ & _ & Hk). destruct (Hk c Hc) as [?|(e & r & v & o & Hr & Hro & He & Hh & ?)]; [lia|].
    exists e, v. split_and!; [done|lia| |].
    - eapply hb_trans; [done|]. by eapply po_ev.
    - pose proof (i_ok _ I _ _ _ He) as [_ Hx]. apply Hx. lia.
  Qed.
  Lemma writes_ordered s n m i j t t' x x' : inv s -> evt (m_tr s) i t (DWrite x (n, true)) -> evt (m_tr s) j t' (DWrite x' (m, true)) -> 0 <= n <= m - size -> hb (m_tr s) i j.
  Proof.
    intros I Hi Hj Hnm. destruct (write_knows s 0 m n j t' x' I Hcons Hj Hnm) as (e & v & He & _ & Hej & k & Hk & Hkr).
    destruct (touched_after s 0 n k _ _ I Hkr) as (d & t'' & Hd & Hdk); [by split; [|left]|].
    assert (d = i) as -> by (by eapply i_uniq). eapply hb_trans; [done|]. eapply hb_trans; [|done]. by eapply po_ev.
  Qed.
  Lemma not_overwritten s c n m i j t t' x o : inv s -> (c < ncons)%nat -> evt (m_tr s) i t (DWrite x (n, true)) -> evt (m_tr s) j t' o -> touch c m t' o -> 0 <= m <= n - size -> (j < i)%nat /\ hb (m_tr s) j i.
  Proof.
    intros I Hc Hi Hj Ht Hm. destruct (write_knows s c n m i t x I Hc Hi Hm) as (e & v & He & Hv & Hei & _).
    assert (Hje : (j < e)%nat). { destruct (decide (j < e)%nat); [done|exfalso]. destruct Ht as [-> Ho]. assert (j <> e) by (intros ->; rewrite Hj in He; injection He as ->; by destruct Ho).
      assert (v < m); [|lia]. eapply (i_after _ I e j); [done|done|by split|lia]. }
    pose proof (hb_earlier _ _ _ I Hei). split; [lia|]. destruct Ht as [-> _]. eapply hb_trans; [|done]. by eapply po_ev.
  Qed.
  Lemma touch_of s j t x v : inv s -> (evt (m_tr s) j t (DRead x v) -> exists c m, (c < ncons)%nat /\ 0 <= m /\ touch c m t (DRead x v) /\ x = SData (m mod size)).
  Proof. intros I Hj. pose proof (i_ok _ I _ _ _ Hj) as (c & m & -> & ? & -> & -> & ? & _). exists c, m. split_and!; try done. split; [done|by left]. Qed.
  Lemma race_free s i j : inv s -> ~ race (m_tr s) i j.
  Proof.
    intros I (Hij & ([t o] & [t' o'] & Hi & Hj & Hcf) & Hnhb). apply Hnhb. clear Hnhb. cbn [ev_op] in Hcf.
    (* classify the two accesses *)
    assert (Hcl : forall k t o, evt (m_tr s) k t o -> (exists x v, o = DRead x v \/ o = DWrite x v) ->
              (exists n, o = DWrite (SData (n mod size)) (n, true) /\ 0 <= n) \/ exists c m, (c < ncons)%nat /\ 0 <= m /\ touch c m t o).
    { intros k t0 o0 Hk (x & v & [-> | ->]).
      - destruct (touch_of s k t0 x v I Hk) as (c & m & ? & ? & ? & _). right. eauto.
      - destruct v as [n []]; pose proof (i_ok _ I _ _ _ Hk) as H; cbn in H.
        + destruct H as (_ & -> & ? & _). left. eauto.
        + destruct H as (c & -> & ? & -> & ? & _). right. exists c, n. split_and!; try done. split; [done|by right]. }
    assert (Ho : exists x v, o = DRead x v \/ o = DWrite x v) by (destruct o; try done; eauto).
    assert (Ho' : exists x v, o' = DRead x v \/ o' = DWrite x v) by (destruct o, o'; try done; eauto).
    destruct (Hcl _ _ _ Hi Ho) as [(n & -> & Hn)|(c & m & Hc & Hm & Ht)]; destruct (Hcl _ _ _ Hj Ho') as [(n' & -> & Hn')|(c' & m' & Hc' & Hm' & Ht')].
    - cbn in Hcf. injection Hcf as Hcf. destruct (Z.lt_trichotomy n n') as [?|[<-|?]].
      + eapply (writes_ordered s n n'); [done|done|done|]. split; [done|by apply mod_win].
      + assert (i = j) by (by eapply i_uniq). lia.
      + assert (Hx : hb (m_tr s) j i); [|apply (hb_earlier _ _ _ I) in Hx; lia]. eapply (writes_ordered s n' n); [done|done|done|]. split; [done|by apply mod_win].
    - assert (Hs : n mod size = m' mod size) by (destruct Ht' as [_ [-> | ->]]; cbn in Hcf; by injection Hcf). destruct (touched_after s c' m' j _ _ I Hj Ht') as (d & td & Hd & Hdj).
      destruct (Z.lt_trichotomy n m') as [?|[<-|?]].
      + eapply hb_trans; [|done]. eapply (writes_ordered s n m'); [done|done|done|]. split; [done|by apply mod_win].
      + assert (i = d) as -> by (by eapply i_uniq). done.
      + destruct (not_overwritten s c' n m' i j _ _ _ _ I Hc' Hi Hj Ht'); [|lia]. split; [done|by apply mod_win].
    - assert (Hs : m mod size = n' mod size) by (destruct Ht as [_ [-> | ->]]; cbn in Hcf; by injection Hcf). destruct (touched_after s c m i _ _ I Hi Ht) as (d & td & Hd & Hdi). pose proof (hb_earlier _ _ _ I Hdi).
      destruct (Z.lt_trichotomy m n') as [?|[<-|?]].
      + destruct (not_overwritten s c n' m j i _ _ _ _ I Hc Hj Hi Ht); [|done]. split; [done|by apply mod_win].
      + assert (j = d) by (by eapply i_uniq). lia.
      + assert (H' : hb (m_tr s) j d); [|apply (hb_earlier _ _ _ I) in H'; lia]. eapply (writes_ordered s n' m); [done|done|done|]. split; [done|by apply mod_win].
    - assert (Hr : resets = true).
      { destruct Ht as [-> [-> | ->]], Ht' as [-> [-> | ->]]; try done; [apply i_ok in Hj|apply i_ok in Hi|apply i_ok in Hi]; try done; naive_solver. }
      pose proof (Hreset Hr). assert (c = c') as <- by lia. destruct Ht as [-> _], Ht' as [-> _]. by eapply po_ev.
  Qed.
  Lemma inv_new : inv (m_new nprod ncons).
  Proof.
    assert (Hev : forall i t o, evt (m_tr (m_new nprod ncons)) i t o -> t = 0%nat /\ (o = AWrite LCursor (-1) \/ o = AWrite LCache (-1) \/ exists c, o = AWrite (LSeq c) (-1))).
    { unfold m_new; cbn [m_tr]. intros [|[|i]] t o; [by intros [= <- <-]; auto|by intros [= <- <-]; auto|]. rewrite !lookup_cons, list_lookup_fmap. intros (c & Hc & [= -> ->])%fmap_Some. eauto. }
    assert (Hnd : forall i t o, evt (m_tr (m_new nprod ncons)) i t o -> (forall x v, o <> DWrite x v) /\ (forall x v, o <> DRead x v) /\ forall l f v, o <> ARmw l f v).
    { intros i t o [_ [->|[->|[c ->]]]]%Hev; done. }
    split; cbn [m_prods m_cons m_last m_cursor m_new].
    - by rewrite replicate_length.
    - by rewrite replicate_length.
    - intros j t o [-> [->|[->|[c ->]]]]%Hev; cbn; [done|intros; left; lia|split; lia].
    - intros i j t t' x x' n (H & _)%Hnd. by destruct (H x (n, true)).
    - intros j t x n (H & _)%Hnd. by destruct (H x (n, true)).
    - intros e j t t' c v m o _ (H1 & H2 & _)%Hnd [_ [-> | ->]] _; [by destruct (H2 (SData (m mod size)) (m, true))|by destruct (H1 (SData (m mod size)) (m, false))].
    - split_and!; [cbn; lia|lia|]. intros j t f v (_ & _ & H)%Hnd. by destruct (H LCursor f v).
    - intros p pc [-> _]%lookup_replicate. done.
    - intros c pc [-> _]%lookup_replicate. split_and!; cbn [cbound creads]; [done| | | | |done].
      + cbn [m_tr m_new]. unfold m_reads. cbn [omap list_omap]. induction (seq 0 ncons) as [|? l IH]; [done|]. cbn. done.
      + intros e t v [-> [H|[H|[c' H]]]]%Hev; try done. injection H as -> ->. lia.
      + intros j t o m (H1 & H2 & _)%Hnd [_ [-> | ->]]; [by destruct (H2 (SData (m mod size)) (m, true))|by destruct (H1 (SData (m mod size)) (m, false))].
      + lia.
  Qed.
  Lemma read_ok s p from v l o : evt (m_tr s) from p o -> writes_to o l v -> forall t, hb (m_tr s ++ [Ev t (ARead l from v)]) from (length (m_tr s)).
  Proof.
    intros Hf Hw t. apply hb_sw. exists (Ev p o), (Ev t (ARead l from v)). split_and!; [by apply lookup_app_l_Some|by apply list_lookup_middle|].
    exists l, v. split; [done|left; eauto].
  Qed.
  Lemma content_ok s c cur avail : inv s -> m_cons s !! c = Some (MHandle cur avail) -> cur <= avail -> m_content (m_tr s) (SData (cur mod size)) = (cur, true).
  Proof.
    intros I Hp Hle. destruct (i_consi _ I _ _ Hp) as (Hb & _ & Hseq & Htou & _ & _ & Hsn). cbn [cbound creads] in *.
    assert (Hc : (c < ncons)%nat) by (rewrite <- (i_lenc _ I); by eapply lookup_lt_Some).
    destruct (Hsn cur) as (d & r & o & t & _ & _ & Hd & _); [lia|].
    eapply m_content_last; [done|]. intros j t' v' Hj. destruct (decide (j <= d)%nat) as [|Hjd]; [done|exfalso].
    destruct v' as [n []].
    - pose proof (i_ok _ I _ _ _ Hj) as (_ & [= Hmod] & Hn & _). destruct (Z.lt_trichotomy n cur) as [Hlt|[->|Hgt]].
      + assert (Hx : hb (m_tr s) j d); [|apply (hb_earlier _ _ _ I) in Hx; lia]. eapply (writes_ordered s n cur); [done|done|done|]. split; [done|by apply mod_win].
      + assert (j = d) by (by eapply i_uniq). lia.
      + destruct (write_knows s c n cur j _ _ I Hc Hj) as (e & v & He & Hv & _); [split; [done|by apply mod_win]|]. apply Hseq in He. lia.
    - pose proof (i_ok _ I _ _ _ Hj) as (c' & -> & Hc' & [= Hmod] & Hn & Hr & _). pose proof (Hreset Hr). assert (c' = c) as -> by lia.
      assert (Ht : touch c n (ctid c) (DWrite (SData (cur mod size)) (n, false))) by (split; [done|right; by rewrite Hmod]).
      pose proof (Htou _ _ _ _ Hj Ht) as Hlt.
      destruct (not_overwritten s c cur n d j _ _ _ _ I Hc Hd Hj Ht); [|lia]. split; [done|by apply mod_win].
  Qed.
  Ltac one := intros t o [= <- <-].
  Ltac easy_ev := split_and!; try done; try (intros; discriminate).
  Lemma step_prod s p from flag pc : inv s -> m_prods s !! p = Some pc -> inv (m_pstep g s p from flag pc).
  Proof.
    intros I Hp. pose proof (i_prod _ I _ _ Hp) as Hok. pose proof (i_last _ I) as (Hl1 & Hl2 & Hl3).
    assert (Hg : m_size g = size) by done. assert (Hsy : m_sync g = true) by done.
    assert (Hkn : forall c w w' oe, kn (m_tr s) (ptid p) c w (length (m_tr s)) -> w' <= w -> kn (ext s oe) (ptid p) c w' (length (ext s oe))).
    { intros c w w' oe ? ?. eapply kn_mono; [done|rewrite app_length; lia|done]. }
    destruct pc as [|cur|cur [|c todo] m|cur m|cur|n|n]; cbn [m_pstep]; rewrite ?Hg, ?Hsy.
    - destruct (m_value _ _ _) as [v|] eqn:Ev; [|done]. apply m_value_spec in Ev as (t0 & o0 & Hf & Hw). eapply prod_step; [done|done| |done|].
      + one. easy_ev. cbn. by eapply lookup_lt_Some.
      + cbn. destruct Hw as [->|[f ->]]; [apply i_ok in Hf; [|done]; cbn in Hf; lia|apply Hl3 in Hf; lia].
    - destruct (m_value _ _ _) as [v|] eqn:Ev; [|done]. apply m_value_spec in Ev as (t0 & o0 & Hf & Hw).
      eapply prod_step; [done|done| |by case_match|].
      + one. easy_ev. cbn. by eapply lookup_lt_Some.
      + cbn [okprod] in Hok. destruct ((v <? _) || _) eqn:E; cbn [okprod].
        * split; [done|]. intros c Hc []. apply elem_of_seq. rewrite (i_lenc _ I). lia.
        * split; [done|]. intros c Hc. unfold m_emit; cbn [m_tr]. rewrite app_length. cbn [length].
          assert (o0 = AWrite LCache v) as ->. { destruct Hw as [->|[f ->]]; [done|]. by apply (i_ok _ I) in Hf as [_ ?]. }
          pose proof (i_ok _ I _ _ _ Hf c Hc) as [?|(e & r & v' & o & Hrf & Hr & He & Hh & ?)]; [left; lia|].
          right. exists e, (length (m_tr s)), v', (ARead LCache from v). split_and!; [lia|by apply list_lookup_middle|by apply lookup_app_l_Some| |lia].
          eapply hb_trans; [by apply hb_app|]. eapply hb_trans; [|by eapply read_ok; [|left]]. eapply hb_app. eapply po_ev; [|done|done]. lia.
    - cbn [okprod] in Hok. destruct Hok as [Hcur Hok]. destruct (flag && _); (eapply prod_step; [done|done|by intros|done|]); [done|].
      cbn [okprod]. split; [done|]. intros c Hc. apply (Hkn c m m None); [|done]. apply Hok; [done|set_solver].
    - cbn [okprod] in Hok. destruct Hok as [Hcur Hok]. destruct (m_value _ _ _) as [v|] eqn:Ev; [|done]. apply m_value_spec in Ev as (t0 & o0 & Hf & Hw).
      eapply prod_step; [done|done| |done|].
      + one. easy_ev. cbn. by eapply lookup_lt_Some.
      + cbn [okprod]. split; [done|]. intros c' Hc' Hin. unfold m_emit; cbn [m_tr]. destruct (decide (c' = c)) as [->|Hne].
        * destruct (decide (v <= -1)); [left; case_match; lia|]. assert (o0 = AWrite (LSeq c) v) as ->. { destruct Hw as [->|[f ->]]; [done|]. by apply (i_ok _ I) in Hf as [_ ?]. }
          pose proof (i_ok _ I _ _ _ Hf) as [Ht _]. rewrite (Ht ltac:(lia)) in Hf.
          right. exists from, (length (m_tr s)), v, (ARead (LSeq c) from v). rewrite app_length. cbn [length].
          split_and!; [lia|by apply list_lookup_middle|by apply lookup_app_l_Some| |case_match; lia]. by eapply read_ok; [|left].
        * apply (Hkn c' m _ (Some _)); [apply Hok; [done|set_solver]|case_match; lia].
    - cbn [okprod] in Hok. destruct Hok as [Hcur Hok]. eapply prod_step; [done|done| |by repeat case_match|].
      + one. easy_ev. cbn. intros c Hc. eapply kn_mono; [by apply Hok|done|done].
      + destruct flag; [done|]. destruct (Z.ltb_spec m (cur + 1 - size)); [done|]. cbn [okprod]. split; [done|]. intros c Hc. eapply (Hkn c m _ (Some _)); [by apply Hok|lia].
    - destruct (flag && (m_cursor s =? cur)) eqn:E.
      + apply cas_step; [done|done|lia].
      + eapply prod_step; [done|done|by intros|done|done].
    - cbn [okprod] in Hok. destruct Hok as (Hn & Hk & Hno & Hu). eapply prod_step; [done|done| |done|].
      + one. split_and!; try done.
        * cbn. split_and!; [eauto|done|lia|]. intros c Hc. eapply kn_mono; [by apply Hk|done|done].
        * intros x n' b [= _ <- <-]. done.
      + cbn [okprod]. split; [lia|]. exists (length (m_tr s)). unfold m_emit; cbn [m_tr]. by apply list_lookup_middle.
    - cbn [okprod] in Hok. destruct Hok as (Hn & d & Hd). eapply prod_step; [done|done| |done|done].
      one. easy_ev. cbn. exists n, d. split_and!; try done; [by eapply lookup_lt_Some|by apply lookup_app_l_Some].
  Qed.
  (** For a step of consumer c that neither touches a slot nor stores its sequence. *)
  Lemma okcons_read s c pc pc' oe : inv s -> m_cons s !! c = Some pc -> cbound pc' = cbound pc -> creads pc' = creads pc ->
    (forall t o, oe = Some (Ev t o) -> (forall l v, o <> AWrite l v) /\ (forall x v, o <> DRead x v) /\ forall x v, o <> DWrite x v) ->
    match pc' with
    | MWait _ => True
    | MLook next k avail => next <= k <= avail + 1 /\ forall m, next <= m < k -> sn (ext s oe) c m (length (ext s oe))
    | MHandle cur avail => cur <= avail + 1 /\ forall m, cur <= m <= avail -> sn (ext s oe) c m (length (ext s oe))
    | _ => False
    end -> okcons (m_emit s oe (m_prods s) (<[c := pc']> (m_cons s))) c pc'.
  Proof.
    intros I Hp Eb Er Hoe Hpc'. destruct (i_consi _ I _ _ Hp) as (H1 & H2 & H3 & H4 & H5 & _).
    split_and!; rewrite ?Eb, ?Er; unfold m_emit; cbn [m_tr]; [done|..].
    - destruct oe as [[t o]|]; [|by rewrite app_nil_r]. rewrite m_reads_snoc, H2. destruct (Hoe _ _ eq_refl) as (_ & Hr & _).
      destruct o as [| | |x y|]; try by rewrite app_nil_r. by destruct (Hr x y).
    - intros e t v [He|[_ ->]]%ext_lookup; [by eapply H3|]. destruct (Hoe _ _ eq_refl) as (Hr & _). by destruct (Hr (LSeq c) v).
    - intros j t o m [He|[_ ->]]%ext_lookup Ht; [by eapply H4|]. destruct (Hoe _ _ eq_refl) as (_ & Hr & Hw). destruct Ht as [_ [-> | ->]]; [by destruct (Hr (SData (m mod size)) (m, true))|by destruct (Hw (SData (m mod size)) (m, false))].
    - intros m Hm. destruct (H5 m Hm) as [k ?]. exists k. by apply lookup_app_l_Some.
    - by destruct pc'.
  Qed.
  Lemma okcons_store s c pc v : inv s -> m_cons s !! c = Some pc -> cbound pc = v + 1 -> creads pc = v + 1 ->
    okcons (m_emit s (Some (Ev (ctid c) (AWrite (LSeq c) v))) (m_prods s) (<[c := MWait (v + 1)]> (m_cons s))) c (MWait (v + 1)).
  Proof.
    intros I Hp Eb Er. destruct (i_consi _ I _ _ Hp) as (H1 & H2 & H3 & H4 & H5 & _).
    split_and!; cbn [cbound creads]; rewrite <- ?Eb; unfold m_emit; cbn [m_tr]; [done|..].
    - rewrite m_reads_snoc, H2, app_nil_r. by rewrite Er, Eb.
    - intros e t v' [He|[_ [= -> ->]]]%m_snoc; [by eapply H3|lia].
    - intros j t o m [He|[_ [= -> ->]]]%m_snoc Ht; [|by destruct Ht as [_ [?|?]]]. rewrite Eb, <- Er. by eapply H4.
    - intros m Hm. destruct (H5 m) as [k ?]; [lia|]. exists k. by apply lookup_app_l_Some.
    - done.
  Qed.
  Lemma step_cons s c from throws pc : inv s -> m_cons s !! c = Some pc -> inv (m_cstep g s c from throws pc).
  Proof.
    intros I Hp. pose proof (i_consi _ I _ _ Hp) as (H1 & H2 & H3 & H4 & H5 & H6).
    assert (Hg : m_size g = size) by done. assert (Hsy : m_sync g = true) by done. assert (Hre : m_resets g = resets) by done.
    assert (Hc : (c < ncons)%nat) by (rewrite <- (i_lenc _ I); by eapply lookup_lt_Some).
    destruct pc as [next|next k avail|cur avail|cur avail|cur]; cbn [m_cstep cbound creads] in *; rewrite ?Hg, ?Hsy, ?Hre.
    - destruct (m_value _ _ _) as [v|] eqn:Ev; [|done]. apply m_value_spec in Ev as (t0 & o0 & Hf & Hw). eapply cons_step; [done|done| |].
      + one. easy_ev; [cbn; by eapply lookup_lt_Some|]. intros m [_ [?|?]]; done.
      + destruct (Z.ltb_spec v next); (eapply okcons_read; [done|done|done|done|by intros t o [= <- <-]|]); [done|]. split; [lia|]. lia.
    - destruct H6 as [Hk Hsn]. destruct (Z.leb_spec k avail).
      + destruct (m_value _ _ _) as [f|] eqn:Ev.
        * apply m_value_spec in Ev as (t0 & o0 & Hf & Hw). eapply cons_step; [done|done| |].
          -- one. easy_ev; [cbn; by eapply lookup_lt_Some|]. intros m [_ [?|?]]; done.
          -- destruct (Z.eqb_spec f (k / size)) as [->|]; (eapply okcons_read; [done|done|done|done|by intros t o [= <- <-]|]).
             ++ split; [lia|]. intros m Hm. rewrite app_length. cbn [length]. destruct (decide (m = k)) as [->|]; [|eapply sn_mono; [apply Hsn; lia|lia]].
                assert (o0 = AWrite (LFlag (k mod size)) (k / size)) as ->. { destruct Hw as [->|[f ->]]; [done|]. by apply (i_ok _ I) in Hf as [_ ?]. }
                pose proof (i_ok _ I _ _ _ Hf) as (n & d & Hn & Hmod & Hdiv & Hdf & Hd).
                assert (n = k) as ->. { pose proof (Z_div_mod_eq_full n size). pose proof (Z_div_mod_eq_full k size). rewrite Hmod, Hdiv in *. lia. }
                exists d, (length (m_tr s)), (ARead (LFlag (k mod size)) from (k / size)), t0. split_and!; [lia|by apply list_lookup_middle|by apply lookup_app_l_Some|].
                eapply hb_trans; [|by eapply read_ok; [|left]]. eapply hb_app. by eapply po_ev.
             ++ split; [lia|]. intros m Hm. rewrite app_length. eapply sn_mono; [apply Hsn; lia|lia].
        * eapply cons_step; [done|done|by intros|]. eapply okcons_read; [done|done|done|done|by intros|]. split; [lia|]. intros m Hm. rewrite app_length. eapply sn_mono; [apply Hsn; lia|lia].
      + eapply cons_step; [done|done|by intros|]. eapply okcons_read; [done|done|done|done|by intros|]. split; [lia|]. intros m Hm. rewrite app_length. eapply sn_mono; [apply Hsn; lia|lia].
    - destruct H6 as [Hle Hsn]. destruct (Z.leb_spec cur avail).
      + rewrite (content_ok _ _ _ _ I Hp) by done. set (pc' := if throws then _ else _).
        assert (Er : creads pc' = cur + 1) by (unfold pc'; by destruct throws; [|destruct resets]).
        assert (Eb : cur <= cbound pc') by (unfold pc'; destruct throws; [|destruct resets]; cbn; lia).
        eapply cons_step; [done|done| |].
        * one. easy_ev; [|intros m [_ [E|?]]; [by injection E|done]]. cbn. exists c, cur. split_and!; try done. eapply sn_mono; [apply Hsn; lia|done].
        * split_and!; rewrite ?Er; unfold m_emit; cbn [m_tr]; [lia|..].
          -- rewrite m_reads_snoc, H2, decide_True by done. rewrite (seqZ_app 0 cur 1) by lia. rewrite fmap_app. by f_equal.
          -- intros e t v [He|[_ [=]]]%m_snoc. apply H3 in He. lia.
          -- intros j t o m [He|[_ [= -> ->]]]%m_snoc Ht; [pose proof (H4 _ _ _ _ He Ht); lia|]. destruct Ht as [_ [E|?]]; [injection E as ? <-; lia|done].
          -- intros m Hm. destruct (decide (m = cur)) as [->|]; [exists (length (m_tr s)); by apply list_lookup_middle|]. destruct (H5 m) as [k ?]; [lia|]. exists k. by apply lookup_app_l_Some.
          -- assert (G : forall m, cur <= m <= avail -> sn (m_tr s ++ [Ev (ctid c) (DRead (SData (cur mod size)) (cur, true))]) c m (length (m_tr s ++ [Ev (ctid c) (DRead (SData (cur mod size)) (cur, true))])))
               by (intros m Hm; rewrite app_length; eapply sn_mono; [apply Hsn; lia|lia]).
             unfold pc'. destruct throws; [done|]. destruct resets; [done|]. split; [lia|]. intros m Hm. apply G. lia.
      + assert (cur = avail + 1) as -> by lia. eapply cons_step; [done|done| |by eapply okcons_store].
        one. easy_ev; [|naive_solver|intros m [_ [?|?]]; done]. cbn. split; [done|]. intros m Hm. destruct (H5 m) as [k Hk]; [lia|]. exists k. split; [by eapply lookup_lt_Some|by apply lookup_app_l_Some].
    - destruct H6 as (Hle & Hr & Hsn). eapply cons_step; [done|done| |].
      + one. easy_ev; [|intros m [_ [?|E]]; [done|by injection E]]. cbn. exists c. split_and!; try done. eapply sn_mono; [apply Hsn; lia|done].
      + split_and!; cbn [cbound creads]; unfold m_emit; cbn [m_tr]; [lia|..].
        * by rewrite m_reads_snoc, H2, app_nil_r.
        * intros e t v [He|[_ [=]]]%m_snoc. apply H3 in He. lia.
        * intros j t o m [He|[_ [= -> ->]]]%m_snoc Ht; [by eapply H4|]. destruct Ht as [_ [?|E]]; [done|injection E as ? <-; lia].
        * intros m Hm. destruct (H5 m) as [k ?]; [lia|]. exists k. by apply lookup_app_l_Some.
        * lia.
        * intros m Hm. rewrite app_length. eapply sn_mono; [apply Hsn; lia|lia].
    - eapply cons_step; [done|done| |by eapply okcons_store].
      one. easy_ev; [|naive_solver|intros m [_ [?|?]]; done]. cbn. split; [done|]. intros m Hm. destruct (H5 m) as [k Hk]; [lia|]. exists k. split; [by eapply lookup_lt_Some|by apply lookup_app_l_Some].
  Qed.
  Lemma inv_run acts : inv (m_run g nprod ncons acts).
  Proof.
    unfold m_run. induction acts as [|a acts IH] using rev_ind; [apply inv_new|]. rewrite fold_left_app. cbn [fold_left]. destruct a as [p from flag|c from throws]; cbn [m_step].
    - destruct (m_prods _ !! p) eqn:E; [by apply step_prod|done].
    - destruct (m_cons _ !! c) eqn:E; [by apply step_cons|done].
  Qed.
End Inv.
(** What holds: if the flags of multi_producer_sequencer.h 264 were atomics (release when written, acquire when read), and with the consumers registered before the first publication,
    there would be no data race on the slots, for every ring size, number of producers and consumers and execution on weak memory; if the handler takes the data out of the slot, with one consumer. *)
Theorem C87_race_free_partial : forall size resets nprod ncons acts i j,
  0 < size -> (0 < ncons)%nat -> (resets = true -> ncons = 1%nat) -> ~ race (m_tr (m_run (MCfg size true resets) nprod ncons acts)) i j.
Proof. intros. eapply race_free; [done|done|done|by apply inv_run]. Qed.
(** ... and every consumer would read the events 0, 1, 2, ... in order, each with its own content. *)
Theorem C87_reads_partial : forall size resets nprod ncons acts c, 0 < size -> (c < ncons)%nat -> (resets = true -> ncons = 1%nat) ->
  exists k, 0 <= k /\ m_reads c (m_tr (m_run (MCfg size true resets) nprod ncons acts)) = (fun n => (n, true)) <$> seqZ 0 k.
Proof.
  intros size resets nprod ncons acts c Hs Hc Hr. pose proof (inv_run size resets nprod ncons Hs ltac:(lia) Hr acts) as I.
  destruct (lookup_lt_is_Some_2 (m_cons (m_run (MCfg size true resets) nprod ncons acts)) c) as [p Hp]; [by rewrite (i_lenc _ _ _ _ _ I)|].
  destruct (i_consi _ _ _ _ _ I _ _ Hp) as (? & ? & _). exists (creads p). split; [|done]. destruct p; cbn in *; lia.
Qed.
(** The code: the flags are plain ints. For every ring size, one producer and one consumer are enough: the consumer's read of the flag races with the producer's write of it,
    and so does the consumer's read of the slot with the producer's write of the slot. *)
Definition C87_race_acts : list mact := [MProd 0 0 true; MProd 0 1 true; MProd 0 0 true; MProd 0 0 true; MProd 0 0 true; MCons 0 5 false; MCons 0 7 false; MCons 0 0 false; MCons 0 0 false].
Lemma C87_race_trace size resets : 0 < size -> m_tr (m_run (MCfg size false resets) 1 1 C87_race_acts) =
  [Ev 0 (AWrite LCursor (-1)); Ev 0 (AWrite LCache (-1)); Ev 0 (AWrite (LSeq 0) (-1)); Ev 2 (ARead LCursor 0 (-1)); Ev 2 (ARead LCache 1 (-1)); Ev 2 (ARmw LCursor 0 0);
   Ev 2 (DWrite (SData 0) (0, true)); Ev 2 (DWrite (SFlag 0) (0, true)); Ev 1 (ARead LCursor 5 0); Ev 1 (DRead (SFlag 0) (0, true)); Ev 1 (DRead (SData 0) (0, true))].
Proof.
  intros Hs. destruct size as [|p|p]; [lia| |lia]. destruct p, resets; by vm_compute.
Qed.
Theorem C87_flags_race_refuted : forall size resets, 0 < size -> let tr := m_tr (m_run (MCfg size false resets) 1 1 C87_race_acts) in
  race tr 7 9 /\ race tr 6 10 /\ tr !! 6%nat = Some (Ev (ptid 0) (DWrite (SData 0) (0, true))) /\ tr !! 10%nat = Some (Ev (ctid 0) (DRead (SData 0) (0, true))).
Proof.
  intros size resets Hs tr. unfold tr. rewrite C87_race_trace by done. split_and!; try done; (split; [lia|split; [do 2 eexists; split_and!; [done|done|done]|]]).
  - apply (not_hb _ (fun i => (i =? 7)%nat)); [by vm_compute|done|done].
  - apply (not_hb _ (fun i => (i =? 6)%nat || (i =? 7)%nat)); [by vm_compute|done|done].
Qed.
(** Not started: the sequence of the event loop's processor is registered by its task (event_loop.h 79-86), so before start() a producer finds no consumer to wait for. With two producers
    the claims go round the ring, and one producer writes the slot another is still writing: a race, even if the flags were atomics. *)
Definition C87_early : list mact :=
  [MProd 0 0 true; MProd 0 1 true; MProd 0 0 true;                                                                     (* producer 0 claims 0 and stalls *)
   MProd 1 4 true; MProd 1 1 true; MProd 1 0 false; MProd 1 0 false; MProd 1 0 true; MProd 1 0 true; MProd 1 0 true;   (* producer 1 claims 1 in the ring of one slot, and publishes *)
   MProd 0 0 true].                                                                                                   (* producer 0 writes its event *)
Theorem C87_before_start_refuted : let tr := m_tr (m_run (MCfg 1 true true) 2 0 C87_early) in
  race tr 9 11 /\ tr !! 9%nat = Some (Ev (ptid 1) (DWrite (SData 0) (1, true))) /\ tr !! 11%nat = Some (Ev (ptid 0) (DWrite (SData 0) (0, true))).
Proof.
  cbn zeta. split_and!; [|by vm_compute|by vm_compute]. split; [lia|]. split; [do 2 eexists; split_and!; [by vm_compute|by vm_compute|done]|].
  apply (not_hb _ (fun i => (i =? 9)%nat || (i =? 10)%nat)); by vm_compute.
Qed.
(** A concrete execution under the hypotheses of C87_race_free_partial: two producers, one consumer that takes the data out, a ring of one slot; producer 1 loses the claim of 0 to producer 0,
    then reads a stale sequence of the consumer, scans again, and writes its event over the one taken out. *)
Definition C87_acts : list mact :=
  [MProd 1 0 true; MProd 1 1 true; MProd 0 0 true; MProd 0 1 true; MProd 0 0 true; MProd 1 0 true; MProd 0 0 true; MProd 0 0 true;
   MCons 0 7 false; MCons 0 9 false; MCons 0 0 false; MCons 0 0 false; MCons 0 0 false; MCons 0 0 false;
   MProd 1 7 true; MProd 1 1 true; MProd 1 2 true; MProd 1 0 true; MProd 1 7 true; MProd 1 1 true; MProd 1 14 true; MProd 1 0 false; MProd 1 0 false; MProd 1 0 true; MProd 1 0 true; MProd 1 0 true;
   MCons 0 22 false; MCons 0 24 false; MCons 0 0 false; MCons 0 0 false].
Example C87_case : let tr := m_tr (m_run (MCfg 1 true true) 2 1 C87_acts) in
  m_reads 0 tr = [(0, true); (1, true)] /\ tr !! 8%nat = Some (Ev (ptid 0) (DWrite (SData 0) (0, true))) /\ tr !! 13%nat = Some (Ev (ctid 0) (DWrite (SData 0) (0, false))) /\
  tr !! 23%nat = Some (Ev (ptid 1) (DWrite (SData 0) (1, true))).
Proof. by vm_compute. Qed.
(** ** C172: the same ring on processors whose loads acquire and whose stores release (x86), where a flag synchronises although the source declares it a plain int (compiled code that keeps the
    order of the code's accesses is then an execution of the model with [m_sync]); consumers registered before the first publication. *)
Theorem C172_ordered : forall size resets nprod ncons acts i j,
  0 < size -> (0 < ncons)%nat -> (resets = true -> ncons = 1%nat) -> ~ race (m_tr (m_run (MCfg size true resets) nprod ncons acts)) i j.
Proof. exact C87_race_free_partial. Qed.
Theorem C172_reads : forall size resets nprod ncons acts c, 0 < size -> (c < ncons)%nat -> (resets = true -> ncons = 1%nat) ->
  exists k, 0 <= k /\ m_reads c (m_tr (m_run (MCfg size true resets) nprod ncons acts)) = (fun n => (n, true)) <$> seqZ 0 k.
Proof. exact C87_reads_partial. Qed.
Print Assumptions C87_race_free_partial.
Print Assumptions C87_reads_partial.
Print Assumptions C87_flags_race_refuted.
Print Assumptions C87_before_start_refuted.
