(** * A single-producer ring on weak memory: no data race, and consumers read what was published (C86). *)
From Coq Require Import ZArith Lia ZifyBool.
From stdpp Require Import prelude list_numbers.
From Verif Require Import WeakMem WeakSingle_Model.
Local Open Scope Z_scope.

Section Inv.
  Context (size : Z) (ncons : nat) (Hsize : 0 < size).
  Notation evt tr i t o := (tr !! i = Some (Ev t o)).
  (** The producer has read, from consumer c, a value of at least g. *)
  Definition known (tr : list wev1) (upto : nat) (c : nat) (g : Z) : Prop :=
    g <= -1 \/ exists e r v, (e < r < upto)%nat /\ evt tr e (S c) (AWrite (LSeq c) v) /\ evt tr r 0%nat (ARead (LSeq c) e v) /\ g <= v.
  Definition bound (p : wcpc) : Z := match p with WWait n => n | WHandle cur _ => cur | WFail cur => cur + 1 end.
  Definition seen (tr : list wev1) (upto : nat) (c : nat) (m : Z) : Prop :=
    exists w r v, (w < r < upto)%nat /\ evt tr w 0%nat (AWrite LCursor v) /\ evt tr r (S c) (ARead LCursor w v) /\ m <= v.
  Definition filled (s : wst) : Z := match w_pc s with WFill => w_next s - 1 | _ => w_next s end.
  Record inv (s : wst) : Prop := {
    i_len : length (w_cons s) = ncons;
    i_cur : forall e t v, evt (w_tr s) e t (AWrite LCursor v) -> t = 0%nat /\ v <= filled s /\
              forall n, 0 <= n <= v -> exists d, (d < e)%nat /\ evt (w_tr s) d 0%nat (DWrite (n mod size) (Some n));
    i_dw : forall j t x y, evt (w_tr s) j t (DWrite x y) -> t = 0%nat /\ exists n, y = Some n /\ x = n mod size /\ 0 <= n <= filled s /\
              forall c, (c < ncons)%nat -> known (w_tr s) j c (n - size);
    i_order : forall i j t t' x x' n m, evt (w_tr s) i t (DWrite x (Some n)) -> evt (w_tr s) j t' (DWrite x' (Some m)) -> (i < j)%nat -> n < m;
    i_seq : forall e t c v, evt (w_tr s) e t (AWrite (LSeq c) v) -> (0 <= v -> t = S c) /\
              (forall j x m, (e < j)%nat -> evt (w_tr s) j (S c) (DRead x (Some m)) -> v < m) /\
              (forall p, w_cons s !! c = Some p -> v < bound p);
    i_dr : forall j t x y, evt (w_tr s) j t (DRead x y) -> exists c m, t = S c /\ y = Some m /\ x = m mod size /\ 0 <= m /\ (c < ncons)%nat /\ seen (w_tr s) j c m /\
              (forall p, w_cons s !! c = Some p -> m < bound p);
    i_cons : forall c p, w_cons s !! c = Some p -> 0 <= bound p /\ reads_of c (w_tr s) = Some <$> seqZ 0 (bound p) /\
              match p with WWait _ => True | WHandle cur avail => cur <= avail + 1 /\ seen (w_tr s) (length (w_tr s)) c avail | WFail cur => True end;
    i_next : -1 <= w_next s /\ (w_pc s = WFill -> 0 <= w_next s) /\ (w_pc s = WPub -> 0 <= w_next s) /\
              forall n, 0 <= n <= filled s -> exists d, evt (w_tr s) d 0%nat (DWrite (n mod size) (Some n));
    i_prod : forall c, (c < ncons)%nat -> known (w_tr s) (length (w_tr s)) c (w_cached s) /\
              match w_pc s with
              | WScan todo m => c ∉ todo -> known (w_tr s) (length (w_tr s)) c m
              | WFill => known (w_tr s) (length (w_tr s)) c (w_next s - size)
              | _ => True
              end
  }.

  Lemma snoc_lookup {A} (l : list A) (x y : A) i : (l ++ [x]) !! i = Some y -> l !! i = Some y \/ (i = length l /\ y = x).
  Proof. intros [H|[? H]]%lookup_app_Some; [by left|]. right. apply list_lookup_singleton_Some in H as [? <-]. split; [lia|done]. Qed.
  Lemma known_mono tr tr' u u' c g g' : known tr u c g -> (u <= u')%nat -> g' <= g -> known (tr ++ tr') u' c g'.
  Proof.
    intros [?|(e & r & v & ? & He & Hr & ?)] ? ?; [left; lia|].
    right. exists e, r, v. split_and!; [lia|lia|by apply lookup_app_l_Some|by apply lookup_app_l_Some|lia].
  Qed.
  Lemma seen_mono tr tr' u u' c g g' : seen tr u c g -> (u <= u')%nat -> g' <= g -> seen (tr ++ tr') u' c g'.
  Proof. intros (e & r & v & ? & He & Hr & ?) ? ?. exists e, r, v. split_and!; [lia|lia|by apply lookup_app_l_Some|by apply lookup_app_l_Some|lia]. Qed.
  Lemma value_from_spec tr l from v : value_from tr l from = Some v -> exists t, evt tr from t (AWrite l v).
  Proof. unfold value_from. destruct (tr !! from) as [[t []]|] eqn:E; try done; case_decide; try done; intros [= ->]; subst; eauto. Qed.
  Lemma slot_content_snoc tr e x : slot_content (tr ++ [e]) x = match ev_op e with DWrite y v => if decide (y = x) then v else slot_content tr x | _ => slot_content tr x end.
  Proof. unfold slot_content. by rewrite fold_left_app. Qed.
  (** The content of a slot is that of the latest write. *)
  Lemma slot_content_last tr x d t v : evt tr d t (DWrite x v) -> (forall j t' v', evt tr j t' (DWrite x v') -> (j <= d)%nat) -> slot_content tr x = v.
  Proof.
    induction tr as [|e tr IH] using rev_ind; intros Hd Hlast; [done|].
    rewrite slot_content_snoc. apply snoc_lookup in Hd as [Hd|[-> [= <-]]].
    - assert (d < length tr)%nat by (by eapply lookup_lt_Some).
      destruct (ev_op e) eqn:E; try (apply IH; [done|intros j t' v' ?; eapply Hlast; by apply lookup_app_l_Some]).
      case_decide; [|apply IH; [done|intros j t' v' ?; eapply Hlast; by apply lookup_app_l_Some]].
      subst. assert (length tr <= d)%nat; [|lia]. destruct e as [te oe]; cbn in E; subst. apply (Hlast _ te v0). by apply list_lookup_middle.
    - cbn. by rewrite decide_True.
  Qed.
  Lemma mod_window n m : n mod size = m mod size -> n < m -> n <= m - size.
  Proof.
    intros H ?. pose proof (Z_div_mod_eq_full n size). pose proof (Z_div_mod_eq_full m size).
    assert (n / size < m / size) by nia. nia.
  Qed.
  Lemma reads_of_snoc c tr e : reads_of c (tr ++ [e]) = reads_of c tr ++ match e with Ev t (DRead _ v) => if decide (t = S c) then [v] else [] | _ => [] end.
  Proof. unfold reads_of. rewrite omap_app. f_equal. cbn. destruct e as [t []]; try done. by case_decide. Qed.

  Lemma inv_new : inv (w_new ncons).
  Proof.
    assert (Hev : forall i t o, evt (w_tr (w_new ncons)) i t o -> (i = 0%nat /\ t = 0%nat /\ o = AWrite LCursor (-1)) \/ exists c, o = AWrite (LSeq c) (-1)).
    { unfold w_new; cbn [w_tr]. intros [|i] t o; [intros [= <- <-]; by left|]. rewrite lookup_cons, list_lookup_fmap. intros (c & Hc & [= -> ->])%fmap_Some. right. eauto. }
    split; cbn [w_cons w_next w_cached w_pc w_new].
    - by rewrite replicate_length.
    - intros e t v [(-> & -> & [= ->])|(c & ?)]%Hev; [|done]. split_and!; [done|cbn; lia|lia].
    - intros j t x y [(?&?&?)|(?&?)]%Hev; done.
    - intros i j t t' x x' n m [(?&?&?)|(?&?)]%Hev; done.
    - intros e t c v [(?&?&?)|(?&[= -> ->])]%Hev; [done|]. split_and!; [lia| |].
      + intros j ? m ? [(?&?&?)|(?&?)]%Hev; done.
      + intros p [-> _]%lookup_replicate. cbn. lia.
    - intros j t x y [(?&?&?)|(?&?)]%Hev; done.
    - intros c p [-> _]%lookup_replicate. split_and!; [done| |done].
      cbn [w_tr w_new]. unfold reads_of. cbn [omap list_omap]. induction (seq 0 ncons) as [|? l IH]; [done|]. cbn. done.
    - split_and!; try done. cbn. lia.
    - intros c ?. split; [left; lia|done].
  Qed.

  (** The old facts, after one more event. *)
  Lemma i_cur_snoc s ev : inv s -> forall e t v, evt (w_tr s) e t (AWrite LCursor v) -> t = 0%nat /\ v <= filled s /\
              forall n, 0 <= n <= v -> exists d, (d < e)%nat /\ evt (w_tr s ++ [ev]) d 0%nat (DWrite (n mod size) (Some n)).
  Proof. intros I e t v H. destruct (i_cur _ I _ _ _ H) as (? & ? & Hd). split_and!; [done|done|]. intros n Hn. destruct (Hd n Hn) as (d & ? & ?). exists d. split; [done|]. by apply lookup_app_l_Some. Qed.
  Lemma i_dw_snoc s ev : inv s -> forall j t x y, evt (w_tr s) j t (DWrite x y) -> t = 0%nat /\ exists n, y = Some n /\ x = n mod size /\ 0 <= n <= filled s /\
              forall c, (c < ncons)%nat -> known (w_tr s ++ [ev]) j c (n - size).
  Proof. intros I j t x y H. destruct (i_dw _ I _ _ _ _ H) as (? & n & ? & ? & ? & Hk). split; [done|]. exists n. split_and!; try done; try lia. intros c Hc. by eapply known_mono; [apply Hk| |]. Qed.
  Lemma i_dr_snoc s ev : inv s -> forall j t x y, evt (w_tr s) j t (DRead x y) -> exists c m, t = S c /\ y = Some m /\ x = m mod size /\ 0 <= m /\ (c < ncons)%nat /\ seen (w_tr s ++ [ev]) j c m /\
              (forall p, w_cons s !! c = Some p -> m < bound p).
  Proof. intros I j t x y H. destruct (i_dr _ I _ _ _ _ H) as (c & m & ? & ? & ? & ? & ? & Hk & ?). exists c, m. split_and!; try done. by eapply seen_mono. Qed.
  Lemma i_next_snoc s ev : inv s -> forall n, 0 <= n <= filled s -> exists d, evt (w_tr s ++ [ev]) d 0%nat (DWrite (n mod size) (Some n)).
  Proof. intros I n Hn. destruct (i_next _ I) as (_ & _ & _ & H). destruct (H n Hn) as [d ?]. exists d. by apply lookup_app_l_Some. Qed.

  Lemma inv_read_prod s c from v todo m : inv s -> w_pc s = WScan (c :: todo) m -> value_from (w_tr s) (LSeq c) from = Some v ->
    inv (Wst (w_tr s ++ [Ev 0 (ARead (LSeq c) from v)]) (w_next s) (w_cached s) (WScan todo (if v <? m then v else m)) (w_cons s)).
  Proof.
    intros I Hpc Hv. assert (Hf : filled s = w_next s) by (unfold filled; by rewrite Hpc).
    split; cbn [w_tr w_next w_cached w_pc w_cons filled]; [by apply I|..].
    - intros e t v' [H|[? [=]]]%snoc_lookup. rewrite <- Hf. by eapply i_cur_snoc.
    - intros j t x y [H|[? [=]]]%snoc_lookup. rewrite <- Hf. by eapply i_dw_snoc.
    - intros i j t t' x x' n m' [H1|[? [=]]]%snoc_lookup [H2|[? [=]]]%snoc_lookup. by eapply i_order.
    - intros e t c' v' [H|[? [=]]]%snoc_lookup. destruct (i_seq _ I _ _ _ _ H) as (? & Hr & ?). split_and!; [done| |done].
      intros j x m' ? [H'|[? [=]]]%snoc_lookup. by eapply Hr.
    - intros j t x y [H|[? [=]]]%snoc_lookup. by eapply i_dr_snoc.
    - intros c' p Hp. destruct (i_cons _ I _ _ Hp) as (? & Hr & Hm). split_and!; [done| |].
      + by rewrite reads_of_snoc, Hr, app_nil_r.
      + destruct p; try done. destruct Hm. split; [done|]. eapply seen_mono; [done|rewrite app_length; lia|lia].
    - destruct (i_next _ I) as (? & ? & ? & ?). split_and!; try done. rewrite <- Hf. by apply i_next_snoc.
    - intros c' Hc'. destruct (i_prod _ I c' Hc') as [Hk Hs]. rewrite Hpc in Hs. rewrite app_length. cbn [length].
      split; [eapply known_mono; [done|lia|lia]|].
      intros Hin. destruct (decide (c' = c)) as [->|Hne].
      + destruct (decide (v <= -1)); [left; case_match; lia|].
        right. apply value_from_spec in Hv as (t & Hw).
        assert (t = S c) as -> by (eapply i_seq; [done|done|lia]).
        exists from, (length (w_tr s)), v. pose proof (lookup_lt_Some _ _ _ Hw). split_and!; [lia|lia|by apply lookup_app_l_Some|by apply list_lookup_middle|case_match; lia].
      + eapply known_mono; [apply Hs; set_solver|lia|case_match; lia].
  Qed.

  Lemma inv_fill s : inv s -> w_pc s = WFill -> inv (Wst (w_tr s ++ [Ev 0 (DWrite (w_next s mod size) (Some (w_next s)))]) (w_next s) (w_cached s) WPub (w_cons s)).
  Proof.
    intros I Hpc. assert (Hf : filled s = w_next s - 1) by (unfold filled; by rewrite Hpc).
    destruct (i_next _ I) as (? & Hn & _ & Hd). specialize (Hn Hpc).
    split; cbn [w_tr w_next w_cached w_pc w_cons filled]; [by apply I|..].
    - intros e t v' [H'|[? [=]]]%snoc_lookup. eapply i_cur_snoc in H' as (? & ? & ?); [|done]. split_and!; [done|lia|done].
    - intros j t x y [H'|[-> [= -> -> ->]]]%snoc_lookup.
      + eapply i_dw_snoc in H' as (? & n & ? & ? & ? & ?); [|done]. split; [done|]. exists n. split_and!; try done; lia.
      + split; [done|]. exists (w_next s). split_and!; try done; try lia. intros c Hc. destruct (i_prod _ I c Hc) as [_ Hk]. rewrite Hpc in Hk. by eapply known_mono.
    - intros i j t t' x x' n m' [H1|[-> [= -> -> ->]]]%snoc_lookup [H2|[-> [= -> -> ->]]]%snoc_lookup Hij.
      + by eapply (i_order _ I i j).
      + eapply i_dw in H1 as (_ & n' & [= <-] & _ & ? & _); [|done]. lia.
      + apply lookup_lt_Some in H2. lia.
      + lia.
    - intros e t c' v' [H'|[? [=]]]%snoc_lookup. destruct (i_seq _ I _ _ _ _ H') as (? & Hr & ?). split_and!; [done| |done].
      intros j x m' ? [H''|[? [=]]]%snoc_lookup. by eapply Hr.
    - intros j t x y [H'|[? [=]]]%snoc_lookup. by eapply i_dr_snoc.
    - intros c' p Hp. destruct (i_cons _ I _ _ Hp) as (? & Hr & Hm). split_and!; [done| |].
      + by rewrite reads_of_snoc, Hr, app_nil_r.
      + destruct p; try done. destruct Hm. split; [done|]. eapply seen_mono; [done|rewrite app_length; lia|lia].
    - split_and!; try done. intros n Hn'. destruct (decide (n = w_next s)) as [->|].
      + exists (length (w_tr s)). by apply list_lookup_middle.
      + apply (i_next_snoc _ _ I). lia.
    - intros c' Hc'. destruct (i_prod _ I c' Hc') as [Hk _]. rewrite app_length. split; [eapply known_mono; [done|lia|lia]|done].
  Qed.
  Lemma inv_pub s : inv s -> w_pc s = WPub -> inv (Wst (w_tr s ++ [Ev 0 (AWrite LCursor (w_next s))]) (w_next s) (w_cached s) WIdle (w_cons s)).
  Proof.
    intros I Hpc. assert (Hf : filled s = w_next s) by (unfold filled; by rewrite Hpc).
    destruct (i_next _ I) as (? & _ & Hn & Hd). specialize (Hn Hpc).
    split; cbn [w_tr w_next w_cached w_pc w_cons filled]; [by apply I|..].
    - intros e t v' [H'|[-> [= -> ->]]]%snoc_lookup.
      + rewrite <- Hf. by eapply i_cur_snoc.
      + split_and!; [done|lia|]. intros n Hn'. destruct (Hd n) as [d Hd']; [lia|]. exists d. split; [by eapply lookup_lt_Some|by apply lookup_app_l_Some].
    - intros j t x y [H'|[? [=]]]%snoc_lookup. rewrite <- Hf. by eapply i_dw_snoc.
    - intros i j t t' x x' n m' [H1|[? [=]]]%snoc_lookup [H2|[? [=]]]%snoc_lookup. by eapply i_order.
    - intros e t c' v' [H'|[? [=]]]%snoc_lookup. destruct (i_seq _ I _ _ _ _ H') as (? & Hr & ?). split_and!; [done| |done].
      intros j x m' ? [H''|[? [=]]]%snoc_lookup. by eapply Hr.
    - intros j t x y [H'|[? [=]]]%snoc_lookup. by eapply i_dr_snoc.
    - intros c' p Hp. destruct (i_cons _ I _ _ Hp) as (? & Hr & Hm). split_and!; [done| |].
      + by rewrite reads_of_snoc, Hr, app_nil_r.
      + destruct p; try done. destruct Hm. split; [done|]. eapply seen_mono; [done|rewrite app_length; lia|lia].
    - split_and!; try done. rewrite <- Hf. by apply i_next_snoc.
    - intros c' Hc'. destruct (i_prod _ I c' Hc') as [Hk _]. rewrite app_length. split; [eapply known_mono; [done|lia|lia]|done].
  Qed.
  Lemma insert_Some {A} (l : list A) c x c' y : <[c := x]> l !! c' = Some y -> (c' = c /\ y = x /\ (c < length l)%nat) \/ (c' <> c /\ l !! c' = Some y).
  Proof. intros [(?&?&?)|[? ?]]%list_lookup_insert_Some; naive_solver. Qed.

  (** A step of consumer c that appends [o] and goes to [p'], with the same bound. *)
  Lemma inv_read_cons s c from v next : inv s -> w_cons s !! c = Some (WWait next) -> value_from (w_tr s) LCursor from = Some v ->
    inv (Wst (w_tr s ++ [Ev (S c) (ARead LCursor from v)]) (w_next s) (w_cached s) (w_pc s) (<[c := if v <? next then WWait next else WHandle next v]> (w_cons s))).
  Proof.
    intros I Hpc Hv. assert (Hc : (c < length (w_cons s))%nat) by (by eapply lookup_lt_Some).
    assert (Hb : forall c' p, <[c := if v <? next then WWait next else WHandle next v]> (w_cons s) !! c' = Some p -> exists p', w_cons s !! c' = Some p' /\ bound p = bound p').
    { intros c' p [(-> & -> & _)|[_ ?]]%insert_Some; [|eauto]. exists (WWait next). split; [done|]. by case_match. }
    split; cbn [w_tr w_next w_cached w_pc w_cons filled]; [rewrite insert_length; by apply I|..].
    - intros e t v' [H'|[? [=]]]%snoc_lookup. by eapply (i_cur_snoc s).
    - intros j t x y [H'|[? [=]]]%snoc_lookup. by eapply (i_dw_snoc s).
    - intros i j t t' x x' n m' [H1|[? [=]]]%snoc_lookup [H2|[? [=]]]%snoc_lookup. by eapply i_order.
    - intros e t c' v' [H'|[? [=]]]%snoc_lookup. destruct (i_seq _ I _ _ _ _ H') as (? & Hr & Hx). split_and!; [done| |].
      + intros j x m' ? [H''|[? [=]]]%snoc_lookup. by eapply Hr.
      + intros p (p' & Hp' & ->)%Hb. by apply Hx.
    - intros j t x y [H'|[? [=]]]%snoc_lookup. eapply i_dr_snoc in H' as (c' & m & ? & ? & ? & ? & ? & ? & Hx); [|done]. exists c', m. split_and!; try done.
      intros p (p' & Hp' & ->)%Hb. by apply Hx.
    - intros c' p Hp. destruct (Hb _ _ Hp) as (p' & Hp' & Eb). destruct (i_cons _ I _ _ Hp') as (? & Hr & Hm). rewrite Eb. split_and!; [done| |].
      + by rewrite reads_of_snoc, Hr, app_nil_r.
      + apply insert_Some in Hp as [(-> & -> & _)|[_ Hp]].
        * destruct (Z.ltb_spec v next); [done|]. split; [lia|]. rewrite app_length. cbn [length].
          apply value_from_spec in Hv as (t & Hw). destruct (i_cur _ I _ _ _ Hw) as (-> & _).
          exists from, (length (w_tr s)), v. pose proof (lookup_lt_Some _ _ _ Hw). split_and!; [lia|lia|by apply lookup_app_l_Some|by apply list_lookup_middle|lia].
        * rewrite Hp in Hp'. injection Hp' as ->. destruct p'; try done. destruct Hm. split; [done|]. eapply seen_mono; [done|rewrite app_length; lia|lia].
    - destruct (i_next _ I) as (? & ? & ? & ?). split_and!; try done. by apply (i_next_snoc s).
    - intros c' Hc'. destruct (i_prod _ I c' Hc') as [Hk Hs]. rewrite app_length. cbn [length]. split; [eapply known_mono; [done|lia|lia]|].
      destruct (w_pc s); try done; [intros ?; eapply known_mono; [by apply Hs|lia|lia]|eapply known_mono; [done|lia|lia]].
  Qed.
  (** The slot a consumer is about to read holds the event it is after. *)
  Lemma content_ok s c cur avail : inv s -> w_cons s !! c = Some (WHandle cur avail) -> cur <= avail -> slot_content (w_tr s) (cur mod size) = Some cur.
  Proof.
    intros I Hp Hle. destruct (i_cons _ I _ _ Hp) as (Hb & _ & _ & (w & r & v & ? & Hw & _ & ?)). cbn [bound] in Hb.
    destruct (i_cur _ I _ _ _ Hw) as (_ & _ & Hd). destruct (Hd cur) as (d & ? & Hdw); [lia|].
    assert (Hc : (c < ncons)%nat) by (rewrite <- (i_len _ I); by eapply lookup_lt_Some).
    eapply slot_content_last; [done|]. intros j t' v' Hj. destruct (decide (j <= d)%nat) as [|Hjd]; [done|exfalso].
    destruct (i_dw _ I _ _ _ _ Hj) as (-> & n & -> & Hx & Hn & Hk). assert (cur < n) by (eapply (i_order _ I d j); [done|done|lia]).
    assert (cur <= n - size) by (by apply mod_window). destruct (Hk c Hc) as [?|(e & r' & v' & _ & He & _ & ?)]; [lia|].
    destruct (i_seq _ I _ _ _ _ He) as (_ & _ & Hs). specialize (Hs _ Hp). cbn in Hs. lia.
  Qed.
  Lemma inv_handle s c cur avail throws : inv s -> w_cons s !! c = Some (WHandle cur avail) -> cur <= avail ->
    inv (Wst (w_tr s ++ [Ev (S c) (DRead (cur mod size) (slot_content (w_tr s) (cur mod size)))]) (w_next s) (w_cached s) (w_pc s)
             (<[c := if throws : bool then WFail cur else WHandle (cur + 1) avail]> (w_cons s))).
  Proof.
    intros I Hp Hle. rewrite (content_ok _ _ _ _ I Hp Hle). assert (Hc : (c < length (w_cons s))%nat) by (by eapply lookup_lt_Some).
    set (p1 := if throws then _ else _). assert (Hp1 : bound p1 = cur + 1) by (by destruct throws).
    assert (Hb : forall c' p, <[c := p1]> (w_cons s) !! c' = Some p -> (c' = c /\ p = p1) \/ (c' <> c /\ w_cons s !! c' = Some p)).
    { intros c' p [(-> & -> & _)|[? ?]]%insert_Some; [by left|by right]. }
    destruct (i_cons _ I _ _ Hp) as (Hb0 & Hr0 & Hav & Hseen). cbn [bound] in Hb0, Hr0.
    split; cbn [w_tr w_next w_cached w_pc w_cons filled]; [rewrite insert_length; by apply I|..].
    - intros e t v' [H'|[? [=]]]%snoc_lookup. by eapply (i_cur_snoc s).
    - intros j t x y [H'|[? [=]]]%snoc_lookup. by eapply (i_dw_snoc s).
    - intros i j t t' x x' n m' [H1|[? [=]]]%snoc_lookup [H2|[? [=]]]%snoc_lookup. by eapply i_order.
    - intros e t c' v' [H'|[? [=]]]%snoc_lookup. destruct (i_seq _ I _ _ _ _ H') as (? & Hr & Hx). split_and!; [done| |].
      + intros j x m' ? [H''|[-> [= -> _ ->]]]%snoc_lookup; [by eapply Hr|]. by specialize (Hx _ Hp).
      + intros p [[-> ->]|[? Hp']]%Hb; [rewrite Hp1; specialize (Hx _ Hp); cbn in Hx; lia|by apply Hx].
    - intros j t x y [H'|[-> [= -> -> ->]]]%snoc_lookup.
      + eapply i_dr_snoc in H' as (c' & m & ? & ? & ? & ? & ? & ? & Hx); [|done]. exists c', m. split_and!; try done.
        intros p [[-> ->]|[? Hp']]%Hb; [rewrite Hp1; specialize (Hx _ Hp); cbn in Hx; lia|by apply Hx].
      + exists c, cur. split_and!; try done; [by rewrite <- (i_len _ I)|by eapply seen_mono; [done|done|]|].
        intros p [[_ ->]|[? _]]%Hb; [rewrite Hp1; lia|done].
    - intros c' p Hp'. apply Hb in Hp' as [[-> ->]|[Hne Hp']].
      + rewrite Hp1. split_and!; [lia| |].
        * rewrite reads_of_snoc, Hr0, decide_True by done. rewrite (seqZ_app 0 cur 1) by lia. rewrite fmap_app. by f_equal.
        * unfold p1. destruct throws; [done|]. split; [lia|]. eapply seen_mono; [done|rewrite app_length; lia|lia].
      + destruct (i_cons _ I _ _ Hp') as (? & Hr & Hm). split_and!; [done| |].
        * rewrite reads_of_snoc, Hr, decide_False by lia. by rewrite app_nil_r.
        * destruct p; try done. destruct Hm. split; [done|]. eapply seen_mono; [done|rewrite app_length; lia|lia].
    - destruct (i_next _ I) as (? & ? & ? & ?). split_and!; try done. by apply (i_next_snoc s).
    - intros c' Hc'. destruct (i_prod _ I c' Hc') as [Hk Hs]. rewrite app_length. cbn [length]. split; [eapply known_mono; [done|lia|lia]|].
      destruct (w_pc s); try done; [intros ?; eapply known_mono; [by apply Hs|lia|lia]|eapply known_mono; [done|lia|lia]].
  Qed.
  Lemma inv_set s c p0 v : inv s -> w_cons s !! c = Some p0 -> bound p0 = v + 1 ->
    inv (Wst (w_tr s ++ [Ev (S c) (AWrite (LSeq c) v)]) (w_next s) (w_cached s) (w_pc s) (<[c := WWait (v + 1)]> (w_cons s))).
  Proof.
    intros I Hp Hb0. assert (Hc : (c < length (w_cons s))%nat) by (by eapply lookup_lt_Some).
    assert (Hb : forall c' p, <[c := WWait (v + 1)]> (w_cons s) !! c' = Some p -> exists p', w_cons s !! c' = Some p' /\ bound p = bound p').
    { intros c' p [(-> & -> & _)|[_ ?]]%insert_Some; [|eauto]. exists p0. split; [done|]. by cbn. }
    split; cbn [w_tr w_next w_cached w_pc w_cons filled]; [rewrite insert_length; by apply I|..].
    - intros e t v' [H'|[? [=]]]%snoc_lookup. by eapply (i_cur_snoc s).
    - intros j t x y [H'|[? [=]]]%snoc_lookup. by eapply (i_dw_snoc s).
    - intros i j t t' x x' n m' [H1|[? [=]]]%snoc_lookup [H2|[? [=]]]%snoc_lookup. by eapply i_order.
    - intros e t c' v' [H'|[-> [= -> -> ->]]]%snoc_lookup.
      + destruct (i_seq _ I _ _ _ _ H') as (? & Hr & Hx). split_and!; [done| |].
        * intros j x m' ? [H''|[? [=]]]%snoc_lookup. by eapply Hr.
        * intros p (p' & Hp' & ->)%Hb. by apply Hx.
      + split_and!; [done| |].
        * intros j x m' ? [H''%lookup_lt_Some|[? [=]]]%snoc_lookup. lia.
        * intros p (p' & Hp' & ->)%Hb. rewrite Hp in Hp'. injection Hp' as <-. lia.
    - intros j t x y [H'|[? [=]]]%snoc_lookup. eapply i_dr_snoc in H' as (c' & m & ? & ? & ? & ? & ? & ? & Hx); [|done]. exists c', m. split_and!; try done.
      intros p (p' & Hp' & ->)%Hb. by apply Hx.
    - intros c' p Hp0. destruct (Hb _ _ Hp0) as (p' & Hp' & Eb). destruct (i_cons _ I _ _ Hp') as (? & Hr & Hm). rewrite Eb. split_and!; [done| |].
      + by rewrite reads_of_snoc, Hr, app_nil_r.
      + apply insert_Some in Hp0 as [(-> & -> & _)|[_ Hp0]]; [done|].
        rewrite Hp0 in Hp'. injection Hp' as ->. destruct p'; try done. destruct Hm. split; [done|]. eapply seen_mono; [done|rewrite app_length; lia|lia].
    - destruct (i_next _ I) as (? & ? & ? & ?). split_and!; try done. by apply (i_next_snoc s).
    - intros c' Hc'. destruct (i_prod _ I c' Hc') as [Hk Hs]. rewrite app_length. cbn [length]. split; [eapply known_mono; [done|lia|lia]|].
      destruct (w_pc s); try done; [intros ?; eapply known_mono; [by apply Hs|lia|lia]|eapply known_mono; [done|lia|lia]].
  Qed.
  (** A local step of the producer. *)
  Lemma inv_local s next cached pc : inv s -> filled (Wst (w_tr s) next cached pc (w_cons s)) = filled s -> -1 <= next -> (pc = WFill -> 0 <= next) -> pc <> WPub ->
    (forall c, (c < ncons)%nat -> known (w_tr s) (length (w_tr s)) c cached /\ match pc with WScan todo m => c ∉ todo -> known (w_tr s) (length (w_tr s)) c m
       | WFill => known (w_tr s) (length (w_tr s)) c (next - size) | _ => True end) ->
    inv (Wst (w_tr s) next cached pc (w_cons s)).
  Proof.
    intros I Hf Hn H0 Hpc Hk. split; rewrite ?Hf; cbn [w_tr w_next w_cached w_pc w_cons]; try by apply I. 2: done.
    split_and!; try done. by apply I.
  Qed.
  Lemma inv_step s a : inv s -> inv (w_step size s a).
  Proof.
    intros I. pose proof (i_next _ I) as (Hn1 & _). destruct a as [from again|c from throws]; cbn [w_step]; cbn zeta.
    - assert (Hlow : forall tr u c g, known tr u c g -> forall g', g' <= g -> known tr u c g').
      { intros tr u c g [?|(e & r & v & ? & ? & ? & ?)] g' ?; [left; lia|right; exists e, r, v; split_and!; try done; lia]. }
      assert (Hall : forall m c, (c < ncons)%nat -> c ∉ seq 0 (length (w_cons s)) -> known (w_tr s) (length (w_tr s)) c m).
      { intros m c Hc []. apply elem_of_seq. rewrite (i_len _ I). lia. }
      destruct (w_pc s) as [|[|c todo] m| |] eqn:Hpc.
      + destruct ((w_cached s <? _) || _) eqn:E.
        * apply inv_local; try done; [unfold filled; cbn; by rewrite Hpc|]. intros c Hc. split; [by apply I|]. by apply Hall.
        * apply inv_local; try done; [unfold filled; cbn; rewrite Hpc; lia|lia|lia|]. intros c Hc. destruct (i_prod _ I c Hc) as [Hk _]. split; [done|]. eapply Hlow; [done|lia].
      + assert (Hm : forall c, (c < ncons)%nat -> known (w_tr s) (length (w_tr s)) c m). { intros c Hc. destruct (i_prod _ I c Hc) as [_ Hs]. rewrite Hpc in Hs. apply Hs. set_solver. }
        destruct (Z.ltb_spec m (w_next s + 1 - size)); [destruct again|].
        * apply inv_local; try done; [unfold filled; cbn; by rewrite Hpc|]. intros c Hc. split; [by apply I|]. by apply Hall.
        * apply inv_local; try done; [unfold filled; cbn; by rewrite Hpc|]. intros c Hc. split; [by apply Hm|done].
        * apply inv_local; try done; [unfold filled; cbn; rewrite Hpc; lia|lia|lia|]. intros c Hc. split; [by apply Hm|]. eapply Hlow; [by apply Hm|lia].
      + destruct (value_from _ _ _) eqn:E; [|done]. by apply inv_read_prod.
      + by apply inv_fill.
      + by apply inv_pub.
    - destruct (w_cons s !! c) as [[next|cur avail|cur]|] eqn:Hp; [|..|done].
      + destruct (value_from _ _ _) eqn:E; [|done]. by apply inv_read_cons.
      + destruct (Z.leb_spec cur avail).
        * by apply inv_handle.
        * eapply inv_set; [done|done|]. destruct (i_cons _ I _ _ Hp) as (_ & _ & ? & _). cbn. lia.
      + by eapply inv_set.
  Qed.
  Lemma inv_run acts : inv (w_run size ncons acts).
  Proof. unfold w_run. induction acts as [|a acts IH] using rev_ind; [apply inv_new|]. rewrite fold_left_app. cbn. by apply inv_step. Qed.
  Lemma sw_of s w r t t' l v : evt (w_tr s) w t (AWrite l v) -> evt (w_tr s) r t' (ARead l w v) -> hb (w_tr s) w r.
  Proof. intros Hw Hr. apply hb_sw. exists (Ev t (AWrite l v)), (Ev t' (ARead l w v)). split_and!; [done|done|]. exists l, v. split; [by left|left; eauto]. Qed.
  Lemma race_free s i j : inv s -> ~ race (w_tr s) i j.
  Proof.
    intros I (Hij & ([t o] & [t' o'] & Hi & Hj & Hcf) & Hnhb). apply Hnhb. cbn in Hcf.
    destruct o as [| | |x y|x y]; destruct o' as [| | |x' y'|x' y']; cbn in Hcf; try done; subst x'.
    - (* read, then write *)
      destruct (i_dr _ I _ _ _ _ Hi) as (c & m & -> & -> & -> & Hm & Hc & (w & r & v & Hwr & Hw & Hr & Hmv) & _).
      destruct (i_dw _ I _ _ _ _ Hj) as (-> & n & -> & Hx & Hn & Hk).
      destruct (i_cur _ I _ _ _ Hw) as (_ & _ & Hd). destruct (Hd m) as (d & ? & Hdw); [lia|].
      assert (m < n) by (eapply (i_order _ I d j); [done|done|lia]).
      assert (m <= n - size) by (by apply mod_window). destruct (Hk c Hc) as [?|(e & r' & v' & Her & He & Hr' & ?)]; [lia|].
      destruct (i_seq _ I _ _ _ _ He) as (_ & Hs & _).
      assert (Hie : (i < e)%nat). { destruct (decide (i < e)%nat); [done|exfalso]. assert (i <> e) by (intros ->; congruence). assert (v' < m); [|lia]. eapply Hs; [|exact Hi]. lia. }
      eapply hb_trans; [by eapply (po_intro _ i e)|]. eapply hb_trans; [by eapply sw_of|]. eapply (po_intro _ r' j); [lia|done|done|done].
    - (* write, then read *)
      destruct (i_dr _ I _ _ _ _ Hj) as (c & m & -> & -> & Hx & Hm & Hc & (w & r & v & Hwr & Hw & Hr & Hmv) & _).
      destruct (i_dw _ I _ _ _ _ Hi) as (-> & n & -> & -> & Hn & Hk).
      destruct (i_cur _ I _ _ _ Hw) as (_ & _ & Hd). destruct (Hd m) as (d & ? & Hdw); [lia|].
      assert (n <= m).
      { destruct (decide (n <= m)); [done|exfalso]. assert (m <= n - size) by (apply mod_window; [done|lia]).
        destruct (Hk c Hc) as [?|(e & r' & v' & Her & He & Hr' & ?)]; [lia|]. destruct (i_seq _ I _ _ _ _ He) as (_ & Hs & _). assert (v' < m); [|lia]. eapply Hs; [|exact Hj]. lia. }
      assert (i <= d)%nat. { destruct (decide (i <= d)%nat); [done|exfalso]. assert (m < n); [|lia]. eapply (i_order _ I d i); [done|done|lia]. }
      eapply hb_trans; [eapply (po_intro _ i w); [lia|done|done|done]|]. eapply hb_trans; [by eapply sw_of|]. eapply (po_intro _ r j); [lia|done|done|done].
    - destruct (i_dw _ I _ _ _ _ Hi) as (-> & _). destruct (i_dw _ I _ _ _ _ Hj) as (-> & _). by eapply (po_intro _ i j).
  Qed.
End Inv.
(** For every ring size, number of consumers and execution on weak memory, there is no data race on the slots ... *)
Theorem C86_race_free : forall size ncons acts i j, 0 < size -> ~ race (w_tr (w_run size ncons acts)) i j.
Proof. intros. eapply race_free; [done|]. by apply inv_run. Qed.
(** ... and every consumer reads the events 0, 1, 2, ... in order, each with its own content. *)
Theorem C86_reads : forall size ncons acts c, 0 < size -> (c < ncons)%nat -> exists k, 0 <= k /\ reads_of c (w_tr (w_run size ncons acts)) = Some <$> seqZ 0 k.
Proof.
  intros size ncons acts c Hs Hc. pose proof (inv_run size ncons Hs acts) as I.
  destruct (lookup_lt_is_Some_2 (w_cons (w_run size ncons acts)) c) as [p Hp]; [by rewrite (i_len _ _ _ I)|].
  destruct (i_cons _ _ _ I _ _ Hp) as (? & ? & _). eauto.
Qed.
(** Nothing is read that was not written and published: each read is preceded, in happens-before, by the write of that event. *)
Theorem C86_published_first : forall size ncons acts j c x v, 0 < size -> let tr := w_tr (w_run size ncons acts) in
  tr !! j = Some (Ev (S c) (DRead x v)) -> exists n d, v = Some n /\ x = n mod size /\ tr !! d = Some (Ev 0 (DWrite x (Some n))) /\ hb tr d j.
Proof.
  intros size ncons acts j c x v Hs tr Hj. pose proof (inv_run size ncons Hs acts) as I. fold tr in Hj.
  destruct (i_dr _ _ _ I _ _ _ _ Hj) as (c' & m & [= <-] & -> & -> & Hm & Hc & (w & r & v' & Hwr & Hw & Hr & Hmv) & _).
  destruct (i_cur _ _ _ I _ _ _ Hw) as (_ & _ & Hd). destruct (Hd m) as (d & ? & Hdw); [lia|].
  exists m, d. split_and!; try done. fold tr in Hw, Hr, Hdw.
  eapply hb_trans; [eapply (po_intro _ d w); [lia|done|done|done]|]. eapply hb_trans; [by eapply sw_of|]. eapply (po_intro _ r j); [lia|done|done|done].
Qed.
(** A concrete execution that goes round a ring of two slots with two consumers, one of which throws once; a stale read of a consumer's sequence only makes the producer scan again. *)
Definition C86_acts : list wact :=
  let pub1 := [WProd 0 true; WProd 0 true; WProd 0 true] in
  pub1 ++ pub1 ++ [WCons 0 6 false; WCons 0 0 false; WCons 0 0 true; WCons 0 0 false; WCons 1 4 false; WCons 1 0 false; WCons 1 0 false;
    WProd 0 true; WProd 1 true; WProd 13 true; WProd 0 true; WProd 10 true; WProd 13 true; WProd 0 true; WProd 0 true; WProd 0 true; WCons 0 6 false; WCons 0 19 false; WCons 0 0 false].
Example C86_case : let s := w_run 2 2 C86_acts in
  drop 14 (w_tr s) = [Ev 0 (ARead (LSeq 0) 1 (-1)); Ev 0 (ARead (LSeq 1) 13 0); Ev 0 (ARead (LSeq 0) 10 1); Ev 0 (ARead (LSeq 1) 13 0); Ev 0 (DWrite 0 (Some 2)); Ev 0 (AWrite LCursor 2);
    Ev 1 (ARead LCursor 6 1); Ev 1 (ARead LCursor 19 2); Ev 1 (DRead 0 (Some 2))] /\ reads_of 0 (w_tr s) = [Some 0; Some 1; Some 2] /\ reads_of 1 (w_tr s) = [Some 0].
Proof. by vm_compute. Qed.
(** There, the first read of slot 0 (event 8 of the trace) and the second write of it (event 18) conflict, and are ordered. *)
Example C86_case_conflict : let tr := w_tr (w_run 2 2 C86_acts) in hb tr 8 18.
Proof.
  cbn zeta. eapply hb_trans; [eapply (po_intro _ 8 10); [lia|by vm_compute|by vm_compute|done]|]. eapply hb_trans; [|eapply (po_intro _ 16 18); [lia|by vm_compute|by vm_compute|done]].
  apply hb_sw. do 2 eexists. split_and!; [by vm_compute|by vm_compute|]. exists (LSeq 0), 1. split; [by left|left; eexists; done].
Qed.
Print Assumptions C86_race_free.
Print Assumptions C86_reads.
Print Assumptions C86_published_first.
