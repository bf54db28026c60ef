(** * The lock-free stack on weak memory (C88). *)
From Coq Require Import Lia ZifyBool.
From stdpp Require Import prelude list_numbers.
From Verif Require Import LockFreeStack_Model LfsWeak_Model.
Local Open Scope nat_scope.
Ltac upd_simpl := unfold upd in *; repeat case_decide; subst; try done.
Lemma upd_eq {A B} `{EqDecision A} (f : A -> B) a b : upd f a b a = b.
Proof. unfold upd. by rewrite decide_True. Qed.
Lemma upd_ne {A B} `{EqDecision A} (f : A -> B) a b x : x <> a -> upd f a b x = f x.
Proof. intros. unfold upd. by rewrite decide_False. Qed.
Lemma omap_fmap' {A B C} (f : B -> option C) (g : A -> B) (l : list A) : omap f (g <$> l) = omap (fun x => f (g x)) l.
Proof. induction l as [|x l IH]; [done|]. cbn. by rewrite IH. Qed.
Lemma own_unique {A B} (f : A -> option B) (l : list A) t u x y b : NoDup (omap f l) -> l !! t = Some x -> l !! u = Some y -> f x = Some b -> f y = Some b -> t = u.
Proof.
  revert t u. induction l as [|z l IH]; intros t u Hnd Ht Hu Hx Hy; [done|]. cbn in Hnd.
  assert (Hnd' : NoDup (omap f l)) by (destruct (f z); [by apply NoDup_cons in Hnd as [_ ?]|done]).
  destruct t as [|t], u as [|u]; cbn in Ht, Hu; [done| | |f_equal; by eapply IH].
  - injection Ht as ->. rewrite Hx in Hnd. apply NoDup_cons in Hnd as [Hn _]. exfalso. apply Hn. apply elem_of_list_omap. exists y. split; [by eapply elem_of_list_lookup_2|done].
  - injection Hu as ->. rewrite Hy in Hnd. apply NoDup_cons in Hnd as [Hn _]. exfalso. apply Hn. apply elem_of_list_omap. exists x. split; [by eapply elem_of_list_lookup_2|done].
Qed.
Section Thr.
  Context {A B : Type}.
  Lemma omap_split (f : A -> option B) (l : list A) t x : l !! t = Some x ->
    exists r, omap f l ≡ₚ option_list (f x) ++ r /\ forall y, omap f (<[t := y]> l) ≡ₚ option_list (f y) ++ r.
  Proof.
    intros H. exists (omap f (take t l) ++ omap f (drop (S t) l)).
    assert (G : forall y, omap f (take t l ++ y :: drop (S t) l) ≡ₚ option_list (f y) ++ omap f (take t l) ++ omap f (drop (S t) l)).
    { intros y. rewrite omap_app. cbn. destruct (f y); cbn; [|done]. by rewrite <- Permutation_middle. }
    split; [rewrite <- (take_drop_middle l t x H) at 1; apply G|]. intros y. rewrite insert_take_drop by (by eapply lookup_lt_Some). apply G.
  Qed.
  Lemma concat_split (f : A -> list B) (l : list A) t x : l !! t = Some x ->
    exists r, concat (f <$> l) ≡ₚ f x ++ r /\ forall (g : A -> list B) y, (forall u z, u <> t -> l !! u = Some z -> g z = f z) -> concat (g <$> <[t := y]> l) ≡ₚ g y ++ r.
  Proof.
    intros H. exists (concat (f <$> take t l) ++ concat (f <$> drop (S t) l)).
    assert (G : forall (g : A -> list B) y, concat (g <$> (take t l ++ y :: drop (S t) l)) ≡ₚ g y ++ concat (g <$> take t l) ++ concat (g <$> drop (S t) l)).
    { intros g y. rewrite fmap_app, concat_app. cbn. rewrite !app_assoc. f_equiv. apply Permutation_app_comm. }
    split; [rewrite <- (take_drop_middle l t x H) at 1; apply G|]. intros g y Hg. rewrite insert_take_drop by (by eapply lookup_lt_Some). rewrite G. f_equiv.
    assert (E1 : g <$> take t l = f <$> take t l).
    { apply list_fmap_ext. intros i z [Hz ?]%lookup_take_Some. apply (Hg i); [lia|done]. }
    assert (E2 : g <$> drop (S t) l = f <$> drop (S t) l).
    { apply list_fmap_ext. intros i z Hz. rewrite lookup_drop in Hz. apply (Hg (S t + i)); [lia|done]. }
    by rewrite E1, E2.
  Qed.
End Thr.
Section Inv.
  Context {T : Type} (d : list T) (n : nat).
  Notation N := (length d).
  Implicit Types (s : lst T) (p : lpc T).
  (** The nodes linked from [h]. *)
  Fixpoint is_list (nx : list (list (option nat))) (h : option nat) (l : list nat) : Prop :=
    match l with
    | [] => h = None
    | i :: r => h = Some i /\ exists v, (nx !! i ≫= last) = Some v /\ is_list nx v r
    end.
  Definition covers (nx : list (list (option nat))) (dts : nat -> nat) (v : view) (i : nat) : Prop :=
    (exists h, nx !! i = Some h /\ S (vN v i) = length h) /\ vD v i = dts i.
  (** No view is ahead of what there is. *)
  Definition vok s (v : view) : Prop :=
    (forall b, vH v b < length (l_h s b)) /\ (forall i h, l_nx s !! i = Some h -> vN v i < length h) /\ (forall i, vD v i <= l_dts s i).
  Definition own p : option nat := match p with LMove _ i | LPushLoad _ i _ | LPushSet _ i _ _ | LPushCas _ i _ _ => Some i | _ => None end.
  (** The element a pop in progress has taken. *)
  Definition flight (data : list T) p : list T :=
    match p with
    | LMove OPop i => option_list (data !! i)
    | LPushLoad OPop _ v | LPushSet OPop _ v _ | LPushCas OPop _ v _ => [v]
    | _ => []
    end.
  Definition okpc s p v : Prop :=
    match p with
    | LIdle | LPopLoad _ => True
    | LPopRead o ts => ts < length (l_h s (o_src o)) /\ (S ts = length (l_h s (o_src o)) -> forall m i, l_h s (o_src o) !! ts = Some m -> m_idx m = Some i -> covers (l_nx s) (l_dts s) v i)
    | LPopCas o ts nxt => ts < length (l_h s (o_src o)) /\ (exists m i, l_h s (o_src o) !! ts = Some m /\ m_idx m = Some i /\
         (S ts = length (l_h s (o_src o)) -> covers (l_nx s) (l_dts s) v i /\ (l_nx s !! i ≫= last) = Some nxt))
    | LMove o i => covers (l_nx s) (l_dts s) v i
    | LPushLoad o i y => covers (l_nx s) (l_dts s) v i /\ (forall z, o = OPush z -> y = z) /\ l_data s !! i = Some y
    | LPushSet o i y ts => covers (l_nx s) (l_dts s) v i /\ (forall z, o = OPush z -> y = z) /\ l_data s !! i = Some y /\ ts < length (l_h s (o_dst o))
    | LPushCas o i y ts => covers (l_nx s) (l_dts s) v i /\ (forall z, o = OPush z -> y = z) /\ l_data s !! i = Some y /\
         exists m, l_h s (o_dst o) !! ts = Some m /\ (l_nx s !! i ≫= last) = Some (m_idx m)
    end.
  Record inv s (L : bool -> list nat) : Prop := {
    i_len : length (l_nx s) = N /\ length (l_data s) = N;
    i_h : forall b, exists h m, l_h s b = h ++ [m] /\ is_list (l_nx s) (m_idx m) (L b) /\ forall i, i ∈ L b -> covers (l_nx s) (l_dts s) (m_view m) i;
    i_msg : forall b ts m, l_h s b !! ts = Some m -> m_aba m = u16 (Z.of_nat ts) /\ vok s (m_view m);
    i_part : L true ++ L false ++ omap own (l_thr s).*1 ≡ₚ seq 0 N;
    i_thr : forall t p v, l_thr s !! t = Some (p, v) -> vok s v /\ okpc s p v;
    i_race : l_race s = false;
    i_cons : d ++ l_pushed s ≡ₚ l_popped s ++ concat (flight (l_data s) <$> (l_thr s).*1) ++ omap (fun i => l_data s !! i) (L true)
  }.
  (** ** Views *)
  Lemma vjoin_l (v w : view) : forall b i, vH v b <= vH (vjoin v w) b /\ vN v i <= vN (vjoin v w) i /\ vD v i <= vD (vjoin v w) i.
  Proof. intros. cbn. lia. Qed.
  Lemma vok_join s v w : vok s v -> vok s w -> vok s (vjoin v w).
  Proof.
    intros (H1 & H2 & H3) (G1 & G2 & G3). split_and!; cbn.
    - intros b. specialize (H1 b). specialize (G1 b). lia.
    - intros i h Hh. specialize (H2 i h Hh). specialize (G2 i h Hh). lia.
    - intros i. specialize (H3 i). specialize (G3 i). lia.
  Qed.
  Lemma covers_join_l s v w i : vok s w -> covers (l_nx s) (l_dts s) v i -> covers (l_nx s) (l_dts s) (vjoin v w) i.
  Proof.
    intros (G1 & G2 & G3) ((h & Hh & H1) & H2). specialize (G2 i h Hh). specialize (G3 i). split; cbn; [|lia]. exists h. split; [done|lia].
  Qed.
  Lemma covers_join_r s v w i : vok s v -> covers (l_nx s) (l_dts s) w i -> covers (l_nx s) (l_dts s) (vjoin v w) i.
  Proof.
    intros (G1 & G2 & G3) ((h & Hh & H1) & H2). specialize (G2 i h Hh). specialize (G3 i). split; cbn; [|lia]. exists h. split; [done|lia].
  Qed.
  Lemma is_list_frame nx nx' h l : (forall i, i ∈ l -> nx' !! i = nx !! i) -> is_list nx h l -> is_list nx' h l.
  Proof.
    revert h. induction l as [|i l IH]; intros h Hf Hl; [done|]. destruct Hl as (-> & v & Hv & Hl). split; [done|]. exists v.
    split; [rewrite Hf; [done|by left]|]. apply IH; [|done]. intros j Hj. apply Hf. by right.
  Qed.
  Lemma inv_init : d <> [] -> inv (l_init d n) (fun b => if b then seq 0 N else []).
  Proof.
    intros Hd. assert (Hpos : 0 < N) by (destruct d; [done|cbn; lia]).
    assert (Hnx : forall i, i < N -> l_nx (l_init d n) !! i = Some [if decide (S i < N) then Some (S i) else None]).
    { intros i Hi. cbn. rewrite list_lookup_fmap, lookup_seq_lt by done. done. }
    assert (Hv : vok (l_init d n) vzero). { split_and!; cbn; [lia| |lia]. intros i h Hh. rewrite list_lookup_fmap in Hh. apply fmap_Some in Hh as (? & ? & ->). cbn. lia. }
    split.
    - cbn. by rewrite fmap_length, seq_length.
    - intros b. exists [], (Msg 0 (if b then Some 0 else None) vzero). split; [done|]. destruct b; [|split; [done|by intros i ?%elem_of_nil]]. split.
      + cbn [m_idx]. assert (G : forall k j, j + k = N -> is_list (l_nx (l_init d n)) (if decide (j < N) then Some j else None) (seq j k)).
        { induction k as [|k IH]; intros j Hj; cbn [seq is_list]; [rewrite decide_False by lia; done|]. rewrite decide_True by lia. split; [done|].
          exists (if decide (S j < N) then Some (S j) else None). split; [rewrite Hnx by lia; done|]. apply IH. lia. }
        specialize (G N 0 eq_refl). rewrite decide_True in G by lia. exact G.
      + intros i Hi%elem_of_seq. split; [|done]. eexists. split; [apply Hnx; lia|done].
    - intros b ts m Hm. cbn in Hm. apply list_lookup_singleton_Some in Hm as [-> <-]. cbn. done.
    - assert (omap own (l_thr (l_init d n)).*1 = []) as ->. { cbn. generalize n. induction n0 as [|k IH]; [done|]. cbn. exact IH. }
      by rewrite !app_nil_r.
    - intros t p v Ht. cbn in Ht. apply lookup_replicate in Ht as [[= -> ->] _]. done.
    - done.
    - assert (concat (flight (l_data (l_init d n)) <$> (l_thr (l_init d n)).*1) = []) as ->. { cbn. generalize n. induction n0 as [|k IH]; [done|]. cbn. exact IH. }
      cbn [l_pushed l_popped l_data l_init app]. rewrite app_nil_r.
      assert (G : forall e : list T, omap (fun i => e !! i) (seq 0 (length e)) = e).
      { induction e as [|x e IH]; [done|]. cbn [length seq omap list_omap]. cbn. f_equal. rewrite <- fmap_S_seq. rewrite omap_fmap'. exact IH. }
      by rewrite G.
  Qed.
  (** ** Steps that change the thread only *)
  Lemma inv_goto s L t p v p' v' : inv s L -> l_thr s !! t = Some (p, v) -> own p' = own p -> flight (l_data s) p' = flight (l_data s) p -> vok s v' -> okpc s p' v' -> inv (l_goto s t p' v') L.
  Proof.
    intros I Ht Ho Hf Hv Hok. assert (Ht1 : (l_thr s).*1 !! t = Some p) by (by rewrite list_lookup_fmap, Ht).
    split; try apply I.
    - cbn [l_goto l_thr]. rewrite list_fmap_insert. cbn [fst]. rewrite <- (i_part _ _ I). destruct (omap_split own _ _ _ Ht1) as (r & Hr1 & Hr2). by rewrite Hr1, Hr2, Ho.
    - cbn [l_goto l_thr]. intros u q w [(<- & [= <- <-] & _)|[? Hu]]%list_lookup_insert_Some; [done|]. by apply (i_thr _ _ I) in Hu.
    - cbn [l_goto l_thr l_data l_popped l_pushed]. rewrite (i_cons _ _ I). rewrite list_fmap_insert. cbn [fst]. f_equiv. f_equiv.
      destruct (concat_split (flight (l_data s)) _ _ _ Ht1) as (r & Hr1 & Hr2). rewrite Hr1, (Hr2 (flight (l_data s))) by done. by rewrite Hf.
  Qed.
  Lemma inv_fail s L : inv s L -> inv (l_fail s) L.
  Proof. intros I. split; apply I. Qed.
  (** ** Loads *)
  Lemma last_top s L b m i : inv s L -> l_h s b !! pred (length (l_h s b)) = Some m -> m_idx m = Some i ->
    i ∈ L b /\ covers (l_nx s) (l_dts s) (m_view m) i.
  Proof.
    intros I Hm Hi. destruct (i_h _ _ I b) as (h & m' & E & Hl & Hc). rewrite E, app_length in Hm. cbn in Hm. replace (pred (length h + 1)) with (length h) in Hm by lia.
    rewrite list_lookup_middle in Hm by done. injection Hm as <-. rewrite Hi in Hl. destruct (L b) as [|j l] eqn:EL; [done|]. destruct Hl as ([= <-] & _).
    split; [by left|]. apply Hc. by left.
  Qed.
  Lemma load_spec0 s L acq b v from w : inv s L -> vok s v -> l_load acq s b v from = Some w ->
    from < length (l_h s b) /\ vok s w /\ (forall i, covers (l_nx s) (l_dts s) v i -> covers (l_nx s) (l_dts s) w i).
  Proof.
    intros I Hv Hl. unfold l_load in Hl. destruct (l_h s b !! from) as [m|] eqn:Em; [|done]. case_decide as Hle; [|done]. injection Hl as <-.
    pose proof (lookup_lt_Some _ _ _ Em) as Hlt. destruct (i_msg _ _ I _ _ _ Em) as [_ Hmv].
    assert (Hs : vok s (see_h v b from)). { destruct Hv as (H1 & H2 & H3). split_and!; cbn; [|done|done]. intros b'. unfold upd. case_decide; [by subst|apply H1]. }
    destruct acq; [|done]. split_and!; [done|by apply vok_join|]. intros i Hc. apply covers_join_l; [done|]. exact Hc.
  Qed.
  Lemma load_spec s L b v from w : inv s L -> vok s v -> l_load true s b v from = Some w ->
    from < length (l_h s b) /\ vok s w /\ (forall i, covers (l_nx s) (l_dts s) v i -> covers (l_nx s) (l_dts s) w i) /\
    (S from = length (l_h s b) -> forall m i, l_h s b !! from = Some m -> m_idx m = Some i -> covers (l_nx s) (l_dts s) w i).
  Proof.
    intros I Hv Hl. destruct (load_spec0 _ _ _ _ _ _ _ I Hv Hl) as (H1 & H2 & H3). split_and!; try done. unfold l_load in Hl. destruct (l_h s b !! from) as [m|] eqn:Em; [|done].
    case_decide as Hle; [|done]. injection Hl as <-. intros Hlast m' i [= <-] Hi. apply covers_join_r.
    - destruct Hv as (G1 & G2 & G3). split_and!; cbn; [|done|done]. intros b'. unfold upd. case_decide; [by subst|apply G1].
    - eapply (last_top _ _ b); [done| |done]. replace (pred (length (l_h s b))) with from by lia. done.
  Qed.
  (** ** Appending to the history of a head *)
  Lemma vok_write s b m v : vok s v -> vok (l_write_h s b m) v.
  Proof. intros (H1 & H2 & H3). split_and!; cbn; [|done|done]. intros b'. specialize (H1 b'). unfold upd. case_decide; [subst; rewrite app_length; cbn; lia|done]. Qed.
  Lemma write_len s b m b' : length (l_h s b') <= length (l_h (l_write_h s b m) b').
  Proof. cbn. unfold upd. case_decide; [subst; rewrite app_length; lia|done]. Qed.
  Lemma write_lookup s b m b' ts x : l_h s b' !! ts = Some x -> l_h (l_write_h s b m) b' !! ts = Some x.
  Proof. intros H. cbn. unfold upd. case_decide; [subst; by apply lookup_app_l_Some|done]. Qed.
  Lemma write_last s b m b' ts : ts < length (l_h s b') -> S ts = length (l_h (l_write_h s b m) b') -> b' <> b /\ l_h (l_write_h s b m) b' = l_h s b'.
  Proof. cbn. unfold upd. case_decide; [subst; rewrite app_length; cbn; lia|done]. Qed.
  Lemma okpc_write s b m p v : okpc s p v -> okpc (l_write_h s b m) p v.
  Proof.
    destruct p as [|o|o ts|o ts nxt|o i|o i y|o i y ts|o i y ts]; cbn [okpc]; try done.
    - intros [H1 H2]. split; [pose proof (write_len s b m (o_src o)); lia|]. intros Hl m' i Hm Hi. destruct (write_last s b m (o_src o) ts H1 Hl) as [_ E]. rewrite E in Hl, Hm. by eapply H2.
    - intros [H1 (m' & i & Hm & Hi & H2)]. split; [pose proof (write_len s b m (o_src o)); lia|]. exists m', i. split_and!; [by apply write_lookup|done|].
      intros Hl. destruct (write_last s b m (o_src o) ts H1 Hl) as [_ E]. rewrite E in Hl. by apply H2.
    - intros (? & ? & ? & ?). split_and!; try done. pose proof (write_len s b m (o_dst o)). lia.
    - intros (? & ? & ? & m' & ? & ?). split_and!; try done. exists m'. split; [by apply write_lookup|done].
  Qed.
  (** ** Changing a node one owns *)
  Lemma part_disjoint s L : inv s L -> NoDup (L true ++ L false ++ omap own (l_thr s).*1).
  Proof. intros I. rewrite (i_part _ _ I). apply NoDup_seq. Qed.
  Lemma owned s L t p v i : inv s L -> l_thr s !! t = Some (p, v) -> own p = Some i -> i < N /\ (forall b, i ∉ L b) /\
    (forall u q w, l_thr s !! u = Some (q, w) -> u <> t -> own q <> Some i).
  Proof.
    intros I Ht Hi. pose proof (part_disjoint s L I) as Hnd. assert (Ht1 : (l_thr s).*1 !! t = Some p) by (by rewrite list_lookup_fmap, Ht).
    assert (Hin : i ∈ omap own (l_thr s).*1). { apply elem_of_list_omap. exists p. split; [by eapply elem_of_list_lookup_2|done]. }
    apply NoDup_app in Hnd as (H1 & H2 & Hnd). apply NoDup_app in Hnd as (H3 & H4 & H5). split_and!.
    - assert (i ∈ seq 0 N) as ?%elem_of_seq; [|lia]. rewrite <- (i_part _ _ I). rewrite !elem_of_app. by right; right.
    - intros [|] Hb; [apply (H2 i Hb); rewrite elem_of_app; by right|by apply (H4 i Hb)].
    - intros u q w Hu Hne Hq. apply Hne. eapply (own_unique own); [exact H5| |exact Ht1|done|done]. by rewrite list_lookup_fmap, Hu.
  Qed.
  Lemma covers_frame nx nx' dts dts' v j : nx' !! j = nx !! j -> dts' j = dts j -> covers nx dts v j -> covers nx' dts' v j.
  Proof. intros E1 E2 [(h & Hh & H1) H2]. split; [exists h; by rewrite E1|by rewrite E2]. Qed.
  Lemma okpc_frame s s' L i p v : inv s L -> (forall b, l_h s' b = l_h s b) -> (forall j, j <> i -> l_nx s' !! j = l_nx s !! j /\ l_dts s' j = l_dts s j /\ l_data s' !! j = l_data s !! j) ->
    (forall b, i ∉ L b) -> own p <> Some i -> okpc s p v -> okpc s' p v.
  Proof.
    intros I Hh Hf HL Ho. assert (Htop : forall b ts m j, l_h s b !! ts = Some m -> S ts = length (l_h s b) -> m_idx m = Some j -> j <> i).
    { intros b ts m j Hm Hl Hj ->. destruct (last_top s L b m i I) as [Hin _]; [by replace (pred (length (l_h s b))) with ts by lia|done|]. by apply (HL b). }
    destruct p as [|o|o ts|o ts nxt|o j|o j y|o j y ts|o j y ts]; cbn [okpc own] in *; rewrite ?Hh; try done.
    - intros [H1 H2]. split; [done|]. intros Hl m j Hm Hj. destruct (Hf j) as (E1 & E2 & E3); [by eapply Htop|]. eapply covers_frame; [done|done|by eapply H2].
    - intros [H1 (m & j & Hm & Hj & H2)]. split; [done|]. exists m, j. split_and!; [done|done|]. intros Hl. destruct (Hf j) as (E1 & E2 & E3); [by eapply Htop|].
      destruct (H2 Hl) as [Hc Hn]. split; [by eapply covers_frame|by rewrite E1].
    - intros Hc. destruct (Hf j) as (E1 & E2 & E3); [congruence|]. by eapply covers_frame.
    - intros (Hc & Hz & Hd). destruct (Hf j) as (E1 & E2 & E3); [congruence|]. rewrite E3. split_and!; [by eapply covers_frame|done|done].
    - intros (Hc & Hz & Hd & ?). destruct (Hf j) as (E1 & E2 & E3); [congruence|]. rewrite E3. split_and!; [by eapply covers_frame|done|done|done].
    - intros (Hc & Hz & Hd & m & ? & ?). destruct (Hf j) as (E1 & E2 & E3); [congruence|]. rewrite E3, E1. split_and!; [by eapply covers_frame|done|done|]. by exists m.
  Qed.
  Lemma omap_frame (dd dd' : list T) (l : list nat) : (forall j, j ∈ l -> dd' !! j = dd !! j) -> omap (fun j => dd' !! j) l = omap (fun j => dd !! j) l.
  Proof. induction l as [|j l IH]; intros H; [done|]. cbn. rewrite H by (by left). rewrite IH; [done|]. intros k Hk. apply H. by right. Qed.
  Lemma flight_frame (dd dd' : list T) i p : own p <> Some i -> (forall j, j <> i -> dd' !! j = dd !! j) -> flight dd' p = flight dd p.
  Proof. destruct p as [|o|o ts|o ts nxt|o j|o j y|o j y ts|o j y ts]; cbn; try done. intros Ho Hf. destruct o; [done|]. rewrite Hf; [done|congruence]. Qed.
  Lemma step_move s L t o i v x : inv s L -> l_thr s !! t = Some (LMove o i, v) -> l_data s !! i = Some x ->
    inv (let y := match o with OPush z => z | OPop => x end in
      Lst (l_h s) (l_nx s) (<[i := y]> (l_data s)) (upd (l_dts s) i (S (l_dts s i))) (<[t := (LPushLoad o i y, see_d v i (S (l_dts s i)))]> (l_thr s))
          (l_race s || bool_decide (vD v i <> l_dts s i)) (l_pushed s) (l_popped s) (l_failed s)) L.
  Proof.
    intros I Ht Hx. cbn zeta. set (y := match o with OPush z => z | OPop => x end). set (s' := Lst _ _ _ _ _ _ _ _ _).
    assert (Ht1 : (l_thr s).*1 !! t = Some (LMove o i)) by (by rewrite list_lookup_fmap, Ht).
    destruct (owned _ _ _ _ _ i I Ht eq_refl) as (HiN & HiL & Hother). destruct (i_thr _ _ I _ _ _ Ht) as [Hv Hcov]. cbn [okpc] in Hcov.
    destruct (i_len _ _ I) as [Hl1 Hl2].
    assert (Hvok : forall w, vok s w -> vok s' w).
    { intros w (H1 & H2 & H3). split_and!; cbn; [done|done|]. intros j. specialize (H3 j). unfold upd. case_decide; [subst; lia|done]. }
    assert (Hf : forall j, j <> i -> l_nx s' !! j = l_nx s !! j /\ l_dts s' j = l_dts s j /\ l_data s' !! j = l_data s !! j).
    { intros j Hj. cbn. split_and!; [done|by apply upd_ne|by apply list_lookup_insert_ne]. }
    split.
    - cbn. by rewrite insert_length.
    - intros b. destruct (i_h _ _ I b) as (h & m & E & Hl & Hc). exists h, m. split_and!; [done|done|]. intros j Hj. destruct (Hf j) as (E1 & E2 & _); [intros ->; by apply (HiL b)|].
      eapply covers_frame; [done|done|by apply Hc].
    - intros b ts m Hm. destruct (i_msg _ _ I _ _ _ Hm) as [? ?]. split; [done|by apply Hvok].
    - cbn [s' l_thr]. rewrite list_fmap_insert. cbn [fst]. rewrite <- (i_part _ _ I). destruct (omap_split own _ _ _ Ht1) as (r & Hr1 & Hr2). by rewrite Hr1, Hr2.
    - cbn [s' l_thr]. intros u q w [(<- & [= <- <-] & _)|[Hne Hu]]%list_lookup_insert_Some.
      + split.
        * destruct Hv as (H1 & H2 & H3). split_and!; cbn; [done|done|]. intros j. specialize (H3 j). unfold upd. case_decide; [subst; lia|done].
        * cbn [okpc s' l_nx l_dts l_data]. split_and!; [|by intros z ->|apply list_lookup_insert; lia]. destruct Hcov as [(h & Hh & H1) H2].
          split; [exists h; by cbn|]. cbn [see_d vD]. by rewrite !upd_eq.
      + destruct (i_thr _ _ I _ _ _ Hu) as [Hvu Hok]. split; [by apply Hvok|]. eapply okpc_frame; [exact I|done|done|done|by eapply Hother|done].
    - cbn [s' l_race]. rewrite (i_race _ _ I). destruct Hcov as [_ Hd]. cbn [orb]. apply bool_decide_eq_false. by intros [].
    - cbn [s' l_pushed l_popped l_data l_thr]. rewrite (i_cons _ _ I). f_equiv. rewrite list_fmap_insert. cbn [fst].
      destruct (concat_split (flight (l_data s)) _ _ _ Ht1) as (r & Hr1 & Hr2). rewrite Hr1, (Hr2 (flight (<[i:=y]> (l_data s)))).
      2: { intros u q Hne Hu. rewrite list_lookup_fmap in Hu. destruct (l_thr s !! u) as [[q' w]|] eqn:Eu; [|done]. injection Hu as <-.
           eapply flight_frame; [by eapply Hother|]. intros j Hj. by apply list_lookup_insert_ne. }
      rewrite (omap_frame (l_data s) (<[i:=y]> (l_data s)) (L true)); [|intros j Hj; apply list_lookup_insert_ne; intros <-; by apply (HiL true)].
      f_equiv. f_equiv. cbn [flight]. unfold y. destruct o; [done|]. rewrite Hx. done.
  Qed.
  Lemma step_set s L t o i y ts v idx h : inv s L -> l_thr s !! t = Some (LPushSet o i y ts, v) -> m_idx <$> (l_h s (o_dst o) !! ts) = Some idx -> l_nx s !! i = Some h ->
    inv (Lst (l_h s) (<[i := h ++ [idx]]> (l_nx s)) (l_data s) (l_dts s) (<[t := (LPushCas o i y ts, see_n v i (length h))]> (l_thr s))
             (l_race s || bool_decide (S (vN v i) <> length h)) (l_pushed s) (l_popped s) (l_failed s)) L.
  Proof.
    intros I Ht Hidx Hh. set (s' := Lst _ _ _ _ _ _ _ _ _).
    assert (Ht1 : (l_thr s).*1 !! t = Some (LPushSet o i y ts)) by (by rewrite list_lookup_fmap, Ht).
    destruct (owned _ _ _ _ _ i I Ht eq_refl) as (HiN & HiL & Hother). destruct (i_thr _ _ I _ _ _ Ht) as [Hv (Hcov & Hz & Hd & Hts)].
    destruct (i_len _ _ I) as [Hl1 Hl2]. apply fmap_Some in Hidx as (m & Hm & ->).
    assert (Hnx : l_nx s' !! i = Some (h ++ [m_idx m])) by (cbn; apply list_lookup_insert; lia).
    assert (Hvok : forall w, vok s w -> vok s' w).
    { intros w (H1 & H2 & H3). split_and!; [done| |done]. intros j hj Hj. destruct (decide (j = i)) as [->|Hne].
      - rewrite Hnx in Hj. injection Hj as <-. specialize (H2 i h Hh). rewrite app_length. lia.
      - cbn in Hj. rewrite list_lookup_insert_ne in Hj by done. by apply H2. }
    assert (Hf : forall j, j <> i -> l_nx s' !! j = l_nx s !! j /\ l_dts s' j = l_dts s j /\ l_data s' !! j = l_data s !! j).
    { intros j Hj. cbn. split_and!; [by apply list_lookup_insert_ne|done|done]. }
    split.
    - cbn. by rewrite insert_length.
    - intros b. destruct (i_h _ _ I b) as (h0 & m0 & E & Hl & Hc). exists h0, m0. split_and!; [done| |].
      + eapply is_list_frame; [|done]. intros j Hj. apply Hf. intros ->. by apply (HiL b).
      + intros j Hj. destruct (Hf j) as (E1 & E2 & _); [intros ->; by apply (HiL b)|]. eapply covers_frame; [done|done|by apply Hc].
    - intros b k m' Hm'. destruct (i_msg _ _ I _ _ _ Hm') as [? ?]. split; [done|by apply Hvok].
    - cbn [s' l_thr]. rewrite list_fmap_insert. cbn [fst]. rewrite <- (i_part _ _ I). destruct (omap_split own _ _ _ Ht1) as (r & Hr1 & Hr2). by rewrite Hr1, Hr2.
    - cbn [s' l_thr]. intros u q w [(<- & [= <- <-] & _)|[Hne Hu]]%list_lookup_insert_Some.
      + split.
        * pose proof (Hvok _ Hv) as (H1 & H2 & H3). split_and!; [done| |done]. intros j hj Hj. cbn. unfold upd. case_decide as Hji; [|by apply H2]. subst j. rewrite Hnx in Hj. injection Hj as <-. rewrite app_length. cbn. lia.
        * cbn [okpc]. split_and!; [|done|done|exists m; split; [done|by rewrite Hnx; cbn; rewrite last_snoc]].
          split; [exists (h ++ [m_idx m]); split; [done|]; cbn; rewrite upd_eq, app_length; cbn; lia|]. cbn. apply Hcov.
      + destruct (i_thr _ _ I _ _ _ Hu) as [Hvu Hok]. split; [by apply Hvok|]. eapply okpc_frame; [exact I|done|done|done|by eapply Hother|done].
    - cbn [s' l_race]. rewrite (i_race _ _ I). destruct Hcov as [(h' & Hh' & Hlen) _]. rewrite Hh in Hh'. injection Hh' as <-. cbn [orb]. apply bool_decide_eq_false. by intros [].
    - cbn [s' l_pushed l_popped l_data l_thr]. rewrite (i_cons _ _ I). f_equiv. rewrite list_fmap_insert. cbn [fst].
      destruct (concat_split (flight (l_data s)) _ _ _ Ht1) as (r & Hr1 & Hr2). rewrite Hr1, (Hr2 (flight (l_data s))) by done. f_equiv. f_equiv. cbn [flight]. by destruct o.
  Qed.
  Lemma u16_S z : u16 (u16 z + 1) = u16 (z + 1).
  Proof. unfold u16. by rewrite Zplus_mod_idemp_l. Qed.
  (** A successful compare_exchange. [l']: the nodes linked from the new value. *)
  Lemma cas_spec s L b v ts idx m w : inv s L -> vok s v -> l_cas s b v ts idx = Some (m, w) ->
    exists h c o, l_h s b = h ++ [c] /\ l_h s b !! ts = Some o /\ m_idx o = m_idx c /\ u16 (Z.of_nat ts) = u16 (Z.of_nat (length h)) /\ m_idx m = idx /\ m_view m = w /\
      m_aba m = u16 (Z.of_nat (length (l_h s b))) /\ vok (l_write_h s b m) w /\
      (forall i, covers (l_nx s) (l_dts s) v i \/ i ∈ L b -> covers (l_nx s) (l_dts s) w i).
  Proof.
    intros I Hv Hcas. destruct (i_h _ _ I b) as (h & c & E & Hl & Hc). unfold l_cas in Hcas. destruct (l_h s b !! ts) as [o|] eqn:Eo; [|done].
    rewrite E, last_snoc in Hcas. rewrite <- E in Hcas. case_decide as Heq; [|done]. destruct Heq as [Ha Hi]. injection Hcas as <- <-.
    assert (Ec : l_h s b !! length h = Some c) by (rewrite E; by apply list_lookup_middle).
    destruct (i_msg _ _ I _ _ _ Eo) as [Hao _]. destruct (i_msg _ _ I _ _ _ Ec) as [Hac Hvc].
    exists h, c, o. split_and!; try done.
    - congruence.
    - cbn. rewrite Ha, Hac, u16_S. f_equal. rewrite E, app_length. cbn. lia.
    - destruct (vok_join _ _ _ Hv Hvc) as (H1 & H2 & H3). split_and!; [|exact H2|exact H3].
      intros b'. specialize (H1 b'). cbn [see_h vH l_write_h l_h]. unfold upd. case_decide as Hb; [|done]. subst b'. rewrite app_length. cbn. lia.
    - intros i Hi'. change (covers (l_nx s) (l_dts s) (vjoin v (m_view c)) i). destruct Hi' as [Hi'|Hi']; [by apply covers_join_l|]. apply covers_join_r; [done|]. by apply Hc.
  Qed.
  Lemma msgs_write s L b m : inv s L -> m_aba m = u16 (Z.of_nat (length (l_h s b))) -> vok (l_write_h s b m) (m_view m) ->
    forall b' ts m', l_h (l_write_h s b m) b' !! ts = Some m' -> m_aba m' = u16 (Z.of_nat ts) /\ vok (l_write_h s b m) (m_view m').
  Proof.
    intros I Ha Hv b' ts m' Hm. cbn in Hm. unfold upd in Hm. case_decide as Hb.
    - subst b'. apply lookup_app_Some in Hm as [Hm|[Hge Hm]].
      + destruct (i_msg _ _ I _ _ _ Hm). split; [done|by apply vok_write].
      + apply list_lookup_singleton_Some in Hm as [Hts <-]. split; [rewrite Ha; do 2 f_equal; lia|done].
    - destruct (i_msg _ _ I _ _ _ Hm). split; [done|by apply vok_write].
  Qed.
  Lemma data_some s L i : inv s L -> i < N -> exists x, l_data s !! i = Some x.
  Proof. intros I Hi. destruct (i_len _ _ I) as [_ H]. apply lookup_lt_is_Some_2. lia. Qed.
  Lemma upd_perm (L : bool -> list nat) b i l r : L b = i :: l -> upd L b l true ++ upd L b l false ++ i :: r ≡ₚ L true ++ L false ++ r.
  Proof.
    intros E. destruct b; unfold upd; cbn [decide bool_eq_dec bool_rec bool_rect sumbool_rec sumbool_rect]; rewrite E.
    - rewrite (app_assoc l), <- Permutation_middle, <- app_assoc. done.
    - cbn. rewrite <- Permutation_middle. done.
  Qed.
  Lemma upd_perm' (L : bool -> list nat) b i r : upd L b (i :: L b) true ++ upd L b (i :: L b) false ++ r ≡ₚ L true ++ L false ++ i :: r.
  Proof.
    destruct b; unfold upd; cbn.
    - rewrite (app_assoc (L true)), <- Permutation_middle, <- app_assoc. done.
    - by rewrite <- (Permutation_middle (L false)).
  Qed.
  Lemma step_popcas s L t o ts nxt v m w i : inv s L -> l_thr s !! t = Some (LPopCas o ts nxt, v) -> (Z.of_nat (length (l_h s (o_src o))) <= Z.of_nat ts + 65536)%Z ->
    l_cas s (o_src o) v ts nxt = Some (m, w) -> m_idx <$> (l_h s (o_src o) !! ts) = Some (Some i) ->
    exists L', inv (l_goto (l_write_h s (o_src o) m) t (LMove o i) w) L'.
  Proof.
    intros I Ht Hwrap Hcas Hidx. set (b := o_src o) in *. assert (Ht1 : (l_thr s).*1 !! t = Some (LPopCas o ts nxt)) by (by rewrite list_lookup_fmap, Ht).
    destruct (i_thr _ _ I _ _ _ Ht) as [Hv [Hlt (om & i' & Hom & Hi' & Hlast)]]. fold b in Hlt, Hom, Hlast.
    rewrite Hom in Hidx. cbn in Hidx. injection Hidx as Hidx. assert (i' = i) as -> by congruence.
    destruct (cas_spec _ _ _ _ _ _ _ _ I Hv Hcas) as (h & c & oo & E & Eo & Eoc & Etag & Em & Emv & Ema & Hvw & Hcw).
    rewrite Hom in Eo. injection Eo as <-.
    assert (Hts : S ts = length (l_h s b)).
    { rewrite E, app_length in *. cbn in *. unfold u16 in Etag. assert (Z.of_nat (length h) - Z.of_nat ts < 65536)%Z by lia. assert (Z.of_nat ts <= Z.of_nat (length h))%Z by lia.
      assert (Z.of_nat (length h) - Z.of_nat ts = 0)%Z; [|lia]. assert (((Z.of_nat (length h) - Z.of_nat ts) mod 65536 = 0)%Z) as Hm0 by (rewrite Zminus_mod, Etag, Z.sub_diag; done). rewrite Z.mod_small in Hm0 by lia. done. }
    destruct (Hlast Hts) as [Hcov Hnxt]. destruct (i_h _ _ I b) as (h' & c' & E' & Hl & Hc). rewrite E in E'. apply app_inj_2 in E' as [<- [= <-]]; [|done].
    assert (Hci : m_idx c = Some i) by congruence. rewrite Hci in Hl. destruct (L b) as [|j l] eqn:EL; [done|]. destruct Hl as ([= <-] & nx' & Hnx' & Hl). rewrite Hnxt in Hnx'. injection Hnx' as <-.
    assert (HiN : i < N). { assert (i ∈ seq 0 N) as ?%elem_of_seq; [|lia]. rewrite <- (i_part _ _ I). rewrite !elem_of_app. assert (i ∈ L b) by (rewrite EL; by left). destruct b; [by left|right; by left]. }
    exists (upd L b l). split.
    - apply I.
    - intros b'. cbn [l_goto l_write_h l_h l_nx l_dts]. unfold upd. case_decide as Hb; [|apply I]. subst b'. exists (l_h s b), m. split; [done|]. rewrite Em, Emv. split; [done|].
      intros k Hk. apply Hcw. right. by right.
    - cbn [l_goto l_h]. intros b' ts' m' Hm'. eapply msgs_write in Hm' as [? ?]; [split; [done|exact H0]|exact I|done|by rewrite Emv].
    - cbn [l_goto l_thr l_write_h]. rewrite list_fmap_insert. cbn [fst]. rewrite <- (i_part _ _ I). destruct (omap_split own _ _ _ Ht1) as (r & Hr1 & Hr2). rewrite Hr1, Hr2. cbn [own option_list app]. by apply upd_perm.
    - cbn [l_goto l_thr l_write_h]. intros u q w' [(<- & [= <- <-] & _)|[Hne Hu]]%list_lookup_insert_Some.
      + split; [exact Hvw|]. cbn [okpc]. apply Hcw. by left.
      + destruct (i_thr _ _ I _ _ _ Hu) as [Hvu Hok]. split; [by apply (vok_write s b m)|by apply (okpc_write s b m)].
    - apply I.
    - cbn [l_goto l_thr l_write_h l_pushed l_popped l_data]. rewrite (i_cons _ _ I). rewrite list_fmap_insert. cbn [fst]. f_equiv.
      destruct (concat_split (flight (l_data s)) _ _ _ Ht1) as (r & Hr1 & Hr2). rewrite Hr1, (Hr2 (flight (l_data s))) by done. cbn [flight].
      destruct (data_some _ _ i I HiN) as [x Hx]. unfold b, upd in *. destruct o; cbn [o_src] in *; [done|]. rewrite EL. cbn. rewrite Hx. cbn. by rewrite <- Permutation_middle.
  Qed.
  Lemma step_pushcas s L t o i y ts v m w : inv s L -> l_thr s !! t = Some (LPushCas o i y ts, v) -> l_cas s (o_dst o) v ts (Some i) = Some (m, w) ->
    exists L', inv (l_return (l_goto (l_write_h s (o_dst o) m) t LIdle w) o y) L'.
  Proof.
    intros I Ht Hcas. set (b := o_dst o) in *. assert (Ht1 : (l_thr s).*1 !! t = Some (LPushCas o i y ts)) by (by rewrite list_lookup_fmap, Ht).
    destruct (i_thr _ _ I _ _ _ Ht) as [Hv (Hcov & Hz & Hd & om & Hom & Hnx)]. fold b in Hom.
    destruct (cas_spec _ _ _ _ _ _ _ _ I Hv Hcas) as (h & c & oo & E & Eo & Eoc & Etag & Em & Emv & Ema & Hvw & Hcw).
    rewrite Hom in Eo. injection Eo as <-. destruct (i_h _ _ I b) as (h' & c' & E' & Hl & Hc). rewrite E in E'. apply app_inj_2 in E' as [<- [= <-]]; [|done].
    exists (upd L b (i :: L b)). set (s1 := l_goto _ _ _ _).
    assert (G : length (l_nx s1) = N /\ length (l_data s1) = N) by apply I.
    assert (Gh : forall b', exists h m0, l_h s1 b' = h ++ [m0] /\ is_list (l_nx s1) (m_idx m0) (upd L b (i :: L b) b') /\ forall j, j ∈ upd L b (i :: L b) b' -> covers (l_nx s1) (l_dts s1) (m_view m0) j).
    { intros b'. cbn [s1 l_goto l_write_h l_h l_nx l_dts]. unfold upd. case_decide as Hb; [|apply I]. subst b'. exists (l_h s b), m. split; [done|]. rewrite Em, Emv. split.
      - split; [done|]. exists (m_idx om). split; [done|]. by rewrite Eoc.
      - intros k [->|Hk]%elem_of_cons; apply Hcw; [by left|by right]. }
    assert (Gm : forall b' ts' m', l_h s1 b' !! ts' = Some m' -> m_aba m' = u16 (Z.of_nat ts') /\ vok s1 (m_view m')).
    { cbn [s1 l_goto l_h]. intros b' ts' m' Hm'. eapply msgs_write in Hm' as [? ?]; [split; [done|exact H0]|exact I|done|by rewrite Emv]. }
    assert (Gp : upd L b (i :: L b) true ++ upd L b (i :: L b) false ++ omap own (l_thr s1).*1 ≡ₚ seq 0 N).
    { cbn [s1 l_goto l_thr l_write_h]. rewrite list_fmap_insert. cbn [fst]. rewrite <- (i_part _ _ I). destruct (omap_split own _ _ _ Ht1) as (r & Hr1 & Hr2). rewrite Hr1, Hr2. cbn [own option_list app]. by apply upd_perm'. }
    assert (Gt : forall u q w', l_thr s1 !! u = Some (q, w') -> vok s1 w' /\ okpc s1 q w').
    { cbn [s1 l_goto l_thr l_write_h]. intros u q w' [(<- & [= <- <-] & _)|[Hne Hu]]%list_lookup_insert_Some.
      - split; [exact Hvw|done].
      - destruct (i_thr _ _ I _ _ _ Hu) as [Hvu Hok]. split; [by apply (vok_write s b m)|by apply (okpc_write s b m)]. }
    assert (Gc : l_pushed s ++ d ≡ₚ l_popped s ++ flight (l_data s) (LPushCas o i y ts) ++ concat (flight (l_data s) <$> (l_thr s1).*1) ++ omap (fun j => l_data s !! j) (L true)).
    { rewrite Permutation_app_comm, (i_cons _ _ I). f_equiv. cbn [s1 l_goto l_thr l_write_h]. rewrite list_fmap_insert. cbn [fst].
      destruct (concat_split (flight (l_data s)) _ _ _ Ht1) as (r & Hr1 & Hr2). rewrite Hr1, (Hr2 (flight (l_data s))) by done. by rewrite app_assoc. }
    unfold l_return. destruct o as [z|]; (split; [exact G|exact Gh|exact Gm|exact Gp|exact Gt|apply I|]);
      cbn [l_pushed l_popped l_data l_thr]; change (l_pushed s1) with (l_pushed s); change (l_popped s1) with (l_popped s); change (l_data s1) with (l_data s).
    - rewrite (Hz z eq_refl) in *. cbn [flight app] in Gc. unfold b, upd. cbn [o_dst o_src negb]. rewrite decide_True by done. cbn. rewrite Hd. rewrite app_assoc, (Permutation_app_comm d), Gc.
      rewrite <- Permutation_cons_append. rewrite (app_assoc (l_popped s) _ (z :: _)). apply Permutation_cons_app. by rewrite app_assoc.
    - unfold b, upd. cbn [o_dst o_src negb]. rewrite decide_False by done. rewrite (Permutation_app_comm d), Gc. cbn [flight]. by rewrite <- !app_assoc.
  Qed.
  Lemma step s L a : inv s L -> l_not_wrapped s a -> exists L', inv (l_exec true s a) L'.
  Proof.
    intros I Hw. destruct a as [t o|t from spur]; cbn [l_exec].
    - destruct (l_thr s !! t) as [[p v]|] eqn:Ht; [|by exists L]. destruct p; try by exists L. exists L. eapply inv_goto; [done|done|done|done| |done]. by eapply (i_thr _ _ I).
    - destruct (l_thr s !! t) as [[p v]|] eqn:Ht; [|by exists L]. destruct (i_thr _ _ I _ _ _ Ht) as [Hv Hok]. cbn [l_not_wrapped] in Hw. rewrite Ht in Hw.
      destruct p as [|o|o ts|o ts nxt|o i|o i y|o i y ts|o i y ts]; cbn [l_step_pc].
      + by exists L.
      + destruct (l_load true s (o_src o) v from) as [w|] eqn:El; [|by exists L]. destruct (load_spec _ _ _ _ _ _ I Hv El) as (H1 & H2 & _ & H4). exists L. by eapply inv_goto.
      + cbn [okpc] in Hok. destruct Hok as [Hlt Hcov]. destruct (l_h s (o_src o) !! ts) as [m|] eqn:Em; cbn [fmap option_fmap option_map]; [|by exists L].
        destruct (m_idx m) as [i|] eqn:Ei; [|exists L; by apply inv_fail; eapply inv_goto]. destruct (l_nx s !! i) as [h|] eqn:Eh; cbn [mbind option_bind]; [|by exists L].
        destruct (h !! from) as [nxt|] eqn:En; [|by exists L]. case_decide as Hle; [|by exists L]. pose proof (lookup_lt_Some _ _ _ En) as Hfl.
        exists L. eapply inv_goto; [done|done|done|done| |].
        * destruct Hv as (H1 & H2 & H3). split_and!; [done| |done]. intros j hj Hj. cbn. unfold upd. case_decide as Hji; [subst j; rewrite Eh in Hj; by injection Hj as <-|by apply H2].
        * cbn [okpc]. split; [done|]. exists m, i. split_and!; [done|done|]. intros Hl. destruct (Hcov Hl m i eq_refl Ei) as [(h' & Hh' & Hlen) Hdt]. rewrite Eh in Hh'. injection Hh' as <-.
          assert (from = vN v i) as -> by lia. split; [split; [exists h; split; [done|]; cbn; by rewrite upd_eq|done]|]. rewrite Eh. cbn. rewrite last_lookup. by rewrite <- Hlen.
      + destruct (if spur then None else l_cas s (o_src o) v ts nxt) as [[m w]|] eqn:Ec; [destruct (m_idx <$> l_h s (o_src o) !! ts) as [[i|]|] eqn:Ei|].
        * destruct spur; [done|]. by eapply step_popcas.
        * destruct (l_load true s (o_src o) v from) as [w'|] eqn:El; [|by exists L]. destruct (load_spec _ _ _ _ _ _ I Hv El) as (H1 & H2 & _ & H4). exists L. by eapply inv_goto.
        * destruct (l_load true s (o_src o) v from) as [w'|] eqn:El; [|by exists L]. destruct (load_spec _ _ _ _ _ _ I Hv El) as (H1 & H2 & _ & H4). exists L. by eapply inv_goto.
        * destruct (l_load true s (o_src o) v from) as [w'|] eqn:El; [|by exists L]. destruct (load_spec _ _ _ _ _ _ I Hv El) as (H1 & H2 & _ & H4). exists L. by eapply inv_goto.
      + destruct (l_data s !! i) as [x|] eqn:Ex; [|by exists L]. exists L. by apply step_move.
      + destruct (l_load false s (o_dst o) v from) as [w|] eqn:El; [|by exists L]. destruct (load_spec0 _ _ _ _ _ _ _ I Hv El) as (H1 & H2 & H3). exists L.
        eapply inv_goto; [done|done|done|by destruct o|done|]. cbn [okpc] in *. destruct Hok as (? & ? & ?). split_and!; auto.
      + destruct (m_idx <$> l_h s (o_dst o) !! ts) as [idx|] eqn:Ei; [|by exists L]. destruct (l_nx s !! i) as [h|] eqn:Eh; [|by exists L]. exists L. by eapply step_set.
      + destruct (if spur then None else l_cas s (o_dst o) v ts (Some i)) as [[m w]|] eqn:Ec.
        * destruct spur; [done|]. by eapply step_pushcas.
        * destruct (l_load true s (o_dst o) v from) as [w'|] eqn:El; [|by exists L]. destruct (load_spec _ _ _ _ _ _ I Hv El) as (H1 & H2 & H3 & H4). exists L.
          eapply inv_goto; [done|done|done|by destruct o|done|]. cbn [okpc] in *. destruct Hok as (? & ? & ? & _). split_and!; auto.
  Qed.
  Lemma inv_run acts s L : inv s L -> l_no_wrap true s acts -> exists L', inv (l_run true s acts) L'.
  Proof.
    unfold l_run. revert s L. induction acts as [|a acts IH]; intros s L I Hw; [by exists L|]. destruct Hw as [Ha Hw]. destruct (step s L a I Ha) as [L' I']. cbn [fold_left]. by eapply IH.
  Qed.
  Lemma walk_list nx (dd : list T) h l fuel : is_list nx h l -> (forall i, i ∈ l -> i < length dd) -> length l <= fuel -> walk nx dd h fuel = omap (fun i => dd !! i) l.
  Proof.
    revert h fuel. induction l as [|i l IH]; intros h fuel Hl Hb Hf; [cbn in Hl; subst h; by destruct fuel|]. destruct Hl as (-> & v & Hv & Hl). destruct fuel as [|fuel]; [cbn in Hf; lia|].
    cbn. destruct (lookup_lt_is_Some_2 dd i) as [x Hx]; [apply Hb; by left|]. rewrite Hx. rewrite Hv. cbn. f_equal. apply IH; [done| |cbn in Hf; lia]. intros j Hj. apply Hb. by right.
  Qed.
  Lemma inv_content s L : inv s L -> l_content s = omap (fun i => l_data s !! i) (L true).
  Proof.
    intros I. destruct (i_h _ _ I true) as (h & m & E & Hl & _). unfold l_content. rewrite E, last_snoc. cbn [mbind option_bind].
    destruct (i_len _ _ I) as [_ Hd]. assert (Hin : forall i, i ∈ L true -> i < N).
    { intros i Hi. assert (i ∈ seq 0 N) as ?%elem_of_seq; [|lia]. rewrite <- (i_part _ _ I), elem_of_app. by left. }
    apply walk_list; [done|rewrite Hd; done|]. rewrite Hd. pose proof (Permutation_length (i_part _ _ I)) as Hp. rewrite app_length, seq_length in Hp. lia.
  Qed.
End Inv.
(** If the load at line 112 were an acquire load (and the links relaxed atomics), then for every capacity, number of threads and execution on weak memory in which no tag goes round:
    every access to an element is ordered after all earlier ones to the same element (and every write to a link after all earlier writes to it) ... *)
Theorem C88_race_free_partial : forall (T : Type) (d : list T) n acts, d <> [] -> (Z.of_nat (length d) <= 65535)%Z -> l_no_wrap true (l_init d n) acts -> l_race (l_run true (l_init d n) acts) = false.
Proof. intros T d n acts Hd _ Hw. destruct (inv_run d acts _ _ (inv_init d n Hd) Hw) as [L I]. apply I. Qed.
(** ... no element is popped that was not there or pushed, and none twice ... *)
Theorem C88_popped_partial : forall (T : Type) (d : list T) n acts, d <> [] -> (Z.of_nat (length d) <= 65535)%Z -> l_no_wrap true (l_init d n) acts ->
  let s := l_run true (l_init d n) acts in l_popped s ⊆+ d ++ l_pushed s.
Proof. intros T d n acts Hd _ Hw s. destruct (inv_run d acts _ _ (inv_init d n Hd) Hw) as [L I]. fold s in I. rewrite (i_cons _ _ _ I). by apply submseteq_inserts_r. Qed.
(** ... and none is lost: when no operation is in progress, those not popped are in the stack. *)
Theorem C88_conservation_partial : forall (T : Type) (d : list T) n acts, d <> [] -> (Z.of_nat (length d) <= 65535)%Z -> l_no_wrap true (l_init d n) acts ->
  let s := l_run true (l_init d n) acts in Forall (fun x => x.1 = LIdle) (l_thr s) -> d ++ l_pushed s ≡ₚ l_popped s ++ l_content s.
Proof.
  intros T d n acts Hd _ Hw s Hidle. destruct (inv_run d acts _ _ (inv_init d n Hd) Hw) as [L I]. fold s in I. rewrite (inv_content d s L I), (i_cons _ _ _ I). f_equiv.
  assert (concat (flight (l_data s) <$> (l_thr s).*1) = []) as ->; [|done]. induction Hidle as [|[p v] l Hp Hl IH]; [done|]. cbn in *. subst p. exact IH.
Qed.
(** A concrete execution that meets the hypotheses: two threads collide on the head, one is refused and reads again; one element is pushed; a load reads a stale head and its compare_exchange fails. *)
Definition C88_acts : list (lact Z) :=
  [LCall 0 OPop; LCall 1 OPop; LStep 0 0 false; LStep 1 0 false; LStep 0 0 false; LStep 1 0 false; LStep 0 0 false; LStep 1 1 false; LStep 0 0 false; LStep 1 0 false; LStep 1 0 false;
   LStep 1 0 false; LStep 1 0 false; LStep 1 0 false; LStep 1 0 false; LStep 0 0 false; LStep 0 0 false; LStep 0 1 false; LStep 0 0 false; LStep 0 0 false;
   LCall 1 (OPush 9%Z); LStep 1 2 false; LStep 1 2 false; LStep 1 0 false; LStep 1 0 false; LStep 1 2 false; LStep 1 0 false; LStep 1 0 false].
Example C88_case : l_no_wrap true (l_init [5; 6; 7]%Z 2) C88_acts /\ let s := l_run true (l_init [5; 6; 7]%Z 2) C88_acts in
  (l_thr s).*1 = [LIdle; LIdle] /\ l_popped s = [6; 5]%Z /\ l_pushed s = [9]%Z /\ l_content s = [9; 7]%Z.
Proof. split; [vm_compute; intuition congruence|by vm_compute]. Qed.
(** The code: the load at line 112 is relaxed. Full statement, of the code: *)
Definition C88_statement : Prop := forall (T : Type) (d : list T) n acts, d <> [] -> (Z.of_nat (length d) <= 65535)%Z -> l_no_wrap false (l_init d n) acts ->
  let s := l_run false (l_init d n) acts in Forall (fun x => x.1 = LIdle) (l_thr s) -> d ++ l_pushed s ≡ₚ l_popped s ++ l_content s.
(** It is false: thread 1 pops an element and pushes another into the same node; thread 0 reads the new head, but an old link of that node, and its compare_exchange succeeds:
    all that was below is lost. No tag goes round. *)
Definition C88_stale : list (lact Z) :=
  [LCall 1 OPop; LStep 1 0 false; LStep 1 0 false; LStep 1 0 false; LStep 1 0 false; LStep 1 0 false; LStep 1 0 false; LStep 1 0 false;
   LCall 1 (OPush 7%Z); LStep 1 1 false; LStep 1 1 false; LStep 1 0 false; LStep 1 0 false; LStep 1 1 false; LStep 1 0 false; LStep 1 0 false;
   LCall 0 OPop; LStep 0 2 false; LStep 0 1 false; LStep 0 0 false; LStep 0 0 false; LStep 0 2 false; LStep 0 0 false; LStep 0 0 false].
Theorem C88_stale_link_refuted : ~ C88_statement.
Proof.
  intros H. specialize (H Z [10; 11]%Z 2 C88_stale ltac:(done) ltac:(done) ltac:(vm_compute; intuition congruence)). vm_compute in H.
  assert (F : Forall (fun x : lpc Z * view => x.1 = LIdle) (l_thr (l_run false (l_init [10; 11]%Z 2) C88_stale))) by (vm_compute; by repeat constructor).
  vm_compute in F. specialize (H F). apply Permutation_length in H. done.
Qed.
(** In that execution the element 11 was never popped, and the stack is empty. *)
Example C88_stale_case : let s := l_run false (l_init [10; 11]%Z 2) C88_stale in l_popped s = [10; 7]%Z /\ l_pushed s = [7]%Z /\ l_content s = [].
Proof. by vm_compute. Qed.
Print Assumptions C88_race_free_partial.
Print Assumptions C88_popped_partial.
Print Assumptions C88_conservation_partial.
Print Assumptions C88_stale_link_refuted.
