(** * C117: a published event reaches its listeners as published and does not change while anybody holds it; no object is lost. *)
From Coq Require Import Lia.
From stdpp Require Import prelude gmap.
From Verif Require Import EventLife_Model.
Local Notation cnt x l := (count_occ Nat.eq_dec l x).
Lemma cnt_app x l1 l2 : cnt x (l1 ++ l2) = cnt x l1 + cnt x l2.
Proof. apply count_occ_app. Qed.
Lemma cnt_in x l : x ∈ l <-> 0 < cnt x l.
Proof. rewrite elem_of_list_In. rewrite (count_occ_In Nat.eq_dec). lia. Qed.
Lemma cnt_not x l : x ∉ l <-> cnt x l = 0.
Proof. rewrite cnt_in. lia. Qed.
Lemma cnt_thr x t th th' l : l !! t = Some th -> cnt x (concat (objs <$> <[t := th']> l)) + cnt x (objs th) = cnt x (concat (objs <$> l)) + cnt x (objs th').
Proof.
  revert t. induction l as [|a l IH]; intros [|t] H; try done.
  - injection H as ->. change (<[0:=th']> (th :: l)) with (th' :: l). rewrite !fmap_cons. cbn [concat]. rewrite !cnt_app. lia.
  - change (<[S t:=th']> (a :: l)) with (a :: <[t:=th']> l). rewrite !fmap_cons. cbn [concat]. rewrite !cnt_app. specialize (IH t H). lia.
Qed.
Lemma cnt_delete y i d x (l : list (nat * nat)) : l !! i = Some (d, x) -> cnt y (snd <$> l) = cnt y (snd <$> delete i l) + cnt y [x].
Proof.
  revert i. induction l as [|a l IH]; intros [|i] H; try done.
  - injection H as ->. change (delete 0 ((d, x) :: l)) with l. rewrite fmap_cons. cbn [snd]. change (x :: (snd <$> l)) with ([x] ++ (snd <$> l)). rewrite cnt_app. lia.
  - change (delete (S i) (a :: l)) with (a :: delete i l). rewrite !fmap_cons. change (snd a :: (snd <$> l)) with ([snd a] ++ (snd <$> l)). change (snd a :: (snd <$> delete i l)) with ([snd a] ++ (snd <$> delete i l)). rewrite !cnt_app. specialize (IH i H). lia.
Qed.
Lemma del_all_lookup l m x : del_all l m !! x = if decide (x ∈ l) then None else m !! x.
Proof.
  induction l as [|y l IH]; cbn [del_all fold_right]; [by rewrite decide_False by apply not_elem_of_nil|]. fold (del_all l m). destruct (decide (x = y)) as [->|Hn]; [rewrite lookup_delete, decide_True; [done|left]|].
  rewrite lookup_delete_ne by done. rewrite IH. destruct (decide (x ∈ l)) as [Hi|Hi], (decide (x ∈ y :: l)) as [Hj|Hj]; try done; [destruct Hj; by right|]. apply elem_of_cons in Hj as [?|?]; done.
Qed.
Lemma cnt_sing x y : cnt x [y] = if decide (x = y) then 1 else 0.
Proof. cbn. destruct (Nat.eq_dec y x), (decide (x = y)); congruence. Qed.
Lemma thr_in x t th l : l !! t = Some th -> x ∈ objs th -> x ∈ concat (objs <$> l).
Proof. intros H Hx. apply elem_of_list_In, in_concat. exists (objs th). split; [|by apply elem_of_list_In]. apply elem_of_list_In. apply elem_of_list_fmap. exists th. split; [done|]. by eapply elem_of_list_lookup_2. Qed.
(** References, with one more in hand. *)
Definition rc (s : es) (extra : list nat) (x : nat) : nat := cnt x (refs s) + cnt x extra.
Lemma rc_refs s x : cnt x (refs s) = cnt x (concat (objs <$> es_thr s)) + cnt x (es_q s) + cnt x (snd <$> es_kept s).
Proof. unfold refs. rewrite !cnt_app. lia. Qed.
Definition good (s : es) (d x : nat) : Prop := exists v, es_acc s !! d = Some v /\ es_mem s !! x = Some (Whole v).
Record EI (cap : option nat) (s : es) (extra : list nat) : Prop := {
  ei_nodup : NoDup (es_pool s);
  ei_pool : forall x, x ∈ es_pool s -> x < es_size s /\ rc s extra x = 0;
  ei_dead : es_live s = false -> es_pool s = [];
  ei_home : es_live s = true -> forall x, x < es_size s -> x ∈ es_pool s \/ 0 < rc s extra x;
  ei_mem : forall x, is_Some (es_mem s !! x) <-> x ∈ es_pool s \/ 0 < rc s extra x;
  ei_next : es_size s <= es_next s /\ forall x, 0 < rc s extra x -> x < es_next s;
  ei_write : forall t th x, es_thr s !! t = Some th -> publishing th = true -> x ∈ objs th -> rc s extra x = 1;
  ei_ready : forall t x v, es_thr s !! t = Some (TReady x v) -> es_mem s !! x = Some (Whole v);
  ei_deliver : forall t x d, es_thr s !! t = Some (TDeliver x d) -> good s d x;
  ei_queue : forall i x, es_q s !! i = Some x -> good s (es_taken s + i) x;
  ei_kept : forall i d x, es_kept s !! i = Some (d, x) -> good s d x;
  ei_count : match cap with Some _ => es_taken s + length (es_q s) = length (es_acc s) | None => es_q s = [] end;
  ei_log : forall d c, LSeen d c ∈ es_log s \/ LKept d c ∈ es_log s -> exists v, es_acc s !! d = Some v /\ c = Some (Whole v)
}.
Ltac fields := cbn [es_pool es_size es_live es_mem es_next es_thr es_q es_taken es_acc es_kept es_log] in *.
Lemma gone_inv cap s x : EI cap s [x] -> EI cap (gone x s) [].
Proof.
  intros [H1 H2 H3 H4 H5 H6 H7 H8 H9 H10 H11 H12 H13]. destruct s as [size pool live next mem thr q taken acc kept log].
  assert (Hrc : forall y st, rc st [x] y = rc st [] y + if decide (y = x) then 1 else 0). { intros y st. unfold rc. rewrite cnt_sing. cbn. lia. }
  unfold gone. case_bool_decide as Hx.
  { apply cnt_in in Hx. assert (Hp : 0 < rc (Es size pool live next mem thr q taken acc kept log) [] x) by (unfold rc; cbn [count_occ]; lia).
    split; try done.
    - intros y Hy. destruct (H2 y Hy) as [? Hr]. rewrite Hrc in Hr. lia.
    - intros Hl y Hy. destruct (H4 Hl y Hy) as [|Hr]; [by left|]. rewrite Hrc in Hr. right. destruct (decide (y = x)) as [->|]; lia.
    - intros y. rewrite H5, Hrc. destruct (decide (y = x)) as [->|]; [|by rewrite Nat.add_0_r]. split; intros [|?]; auto; right; lia.
    - destruct H6 as [H6 H6']. split; [done|]. intros y Hy. apply H6'. rewrite Hrc. lia.
    - intros t th y Ht Hw Hy. specialize (H7 t th y Ht Hw Hy). rewrite Hrc in H7. destruct (decide (y = x)) as [->|]; lia. }
  assert (Hp : rc (Es size pool live next mem thr q taken acc kept log) [] x = 0) by (unfold rc; rewrite (proj1 (cnt_not _ _) Hx); done).
  assert (Hnp : x ∉ pool). { intros Hi. destruct (H2 x Hi) as [_ Hr]. rewrite Hrc, decide_True in Hr by done. lia. }
  assert (Hnt : forall t th, thr !! t = Some th -> x ∉ objs th). { intros t th Ht Hy. apply Hx. unfold refs. apply elem_of_app. left. by eapply thr_in. }
  assert (Hnq : x ∉ q). { intros Hy. apply Hx. unfold refs. apply elem_of_app. right. apply elem_of_app. by left. }
  assert (Hnk : forall i d, kept !! i <> Some (d, x)). { intros i d Hi. apply Hx. unfold refs. apply elem_of_app. right. apply elem_of_app. right. apply elem_of_list_fmap. exists (d, x). split; [done|]. by eapply elem_of_list_lookup_2. }
  destruct (bool_decide (x < size) && live) eqn:Hb.
  - apply andb_true_iff in Hb as [Hs%bool_decide_eq_true ->].
    assert (Hrf : forall y ex, rc (Es size (x :: pool) true next mem thr q taken acc kept log) ex y = rc (Es size pool true next mem thr q taken acc kept log) ex y) by done.
    split; fields; try done.
    + by constructor.
    + intros y [->|Hy]%elem_of_cons; rewrite Hrf; [done|]. destruct (H2 y Hy) as [? Hr]. rewrite Hrc in Hr. lia.
    + intros _ y Hy. rewrite Hrf. destruct (decide (y = x)) as [->|Hn]; [left; left|]. destruct (H4 eq_refl y Hy) as [|Hr]; [left; by right|]. right. rewrite Hrc, decide_False in Hr by done. lia.
    + intros y. rewrite Hrf. rewrite H5, Hrc. destruct (decide (y = x)) as [->|Hn]; [split; intros _; [left; left|right; lia]|].
      rewrite Nat.add_0_r, elem_of_cons. split; intros [Hy|?]; auto. destruct Hy; auto. done.
    + destruct H6 as [H6 H6']. split; [done|]. intros y. rewrite Hrf. intros Hy. apply H6'. rewrite Hrc. lia.
    + intros t th y Ht Hw Hy. rewrite Hrf. specialize (H7 t th y Ht Hw Hy). rewrite Hrc in H7. destruct (decide (y = x)) as [->|]; [|lia]. by destruct (Hnt t th).
  - assert (Hrf : forall y ex, rc (Es size pool live next (delete x mem) thr q taken acc kept log) ex y = rc (Es size pool live next mem thr q taken acc kept log) ex y) by done.
    assert (Hg : forall d y, y <> x -> good (Es size pool live next mem thr q taken acc kept log) d y -> good (Es size pool live next (delete x mem) thr q taken acc kept log) d y).
    { intros d y Hn (v & E1 & E2). exists v. fields. by rewrite lookup_delete_ne. }
    split; fields; try done.
    + intros y Hy. rewrite Hrf. destruct (H2 y Hy) as [? Hr]. rewrite Hrc in Hr. lia.
    + intros -> y Hy. rewrite Hrf. destruct (H4 eq_refl y Hy) as [|Hr]; [by left|]. rewrite Hrc in Hr. right. destruct (decide (y = x)) as [->|]; [|lia].
      rewrite bool_decide_eq_true_2 in Hb; done.
    + intros y. rewrite Hrf. destruct (decide (y = x)) as [->|Hn].
      * rewrite lookup_delete. split; [by intros [? ?]|]. intros [?|?]; [done|]. lia.
      * rewrite lookup_delete_ne by done. rewrite H5, Hrc, decide_False by done. by rewrite Nat.add_0_r.
    + destruct H6 as [H6 H6']. split; [done|]. intros y. rewrite Hrf. intros Hy. apply H6'. rewrite Hrc. lia.
    + intros t th y Ht Hw Hy. rewrite Hrf. specialize (H7 t th y Ht Hw Hy). rewrite Hrc in H7. destruct (decide (y = x)) as [->|]; [|lia]. by destruct (Hnt t th).
    + intros t y v Ht. rewrite lookup_delete_ne; [by eapply H8|]. intros ->. apply (Hnt _ _ Ht). left.
    + intros t y d Ht. apply Hg; [|by eapply H9]. intros ->. apply (Hnt _ _ Ht). left.
    + intros i y Hi. apply Hg; [|by eapply H10]. intros ->. apply Hnq. by eapply elem_of_list_lookup_2.
    + intros i d y Hi. apply Hg; [|by eapply H11]. intros ->. by eapply Hnk.
Qed.
(** The part about who holds what, and the part about contents. *)
Record CI (s : es) (extra : list nat) : Prop := {
  ci_nodup : NoDup (es_pool s);
  ci_pool : forall x, x ∈ es_pool s -> x < es_size s /\ rc s extra x = 0;
  ci_dead : es_live s = false -> es_pool s = [];
  ci_home : es_live s = true -> forall x, x < es_size s -> x ∈ es_pool s \/ 0 < rc s extra x;
  ci_mem : forall x, is_Some (es_mem s !! x) <-> x ∈ es_pool s \/ 0 < rc s extra x;
  ci_next : es_size s <= es_next s /\ forall x, 0 < rc s extra x -> x < es_next s;
  ci_write : forall t th x, es_thr s !! t = Some th -> publishing th = true -> x ∈ objs th -> rc s extra x = 1
}.
Record VI (cap : option nat) (s : es) : Prop := {
  vi_ready : forall t x v, es_thr s !! t = Some (TReady x v) -> es_mem s !! x = Some (Whole v);
  vi_deliver : forall t x d, es_thr s !! t = Some (TDeliver x d) -> good s d x;
  vi_queue : forall i x, es_q s !! i = Some x -> good s (es_taken s + i) x;
  vi_kept : forall i d x, es_kept s !! i = Some (d, x) -> good s d x;
  vi_count : match cap with Some _ => es_taken s + length (es_q s) = length (es_acc s) | None => es_q s = [] end;
  vi_log : forall d c, LSeen d c ∈ es_log s \/ LKept d c ∈ es_log s -> exists v, es_acc s !! d = Some v /\ c = Some (Whole v)
}.
Lemma ei_both cap s ex : EI cap s ex <-> CI s ex /\ VI cap s.
Proof. split; [intros []; split; by split|intros [[] []]; by split]. Qed.
Lemma ci_same s s' ex ex' : es_size s' = es_size s -> es_pool s' = es_pool s -> es_live s' = es_live s -> es_next s' = es_next s ->
  (forall y, is_Some (es_mem s' !! y) <-> is_Some (es_mem s !! y)) -> (forall y, rc s' ex' y = rc s ex y) ->
  (forall t th x, es_thr s' !! t = Some th -> publishing th = true -> x ∈ objs th -> exists t0 th0, es_thr s !! t0 = Some th0 /\ publishing th0 = true /\ x ∈ objs th0) -> CI s ex -> CI s' ex'.
Proof.
  intros E1 E2 E3 E4 E5 E6 E7 [H1 H2 H3 H4 H5 H6 H7]. split; rewrite ?E1, ?E2, ?E3, ?E4; try done.
  - intros x. rewrite E6. apply H2.
  - intros Hl x. rewrite E6. by apply H4.
  - intros x. rewrite E5, E6. apply H5.
  - destruct H6 as [H6 H6']. split; [done|]. intros x. rewrite E6. apply H6'.
  - intros t th x Ht Hw Hx. destruct (E7 t th x Ht Hw Hx) as (t0 & th0 & G1 & G2 & G3). rewrite E6. by eapply H7.
Qed.
Lemma good_acc size pool live next mem thr q taken acc kept log size' pool' live' next' thr' q' taken' v kept' log' d x :
  good (Es size pool live next mem thr q taken acc kept log) d x -> good (Es size' pool' live' next' mem thr' q' taken' (acc ++ [v]) kept' log') d x.
Proof. intros (w & E1 & E2). exists w. fields. split; [by apply lookup_app_l_Some|done]. Qed.
(** Contents survive a step that changes memory only at objects nobody else looks at. *)
Lemma rc_thr_move size pool live next mem thr q taken acc kept log pool' live' next' mem' q' taken' acc' kept' log' t th th' y ex ex' :
  thr !! t = Some th -> cnt y (objs th') + cnt y q' + cnt y (snd <$> kept') + cnt y ex' = cnt y (objs th) + cnt y q + cnt y (snd <$> kept) + cnt y ex ->
  rc (Es size pool' live' next' mem' (<[t := th']> thr) q' taken' acc' kept' log') ex' y = rc (Es size pool live next mem thr q taken acc kept log) ex y.
Proof. intros Ht Hc. unfold rc. rewrite !rc_refs. fields. pose proof (cnt_thr y t th th' thr Ht). lia. Qed.
Lemma thr_lookup t th th' t0 th0 (l : list est) : l !! t = Some th -> <[t := th']> l !! t0 = Some th0 -> (t0 = t /\ th0 = th') \/ (t0 <> t /\ l !! t0 = Some th0).
Proof. intros Ht [(-> & <- & _)|[Hne Hx]]%list_lookup_insert_Some; auto. Qed.
Lemma e_inv cap s a : EI cap s [] -> EI cap (e_step cap s a) [].
Proof.
  intros HE. pose proof HE as [HC HV]%ei_both. destruct s as [size pool live next mem thr q taken acc kept log].
  set (s := Es size pool live next mem thr q taken acc kept log) in *.
  assert (HL : forall t th x, thr !! t = Some th -> x ∈ objs th -> 0 < rc s [] x). { intros t th x Ht Hx. unfold rc, s. rewrite rc_refs. fields. pose proof (thr_in _ _ _ _ Ht Hx) as Hi%cnt_in. lia. }
  assert (HQ : forall x, x ∈ q -> 0 < rc s [] x). { intros x Hx%cnt_in. unfold rc, s. rewrite rc_refs. fields. lia. }
  assert (HK : forall i d x, kept !! i = Some (d, x) -> 0 < rc s [] x). { intros i d x Hi. unfold rc, s. rewrite rc_refs. fields. assert (Hk : x ∈ (snd <$> kept)) by (apply elem_of_list_fmap; exists (d, x); split; [done|by eapply elem_of_list_lookup_2]). apply cnt_in in Hk. lia. }
  (* two holders of the object of a publishing thread are one *)
  assert (HX : forall t th x, thr !! t = Some th -> publishing th = true -> objs th = [x] -> (forall t0 th0, thr !! t0 = Some th0 -> t0 <> t -> x ∉ objs th0) /\ x ∉ q /\ (forall i d, kept !! i <> Some (d, x))).
  { intros t th x Ht Hw Ho. assert (H1 : rc s [] x = 1) by (eapply (ci_write _ _ HC); [exact Ht|done|rewrite Ho; left]). unfold rc, s in H1. rewrite rc_refs in H1. cbn [count_occ] in H1. fields.
    pose proof (cnt_thr x t th TIdle thr Ht) as H2. rewrite Ho in H2. rewrite cnt_sing, decide_True in H2 by done. cbn [objs count_occ] in H2. split_and!.
    - intros t0 th0 Ht0 Hn Hx. assert (Hi : x ∈ concat (objs <$> <[t := TIdle]> thr)) by (eapply thr_in; [rewrite list_lookup_insert_ne by done; exact Ht0|done]). apply cnt_in in Hi. lia.
    - intros Hx%cnt_in. lia.
    - intros i d Hi. assert (Hk : x ∈ (snd <$> kept)) by (apply elem_of_list_fmap; exists (d, x); split; [done|by eapply elem_of_list_lookup_2]). apply cnt_in in Hk. lia. }
  assert (Hme : forall y, is_Some (mem !! y) <-> y ∈ pool \/ 0 < rc s [] y) by (apply (ci_mem _ _ HC)).
  assert (Hsz : size <= next) by (apply (ci_next _ _ HC)).
  assert (Hnx : forall x, 0 < rc s [] x -> x < next) by (apply (ci_next _ _ HC)).
  destruct HV as [V1 V2 V3 V4 V5 V6]. destruct a as [t v|t|t|t|t|t|t keep|t|i|i|]; cbn [e_step s].
  - destruct (thr !! t) as [[]|] eqn:Ht; try done. destruct live eqn:El; [|done]. destruct pool as [|x p] eqn:Ep.
    + (* a new object *) apply ei_both. split.
      * assert (Hn0 : rc s [] next = 0). { destruct (decide (0 < rc s [] next)) as [Hp|]; [|lia]. apply Hnx in Hp. lia. }
        assert (Hr : forall y, rc (Es size [] true (S next) (<[next:=Torn]> mem) (<[t:=TGot next v]> thr) q taken acc kept log) [] y = rc s [] y + if decide (y = next) then 1 else 0).
        { intros y. unfold rc, s. rewrite !rc_refs. fields. pose proof (cnt_thr y t TIdle (TGot next v) thr Ht) as H. cbn [objs] in H. rewrite cnt_sing in H. cbn [count_occ] in *. lia. }
        destruct HC as [H1 H2 H3 H4 H5 H6 H7]. split; fields; try done.
        -- intros x Hx. by apply elem_of_nil in Hx.
        -- intros Hl x Hx. right. destruct (H4 Hl x Hx) as [Hp|Hp]; [by apply elem_of_nil in Hp|]. rewrite Hr. lia.
        -- intros x. rewrite Hr. destruct (decide (x = next)) as [->|Hn]; [rewrite lookup_insert; split; [intros _; right; lia|by eauto]|]. rewrite lookup_insert_ne by done. rewrite Nat.add_0_r. apply H5.
        -- split; [lia|]. intros x. rewrite Hr. destruct (decide (x = next)); [lia|]. intros Hp. rewrite Nat.add_0_r in Hp. apply Hnx in Hp. lia.
        -- intros t0 th0 x Ht0 Hw Hx. rewrite Hr. destruct (thr_lookup _ _ _ _ _ _ Ht Ht0) as [[-> ->]|[Hne Hl]].
           ++ cbn in Hx. apply elem_of_list_singleton in Hx. subst x. rewrite decide_True by done. lia.
           ++ rewrite (H7 t0 th0 x Hl Hw Hx). rewrite decide_False; [done|]. intros ->. rewrite (H7 t0 th0 next Hl Hw Hx) in Hn0. done.
      * assert (Hnm : forall d y, good s d y -> good (Es size [] true (S next) (<[next:=Torn]> mem) (<[t:=TGot next v]> thr) q taken acc kept log) d y).
        { intros d y (w & E1 & E2). exists w. fields. split; [done|]. rewrite lookup_insert_ne; [done|]. intros <-. assert (Hp : 0 < rc s [] next). { destruct (proj1 (ci_mem _ _ HC next)) as [Hq|Hq]; [rewrite E2; eauto|by apply elem_of_nil in Hq|done]. } apply Hnx in Hp. lia. }
        split; fields; try done.
        -- intros t0 x w Ht0. destruct (thr_lookup _ _ _ _ _ _ Ht Ht0) as [[-> ?]|[Hne Hl]]; [done|]. rewrite lookup_insert_ne; [by eapply V1|]. intros <-. pose proof (HL t0 _ next Hl ltac:(left)) as Hp. apply Hnx in Hp. lia.
        -- intros t0 x d Ht0. destruct (thr_lookup _ _ _ _ _ _ Ht Ht0) as [[-> ?]|[Hne Hl]]; [done|]. apply Hnm. by eapply V2.
        -- intros i x Hi. apply Hnm. by apply V3.
        -- intros i d x Hi. apply Hnm. by eapply V4.
    + (* one of the pool *) apply ei_both. split.
      * assert (Hr : forall y, rc (Es size p true next mem (<[t:=TGot x v]> thr) q taken acc kept log) [] y = rc s [] y + if decide (y = x) then 1 else 0).
        { intros y. unfold rc, s. rewrite !rc_refs. fields. pose proof (cnt_thr y t TIdle (TGot x v) thr Ht) as H. cbn [objs] in H. rewrite cnt_sing in H. cbn [count_occ] in *. lia. }
        destruct HC as [H1 H2 H3 H4 H5 H6 H7]. fields. apply NoDup_cons in H1 as [H1 H1']. destruct (H2 x ltac:(left)) as [Hx1 Hx2]. change (x < size) in Hx1. split; fields; try done.
        -- intros y Hy. rewrite Hr, decide_False by (intros ->; done). rewrite Nat.add_0_r. apply H2. by right.
        -- intros Hl y Hy. rewrite Hr. destruct (decide (y = x)) as [->|Hn]; [right; lia|]. rewrite Nat.add_0_r. destruct (H4 Hl y Hy) as [[->|?]%elem_of_cons|?]; auto. done.
        -- intros y. rewrite Hr, Hme. destruct (decide (y = x)) as [->|Hn]; [split; intros _; [right; lia|left; left]|]. rewrite Nat.add_0_r, elem_of_cons. split; intros [Hy|?]; auto. destruct Hy; auto. done.
        -- split; [lia|]. intros y. rewrite Hr. destruct (decide (y = x)) as [->|]; [lia|]. intros Hp. rewrite Nat.add_0_r in Hp. by apply Hnx in Hp.
        -- intros t0 th0 y Ht0 Hw Hy. rewrite Hr. destruct (thr_lookup _ _ _ _ _ _ Ht Ht0) as [[-> ->]|[Hne Hl]].
           ++ cbn in Hy. apply elem_of_list_singleton in Hy. subst y. rewrite decide_True by done. lia.
           ++ rewrite (H7 t0 th0 y Hl Hw Hy). rewrite decide_False; [done|]. intros ->. rewrite (H7 t0 th0 x Hl Hw Hy) in Hx2. done.
      * split; fields; try done.
        -- intros t0 y w Ht0. destruct (thr_lookup _ _ _ _ _ _ Ht Ht0) as [[-> ?]|[Hne Hl]]; [done|]. by eapply V1.
        -- intros t0 y d Ht0. destruct (thr_lookup _ _ _ _ _ _ Ht Ht0) as [[-> ?]|[Hne Hl]]; [done|]. by eapply V2.
  - (* begin to write *) destruct (thr !! t) as [[|x v| | |]|] eqn:Ht; try done. destruct (HX t _ x Ht eq_refl eq_refl) as (X1 & X2 & X3).
    assert (Hg : forall d y, y <> x -> good s d y -> good (Es size pool live next (<[x:=Torn]> mem) (<[t:=TWriting x v]> thr) q taken acc kept log) d y).
    { intros d y Hn (w & E1 & E2). exists w. fields. by rewrite lookup_insert_ne. }
    apply ei_both. split.
    + revert HC. apply ci_same; try done.
      * intros y. fields. destruct (decide (y = x)) as [->|Hn]; [|by rewrite lookup_insert_ne]. rewrite lookup_insert. split; [|eauto]. intros _. apply Hme. right. eapply HL; [exact Ht|left].
      * intros y. eapply rc_thr_move; [exact Ht|]. done.
      * intros t0 th0 y Ht0 Hw Hy. destruct (thr_lookup _ _ _ _ _ _ Ht Ht0) as [[-> ->]|[Hne Hl]]; [exists t, (TGot x v); done|eauto].
    + split; fields; try done.
      * intros t0 y w Ht0. destruct (thr_lookup _ _ _ _ _ _ Ht Ht0) as [[-> ?]|[Hne Hl]]; [done|]. rewrite lookup_insert_ne; [by eapply V1|]. intros ->. apply (X1 t0 _ Hl Hne). left.
      * intros t0 y d Ht0. destruct (thr_lookup _ _ _ _ _ _ Ht Ht0) as [[-> ?]|[Hne Hl]]; [done|]. apply Hg; [|by eapply V2]. intros ->. apply (X1 t0 _ Hl Hne). left.
      * intros i y Hi. apply Hg; [|by apply V3]. intros ->. apply X2. by eapply elem_of_list_lookup_2.
      * intros i d y Hi. apply Hg; [|by eapply V4]. intros ->. by eapply X3.
  - (* written *) destruct (thr !! t) as [[| |x v| |]|] eqn:Ht; try done. destruct (HX t _ x Ht eq_refl eq_refl) as (X1 & X2 & X3).
    assert (Hg : forall d y, y <> x -> good s d y -> good (Es size pool live next (<[x:=Whole v]> mem) (<[t:=TReady x v]> thr) q taken acc kept log) d y).
    { intros d y Hn (w & E1 & E2). exists w. fields. by rewrite lookup_insert_ne. }
    apply ei_both. split.
    + revert HC. apply ci_same; try done.
      * intros y. fields. destruct (decide (y = x)) as [->|Hn]; [|by rewrite lookup_insert_ne]. rewrite lookup_insert. split; [|eauto]. intros _. apply Hme. right. eapply HL; [exact Ht|left].
      * intros y. eapply rc_thr_move; [exact Ht|]. done.
      * intros t0 th0 y Ht0 Hw Hy. destruct (thr_lookup _ _ _ _ _ _ Ht Ht0) as [[-> ->]|[Hne Hl]]; [exists t, (TWriting x v); done|eauto].
    + split; fields; try done.
      * intros t0 y w Ht0. destruct (thr_lookup _ _ _ _ _ _ Ht Ht0) as [[-> E]|[Hne Hl]]; [injection E as -> ->; by rewrite lookup_insert|]. rewrite lookup_insert_ne; [by eapply V1|]. intros ->. apply (X1 t0 _ Hl Hne). left.
      * intros t0 y d Ht0. destruct (thr_lookup _ _ _ _ _ _ Ht Ht0) as [[-> ?]|[Hne Hl]]; [done|]. apply Hg; [|by eapply V2]. intros ->. apply (X1 t0 _ Hl Hne). left.
      * intros i y Hi. apply Hg; [|by apply V3]. intros ->. apply X2. by eapply elem_of_list_lookup_2.
      * intros i d y Hi. apply Hg; [|by eapply V4]. intros ->. by eapply X3.
  - (* the cloner throws *) destruct (thr !! t) as [[| |x v| |]|] eqn:Ht; try done. apply gone_inv. apply ei_both. split.
    + revert HC. apply ci_same; try done.
      * intros y. eapply rc_thr_move; [exact Ht|]. cbn [objs count_occ]. lia.
      * intros t0 th0 y Ht0 Hw Hy. destruct (thr_lookup _ _ _ _ _ _ Ht Ht0) as [[-> ->]|[Hne Hl]]; [done|eauto].
    + split; fields; try done.
      * intros t0 y w Ht0. destruct (thr_lookup _ _ _ _ _ _ Ht Ht0) as [[-> ?]|[Hne Hl]]; [done|by eapply V1].
      * intros t0 y d Ht0. destruct (thr_lookup _ _ _ _ _ _ Ht Ht0) as [[-> ?]|[Hne Hl]]; [done|by eapply (V2 t0)].
      * intros d c Hc. apply V6. destruct Hc as [[Hc|Hc%elem_of_list_singleton]%elem_of_app|[Hc|Hc%elem_of_list_singleton]%elem_of_app]; auto; done.
  - (* publish *) destruct (thr !! t) as [[| | |x v|]|] eqn:Ht; try done. assert (Hx : mem !! x = Some (Whole v)) by (by eapply V1). destruct cap as [n|]; [case_bool_decide as Hn; change (taken + length q = length acc) in V5|].
    + apply ei_both. split.
      * revert HC. apply ci_same; try done.
        -- intros y. eapply rc_thr_move; [exact Ht|]. rewrite cnt_app. cbn [objs count_occ]. lia.
        -- intros t0 th0 y Ht0 Hw Hy. destruct (thr_lookup _ _ _ _ _ _ Ht Ht0) as [[-> ->]|[Hne Hl]]; [done|eauto].
      * split; fields; try done.
        -- intros t0 y w Ht0. destruct (thr_lookup _ _ _ _ _ _ Ht Ht0) as [[-> ?]|[Hne Hl]]; [done|by eapply V1].
        -- intros t0 y d Ht0. destruct (thr_lookup _ _ _ _ _ _ Ht Ht0) as [[-> ?]|[Hne Hl]]; [done|]. eapply good_acc. by eapply (V2 t0).
        -- intros i y Hi. apply lookup_app_Some in Hi as [Hi|[Hlen Hi]]; [eapply good_acc; by apply V3|]. apply list_lookup_singleton_Some in Hi as [Hi <-]. exists v. fields. split; [|done].
           replace (taken + i) with (length acc) by lia. by apply list_lookup_middle.
        -- intros i d y Hi. eapply good_acc. by eapply V4.
        -- rewrite !app_length. cbn. lia.
        -- intros d c Hc. destruct (V6 d c Hc) as (w & E1 & E2). exists w. split; [by apply lookup_app_l_Some|done].
    + apply gone_inv. apply ei_both. split.
      * revert HC. apply ci_same; try done.
        -- intros y. eapply rc_thr_move; [exact Ht|]. cbn [objs count_occ]. lia.
        -- intros t0 th0 y Ht0 Hw Hy. destruct (thr_lookup _ _ _ _ _ _ Ht Ht0) as [[-> ->]|[Hne Hl]]; [done|eauto].
      * split; fields; try done.
        -- intros t0 y w Ht0. destruct (thr_lookup _ _ _ _ _ _ Ht Ht0) as [[-> ?]|[Hne Hl]]; [done|by eapply V1].
        -- intros t0 y d Ht0. destruct (thr_lookup _ _ _ _ _ _ Ht Ht0) as [[-> ?]|[Hne Hl]]; [done|by eapply (V2 t0)].
        -- intros d c Hc. apply V6. destruct Hc as [[Hc|Hc%elem_of_list_singleton]%elem_of_app|[Hc|Hc%elem_of_list_singleton]%elem_of_app]; auto; done.
    + apply ei_both. split.
      * revert HC. apply ci_same; try done.
        -- intros y. eapply rc_thr_move; [exact Ht|]. done.
        -- intros t0 th0 y Ht0 Hw Hy. destruct (thr_lookup _ _ _ _ _ _ Ht Ht0) as [[-> ->]|[Hne Hl]]; [done|eauto].
      * split; fields; try done.
        -- intros t0 y w Ht0. destruct (thr_lookup _ _ _ _ _ _ Ht Ht0) as [[-> ?]|[Hne Hl]]; [done|by eapply V1].
        -- intros t0 y d Ht0. destruct (thr_lookup _ _ _ _ _ _ Ht Ht0) as [[-> E]|[Hne Hl]]; [|eapply good_acc; by eapply (V2 t0)]. injection E as -> ->. exists v. fields. split; [by apply list_lookup_middle|done].
        -- intros i y Hi. eapply good_acc; by apply V3.
        -- intros i d y Hi. eapply good_acc. by eapply V4.
        -- intros d c Hc. destruct (V6 d c Hc) as (w & E1 & E2). exists w. split; [by apply lookup_app_l_Some|done].
  - (* a consumer takes an event *) destruct (thr !! t) as [[| | | |]|] eqn:Ht; try done. destruct q as [|x q'] eqn:Eq; [done|]. apply ei_both. split.
    + revert HC. apply ci_same; try done.
      * intros y. eapply rc_thr_move; [exact Ht|]. change (x :: q') with ([x] ++ q'). rewrite cnt_app. cbn [objs count_occ]. lia.
      * intros t0 th0 y Ht0 Hw Hy. destruct (thr_lookup _ _ _ _ _ _ Ht Ht0) as [[-> ->]|[Hne Hl]]; [done|eauto].
    + split; fields; try done.
      * intros t0 y w Ht0. destruct (thr_lookup _ _ _ _ _ _ Ht Ht0) as [[-> ?]|[Hne Hl]]; [done|by eapply V1].
      * intros t0 y d Ht0. destruct (thr_lookup _ _ _ _ _ _ Ht Ht0) as [[-> E]|[Hne Hl]]; [|by eapply (V2 t0)]. injection E as -> ->. specialize (V3 0 x eq_refl). fields. by rewrite Nat.add_0_r in V3.
      * intros i y Hi. specialize (V3 (S i) y Hi). fields. by rewrite Nat.add_succ_r in V3.
      * destruct cap; [|done]. change (taken + length (x :: q') = length acc) in V5. cbn [length] in V5. lia.
  - (* a listener is called *) destruct (thr !! t) as [[| | | |x d]|] eqn:Ht; try done. destruct (V2 t x d Ht) as (w & E1 & E2).
    assert (Hr : forall y, rc (Es size pool live next mem thr q taken acc (kept ++ (if keep then [(d, x)] else [])) (log ++ [LSeen d (mem !! x)])) [] y = rc s [] y + if keep then if decide (y = x) then 1 else 0 else 0).
    { intros y. unfold rc, s. rewrite !rc_refs. fields. rewrite fmap_app, cnt_app. destruct keep; cbn [fmap list_fmap snd]; [rewrite cnt_sing|]; cbn [count_occ]; lia. }
    assert (Hx : 0 < rc s [] x) by (eapply HL; [exact Ht|left]).
    apply ei_both. split.
    + destruct HC as [H1 H2 H3 H4 H5 H6 H7]. split; fields; try done.
      * intros y Hy. rewrite Hr. destruct (H2 y Hy) as [Hs Hz]. split; [done|]. rewrite Hz. destruct keep; [|done]. rewrite decide_False; [done|]. intros ->. lia.
      * intros Hl y Hy. rewrite Hr. destruct (H4 Hl y Hy); [by left|right; lia].
      * intros y. rewrite Hr, Hme. destruct keep; [|by rewrite Nat.add_0_r]. destruct (decide (y = x)) as [->|]; [|by rewrite Nat.add_0_r]. split; intros _; right; lia.
      * split; [done|]. intros y. rewrite Hr. intros Hp. apply Hnx. destruct keep; [|lia]. destruct (decide (y = x)) as [->|]; lia.
      * intros t0 th0 y Ht0 Hw Hy. rewrite Hr, (H7 t0 th0 y Ht0 Hw Hy). destruct keep; [|done]. rewrite decide_False; [done|]. intros ->.
        assert (Ho : objs th0 = [x]) by (destruct th0; cbn in *; try done; apply elem_of_list_singleton in Hy; by subst). destruct (HX t0 th0 x Ht0 Hw Ho) as (X1 & _). apply (X1 t _ Ht); [|left]. intros ->. rewrite Ht in Ht0. injection Ht0 as <-. done.
    + split; fields; try done.
      * intros i d0 y Hi. apply lookup_app_Some in Hi as [Hi|[_ Hi]]; [by eapply (V4 i)|]. destruct keep; [|done]. apply list_lookup_singleton_Some in Hi as [_ E]. injection E as <- <-. by exists w.
      * intros d0 c Hc. assert (Hc' : (d0 = d /\ c = mem !! x) \/ (LSeen d0 c ∈ log \/ LKept d0 c ∈ log)).
        { destruct Hc as [[Hc|Hc%elem_of_list_singleton]%elem_of_app|[Hc|Hc%elem_of_list_singleton]%elem_of_app]; auto; [|done]. injection Hc as -> ->. by left. }
        destruct Hc' as [[-> ->]|Hc']; [by exists w|by apply V6].
  - (* the delivery ends *) destruct (thr !! t) as [[| | | |x d]|] eqn:Ht; try done. apply gone_inv. apply ei_both. split.
    + revert HC. apply ci_same; try done.
      * intros y. eapply rc_thr_move; [exact Ht|]. cbn [objs count_occ]. lia.
      * intros t0 th0 y Ht0 Hw Hy. destruct (thr_lookup _ _ _ _ _ _ Ht Ht0) as [[-> ->]|[Hne Hl]]; [done|eauto].
    + split; fields; try done.
      * intros t0 y w Ht0. destruct (thr_lookup _ _ _ _ _ _ Ht Ht0) as [[-> ?]|[Hne Hl]]; [done|by eapply V1].
      * intros t0 y d0 Ht0. destruct (thr_lookup _ _ _ _ _ _ Ht Ht0) as [[-> ?]|[Hne Hl]]; [done|by eapply (V2 t0)].
  - (* a kept event is read *) destruct (kept !! i) as [[d x]|] eqn:Hi; [|done]. destruct (V4 i d x Hi) as (w & E1 & E2). apply ei_both. split; [revert HC; by apply ci_same; eauto|].
    split; fields; try done. intros d0 c Hc. assert (Hc' : (d0 = d /\ c = mem !! x) \/ (LSeen d0 c ∈ log \/ LKept d0 c ∈ log)).
    { destruct Hc as [[Hc|Hc%elem_of_list_singleton]%elem_of_app|[Hc|Hc%elem_of_list_singleton]%elem_of_app]; auto; [done|]. injection Hc as -> ->. by left. }
    destruct Hc' as [[-> ->]|Hc']; [by exists w|by apply V6].
  - (* a kept event is dropped *) destruct (kept !! i) as [[d x]|] eqn:Hi; [|done]. apply gone_inv. apply ei_both. split.
    + revert HC. apply ci_same; try done; eauto. intros y. unfold rc, s. rewrite !rc_refs. fields. rewrite (cnt_delete y i d x kept Hi). cbn [count_occ]. lia.
    + split; fields; try done. intros j d0 y Hj. destruct (decide (j < i)) as [Hlt|Hge]; [rewrite lookup_delete_lt in Hj by done; by eapply (V4 j)|rewrite lookup_delete_ge in Hj by lia; by eapply (V4 (S j))].
  - (* the publisher is destroyed *) destruct live eqn:El; [|done]. destruct (existsb publishing thr) eqn:Ex; [done|]. cbn [andb negb].
    assert (Hnw : forall t th, thr !! t = Some th -> publishing th = false). { intros t th Ht. destruct (publishing th) eqn:Ep; [|done]. rewrite <- Ex. symmetry. apply existsb_exists. exists th. split; [|done]. apply elem_of_list_In. by eapply elem_of_list_lookup_2. }
    assert (Hgd : forall d y, 0 < rc s [] y -> good s d y -> good (Es size [] false next (del_all pool mem) thr q taken acc kept log) d y).
    { intros d y Hp (w & E1 & E2). exists w. fields. split; [done|]. rewrite del_all_lookup, decide_False; [done|]. intros Hi. destruct (ci_pool _ _ HC y Hi). lia. }
    assert (Hr : forall y, rc (Es size [] false next (del_all pool mem) thr q taken acc kept log) [] y = rc s [] y) by done.
    apply ei_both. split.
    + destruct HC as [H1 H2 H3 H4 H5 H6 H7]. split; fields; try done.
      * constructor.
      * intros y Hy. by apply elem_of_nil in Hy.
      * intros y. rewrite Hr, del_all_lookup. case_decide as Hi.
        -- split; [by intros [? ?]|]. intros [Hy|Hy]; [by apply elem_of_nil in Hy|]. destruct (H2 y Hi). lia.
        -- rewrite Hme. split; [by intros [?|?]; [done|right]|]. intros [Hy|Hy]; [by apply elem_of_nil in Hy|by right].
    + split; fields; try done.
      * intros t y v Ht. by apply Hnw in Ht.
      * intros t y d Ht. apply Hgd; [eapply HL; [exact Ht|left]|by eapply V2].
      * intros i y Hi. apply Hgd; [apply HQ; by eapply elem_of_list_lookup_2|by apply V3].
      * intros i d y Hi. apply Hgd; [by eapply HK|by eapply V4].
Qed.
Lemma cnt_nil_idle x n : cnt x (concat (objs <$> replicate n TIdle)) = 0.
Proof. induction n; [done|]. cbn [replicate]. rewrite fmap_cons. cbn [concat objs]. by rewrite cnt_app. Qed.
Lemma e_new_inv cap size threads : EI cap (e_new size threads) [].
Proof.
  assert (Hr : forall x, rc (e_new size threads) [] x = 0). { intros x. unfold rc. rewrite rc_refs. cbn [e_new es_thr es_q es_kept]. rewrite cnt_nil_idle. done. }
  assert (Hth : forall t th, replicate threads TIdle !! t = Some th -> th = TIdle) by (intros t th [? _]%lookup_replicate; done).
  unfold e_new. split; cbn [es_pool es_size es_live es_mem es_next es_thr es_q es_taken es_acc es_kept es_log]; fold (e_new size threads); try done.
  - apply NoDup_seq.
  - intros x Hx%elem_of_seq. split; [lia|apply Hr].
  - intros _ x Hx. left. apply elem_of_seq. lia.
  - intros x. rewrite Hr. split.
    + intros [c Hc]. left. apply elem_of_list_to_map_2 in Hc. apply elem_of_list_fmap in Hc as (y & E & Hy). by injection E as -> _.
    + intros [Hx|?]; [|lia]. destruct ((list_to_map ((λ x0 : nat, (x0, Torn)) <$> seq 0 size) : gmap nat cell) !! x) eqn:E; [eauto|]. apply not_elem_of_list_to_map in E. destruct E. apply elem_of_list_fmap. exists (x, Torn). split; [done|]. apply elem_of_list_fmap. eauto.
  - split; [done|]. intros x. rewrite Hr. lia.
  - intros t th x Ht%Hth. by subst th.
  - intros t x v Ht%Hth. done.
  - intros t x v Ht%Hth. done.
  - by destruct cap.
  - intros d c [H|H]; by apply elem_of_nil in H.
Qed.
Lemma e_run_inv cap size threads acts : EI cap (e_run cap size threads acts) [].
Proof. unfold e_run. generalize (e_new_inv cap size threads). generalize (e_new size threads). induction acts as [|a acts IH]; intros s H; [done|]. cbn [fold_left]. apply IH. by apply e_inv. Qed.
(** C117. What a listener sees, when it is called or later in an event it has kept, is the value that was published: whole, unchanged, never freed, whatever else was published, dropped or destroyed meanwhile. *)
Theorem C117_content cap size threads acts d c :
  LSeen d c ∈ es_log (e_run cap size threads acts) \/ LKept d c ∈ es_log (e_run cap size threads acts) -> exists v, es_acc (e_run cap size threads acts) !! d = Some v /\ c = Some (Whole v).
Proof. apply (ei_log _ _ _ (e_run_inv cap size threads acts)). Qed.
(** While a thread writes an event nobody else holds it: no data race on events. *)
Theorem C117_exclusive cap size threads acts t th x : let s := e_run cap size threads acts in
  es_thr s !! t = Some th -> publishing th = true -> x ∈ objs th ->
  (forall t' th', t' <> t -> es_thr s !! t' = Some th' -> x ∉ objs th') /\ x ∉ es_q s /\ x ∉ (snd <$> es_kept s) /\ x ∉ es_pool s.
Proof.
  intros s Ht Hw Hx. pose proof (e_run_inv cap size threads acts) as HE. fold s in HE. pose proof (ei_write _ _ _ HE t th x Ht Hw Hx) as H1.
  assert (Hp : x ∉ es_pool s) by (intros Hi; destruct (ei_pool _ _ _ HE x Hi); lia).
  unfold rc in H1. rewrite rc_refs in H1. cbn [count_occ] in H1. pose proof (cnt_thr x t th TIdle _ Ht) as H2. cbn [objs count_occ] in H2. apply cnt_in in Hx. split_and!; [| | |done].
  - intros t' th' Hn Ht' Hi. assert (Hc : x ∈ concat (objs <$> <[t := TIdle]> (es_thr s))) by (eapply thr_in; [rewrite list_lookup_insert_ne by done; exact Ht'|done]). apply cnt_in in Hc. lia.
  - apply cnt_not. lia.
  - apply cnt_not. lia.
Qed.
(** No object is lost: what exists is free in the pool or held by somebody, never both. *)
Theorem C117_no_leak cap size threads acts x : let s := e_run cap size threads acts in
  (is_Some (es_mem s !! x) <-> x ∈ es_pool s \/ x ∈ refs s) /\ (x ∈ es_pool s -> x ∉ refs s) /\ NoDup (es_pool s).
Proof.
  intros s. pose proof (e_run_inv cap size threads acts) as HE. fold s in HE. assert (Hr : rc s [] x = cnt x (refs s)) by (unfold rc; cbn [count_occ]; lia). split_and!.
  - rewrite (ei_mem _ _ _ HE x), Hr, (cnt_in x (refs s)). done.
  - intros Hi. destruct (ei_pool _ _ _ HE x Hi) as [_ H]. rewrite cnt_not. lia.
  - apply HE.
Qed.
(** ... so that when nobody holds an event any more, the pool has all of its objects and nothing else is allocated (nothing at all once the publisher is gone). *)
Theorem C117_all_back cap size threads acts : let s := e_run cap size threads acts in
  refs s = [] -> (es_live s = true -> es_pool s ≡ₚ seq 0 size /\ forall x, is_Some (es_mem s !! x) <-> x < size) /\ (es_live s = false -> es_mem s = ∅).
Proof.
  intros s Hrf. pose proof (e_run_inv cap size threads acts) as HE. fold s in HE.
  assert (Hsz : es_size s = size). { unfold s, e_run. assert (H : es_size (e_new size threads) = size) by done. revert H. generalize (e_new size threads). clear. induction acts as [|a acts IH]; intros st H; [done|]. cbn [fold_left]. apply IH. rewrite <- H. clear.
    assert (Hg : forall x st, es_size (gone x st) = es_size st). { intros x [size pool live next mem thr q taken acc kept log]. unfold gone. case_bool_decide; [done|]. by destruct (bool_decide _ && _). }
    destruct st as [size pool live next mem thr q taken acc kept log]. destruct a; cbn [e_step]; try (destruct (thr !! t) as [[]|]; try done).
    - destruct live; [|done]. by destruct pool.
    - by rewrite Hg.
    - destruct cap; [|done]. case_bool_decide; [done|by rewrite Hg].
    - by destruct q.
    - by rewrite Hg.
    - by destruct (kept !! i) as [[]|].
    - destruct (kept !! i) as [[]|]; [by rewrite Hg|done].
    - by destruct (live && _). }
  assert (Hr : forall x, rc s [] x = 0) by (intros x; unfold rc; rewrite Hrf; done).
  assert (Hm : forall x, is_Some (es_mem s !! x) <-> x ∈ es_pool s). { intros x. rewrite (ei_mem _ _ _ HE x), Hr. split; [intros [|]; [done|lia]|auto]. }
  split.
  - intros Hl. assert (Hin : forall x, x ∈ es_pool s <-> x < size). { intros x. rewrite <- Hsz. split; [apply HE|]. intros Hx. destruct (ei_home _ _ _ HE Hl x Hx) as [|H]; [done|]. rewrite Hr in H. lia. }
    split; [|intros x; by rewrite Hm]. apply NoDup_Permutation; [apply HE|apply NoDup_seq|]. intros x. rewrite Hin, elem_of_seq. lia.
  - intros Hl. apply map_eq. intros x. rewrite lookup_empty. destruct (es_mem s !! x) eqn:E; [|done]. exfalso. assert (Hi : x ∈ es_pool s) by (apply Hm; rewrite E; eauto). rewrite (ei_dead _ _ _ HE Hl) in Hi. by apply elem_of_nil in Hi.
Qed.
(** Example: a pool of one object, two publishing threads and a consumer that keeps the first event; the second event needs a new object; the publisher is destroyed; the kept event is still the first one. *)
Definition ex_acts : list eact := [AStart 0 7; ABegin 0; AEnd 0; AOffer 0; ATake 2; ACall 2 true; AStart 1 8; AFinish 2; ABegin 1; ARead 0; AEnd 1; AOffer 1; ATake 2; ACall 2 false; AFinish 2; ADestroy; ARead 0; ADrop 0].
Example C117_ex : let s := e_run (Some 4) 1 3 ex_acts in
  es_log s = [LSeen 0 (Some (Whole 7)); LKept 0 (Some (Whole 7)); LSeen 1 (Some (Whole 8)); LKept 0 (Some (Whole 7))] /\ es_acc s = [7%Z; 8%Z] /\ refs s = [] /\ es_next s = 2 /\ map_to_list (es_mem s) = [].
Proof. by vm_compute. Qed.
Example C117_ex_sync : let s := e_run None 2 1 [AStart 0 7; ABegin 0; AThrow 0; AStart 0 8; ABegin 0; AEnd 0; AOffer 0; ACall 0 false; ACall 0 false; AFinish 0] in
  es_log s = [LFailed 7; LSeen 0 (Some (Whole 8)); LSeen 0 (Some (Whole 8))] /\ es_pool s = [0; 1] /\ refs s = [].
Proof. by vm_compute. Qed.
Example C117_ex_exclusive : let s := e_run (Some 4) 1 2 [AStart 0 7; ABegin 0] in es_thr s !! 0 = Some (TWriting 0 7) /\ es_mem s !! 0 = Some Torn.
Proof. by vm_compute. Qed.
Print Assumptions C117_content.
Print Assumptions C117_exclusive.
Print Assumptions C117_no_leak.
Print Assumptions C117_all_back.
