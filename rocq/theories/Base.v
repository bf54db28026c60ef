(** Small list facts shared by the proofs. *)
From stdpp Require Import prelude list_numbers.

Lemma concat_insert {A B} (f : A -> list B) (l : list A) t x x' : l !! t = Some x ->
  concat (f <$> <[t:=x']> l) ++ f x ≡ₚ concat (f <$> l) ++ f x'.
Proof.
  revert t; induction l as [|a l IH]; intros [|t]; simpl; try done.
  - intros [= ->]. solve_Permutation.
  - intros H. specialize (IH _ H). rewrite <- !(assoc_L (++)). f_equiv. exact IH.
Qed.

Lemma elem_of_concat {A B} (f : A -> list B) (l : list A) b :
  b ∈ concat (f <$> l) <-> exists t x, l !! t = Some x /\ b ∈ f x.
Proof.
  rewrite elem_of_list_In, in_concat. split.
  - intros (y & Hy & Hb). apply elem_of_list_In, elem_of_list_fmap in Hy as (x & -> & Hx).
    apply elem_of_list_lookup in Hx as [t Ht]. exists t, x. split; [done|]. by apply elem_of_list_In.
  - intros (t & x & Ht & Hb). exists (f x). split; apply elem_of_list_In; [|done].
    apply elem_of_list_fmap. exists x. split; [done|]. by eapply elem_of_list_lookup_2.
Qed.

Lemma snoc_decomp {A} (h : list A) e h1 x h2 : h ++ [e] = h1 ++ x :: h2 ->
  (h2 = [] /\ h1 = h /\ x = e) \/ exists h2', h2 = h2' ++ [e] /\ h = h1 ++ x :: h2'.
Proof.
  destruct (decide (h2 = [])) as [->|Hne].
  - intros E. apply app_inj_tail in E as [-> ->]. auto.
  - destruct (exists_last Hne) as (h2' & y & ->). rewrite app_comm_cons, (assoc_L (++)).
    intros E. apply app_inj_tail in E as [-> ->]. eauto.
Qed.

Lemma list_lookup_insert_case {A} (l : list A) t t' x y : <[t:=x]> l !! t' = Some y ->
  (t = t' /\ y = x) \/ (t <> t' /\ l !! t' = Some y).
Proof.
  destruct (decide (t = t')) as [->|Hne].
  - destruct (decide (t' < length l)) as [Hl|Hl].
    + rewrite list_lookup_insert by done. intros [= ->]. auto.
    + rewrite list_insert_ge by lia. intros H. apply lookup_lt_Some in H. lia.
  - rewrite list_lookup_insert_ne by done. auto.
Qed.

Lemma sublist_NoDup {A} (l k : list A) : l `sublist_of` k -> NoDup k -> NoDup l.
Proof.
  induction 1 as [|x l k H IH|x l k H IH]; [done| |].
  - intros [Hx Hk]%NoDup_cons. constructor; [|auto]. intros Hl. apply Hx. eapply elem_of_submseteq; [exact Hl|].
    by apply sublist_submseteq.
  - intros [_ Hk]%NoDup_cons. auto.
Qed.

(** ** Progress under every fair schedule.
    [rank] never grows; in every state not yet of rank 0 some agent's step ([helpful]) makes it smaller, and this stays so until it
    is taken. A round is a piece of schedule with a step of every agent: [rank s] rounds bring the rank to 0. *)
Section Fair.
  Context {St Act : Type} (step : St -> Act -> St) (Inv : St -> Prop) (rank : St -> nat) (helpful : St -> Act -> bool).
  Hypothesis H_inv : forall s a, Inv s -> rank s <> 0 -> Inv (step s a) /\ rank (step s a) <= rank s.
  Hypothesis H_help : forall s a, Inv s -> rank s <> 0 -> helpful s a = true -> rank (step s a) < rank s.
  Hypothesis H_stay : forall s a, Inv s -> rank s <> 0 -> rank (step s a) = rank s -> forall b, helpful s b = true -> helpful (step s a) b = true.
  Definition fair_round (l : list Act) : Prop := forall s, Inv s -> rank s <> 0 -> Exists (fun a => helpful s a = true) l.
  Lemma fair_one (l : list Act) : forall s, Inv s -> rank s <> 0 -> Exists (fun a => helpful s a = true) l ->
    exists pre suf, l = pre ++ suf /\ (rank (fold_left step pre s) = 0 \/ (suf = [] /\ Inv (fold_left step pre s) /\ rank (fold_left step pre s) < rank s)).
  Proof.
    assert (Hrest : forall l s r, Inv s -> rank s <> 0 -> rank s < r ->
      exists pre suf, l = pre ++ suf /\ (rank (fold_left step pre s) = 0 \/ (suf = [] /\ Inv (fold_left step pre s) /\ rank (fold_left step pre s) < r))).
    { intros k. induction k as [|a k IH]; intros s r Hi Hr Hlt; [exists [], []; cbn; auto|].
      destruct (H_inv s a Hi Hr) as [Hi' Hle]. destruct (decide (rank (step s a) = 0)) as [E|E].
      - exists [a], k. cbn. auto.
      - destruct (IH (step s a) r Hi' E ltac:(lia)) as (pre & suf & -> & H). exists (a :: pre), suf. cbn. auto. }
    induction l as [|a l IH]; intros s Hi Hr He; [by apply Exists_nil in He|].
    destruct (H_inv s a Hi Hr) as [Hi' Hle]. destruct (decide (rank (step s a) = 0)) as [E|E].
    { exists [a], l. cbn. auto. }
    destruct (decide (rank (step s a) = rank s)) as [E'|E'].
    - apply Exists_cons in He as [Hh|He]; [pose proof (H_help s a Hi Hr Hh); lia|].
      assert (He' : Exists (fun b => helpful (step s a) b = true) l) by (eapply Exists_impl; [exact He|]; exact (H_stay s a Hi Hr E')). clear He. rename He' into He. destruct (IH (step s a) Hi' E He) as (pre & suf & -> & H).
      exists (a :: pre), suf. cbn. rewrite <-E' in *. auto.
    - destruct (Hrest l (step s a) (rank s) Hi' E ltac:(lia)) as (pre & suf & -> & H). exists (a :: pre), suf. cbn. auto.
  Qed.
  Lemma fair_progress (rounds : list (list Act)) : forall s, Inv s -> Forall fair_round rounds -> rank s <= length rounds ->
    exists pre suf, concat rounds = pre ++ suf /\ rank (fold_left step pre s) = 0.
  Proof.
    induction rounds as [|l rounds IH]; intros s Hi Hf Hlen.
    { exists [], []. split; [done|]. cbn in *. lia. }
    apply Forall_cons in Hf as [Hl Hf]. destruct (decide (rank s = 0)) as [E|E]; [by exists [], (concat (l :: rounds))|].
    destruct (fair_one l s Hi E (Hl s Hi E)) as (pre & suf & -> & [H0|(-> & Hi' & Hlt)]).
    { exists pre, (suf ++ concat rounds). split; [|done]. cbn. by rewrite app_assoc. }
    destruct (IH (fold_left step pre s) Hi' Hf) as (pre2 & suf2 & Ec & H0). { cbn in Hlen. lia. }
    exists (pre ++ pre2), suf2. split; [|by rewrite fold_left_app]. cbn. rewrite app_nil_r, Ec. by rewrite app_assoc.
  Qed.
End Fair.
