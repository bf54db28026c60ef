(** * C196, C197: the buffers of a binary ZeroMQ channel. *)
From stdpp Require Import prelude.
From Coq Require Import Lia.
From Verif Require Import ZmqBuf_Model.

(** No publication is in progress. *)
Definition quiet (s : bufst) : Prop := Forall (fun o => o = None) (bf_thr s).
Definition pooled1 (o : option (bool * nat)) : list nat := match o with Some (true, x) => [x] | _ => [] end.
Definition out (s : bufst) : list nat := concat (pooled1 <$> bf_thr s).
Definition BInv (size : nat) (s : bufst) : Prop := bf_next s = bf_pool size + bf_missed s /\
  (bf_alive s = true -> bf_freed s = [] /\ bf_free s ++ out s ≡ₚ seq 0 (bf_pool size)) /\ (bf_alive s = false -> bf_free s = []).
Lemma out_insert thr t o o' : thr !! t = Some o -> pooled1 o' ++ concat (pooled1 <$> thr) ≡ₚ pooled1 o ++ concat (pooled1 <$> <[t := o']> thr).
Proof.
  intros H. rewrite <- (take_drop_middle thr t o H) at 1. rewrite insert_take_drop by by eapply lookup_lt_Some. rewrite !fmap_app, !fmap_cons, !concat_app, !concat_cons. set (a := concat (pooled1 <$> take t thr)). set (b := concat (pooled1 <$> drop (S t) thr)). 
  rewrite (Permutation_app_swap_app a), (Permutation_app_swap_app a (pooled1 o')). rewrite !app_assoc. f_equiv. f_equiv. apply Permutation_app_comm.
Qed.
Lemma binv_step size s a : BInv size s -> BInv size (bf_step s a).
Proof.
  intros (H1 & H2 & H3). destruct s as [free thr nx freed alive missed]. unfold BInv, out in *. cbn [bf_free bf_thr bf_next bf_freed bf_alive bf_missed] in *.
  destruct a as [t|t|]; cbn [bf_step bf_free bf_thr bf_next bf_freed bf_alive bf_missed].
  - destruct alive; [|done]. destruct (thr !! t) as [[o|]|] eqn:Ht; [done| |done]. destruct (H2 eq_refl) as [E1 E2].
    destruct free as [|x f]; cbn [bf_free bf_thr bf_next bf_freed bf_alive bf_missed]; (split; [lia|]); (split; [|done]); intros _; (split; [done|]).
    + pose proof (out_insert thr t None (Some (false, nx)) Ht) as P. cbn [pooled1 app] in P. cbn [app] in *. by rewrite <- P.
    + pose proof (out_insert thr t None (Some (true, x)) Ht) as P. cbn [pooled1 app] in P. rewrite <- E2, <- P. cbn [app]. symmetry. apply Permutation_middle.
  - destruct (thr !! t) as [[[p x]|]|] eqn:Ht; cbn [bf_free bf_thr bf_next bf_freed bf_alive bf_missed]; try done. split; [done|]. split.
    + intros ->. destruct (H2 eq_refl) as [E1 E2]. split; [done|]. pose proof (out_insert thr t (Some (p, x)) None Ht) as P. rewrite <- E2. destruct p; cbn [andb pooled1 app] in *; rewrite P; cbn [app]; [apply Permutation_middle|done].
    + intros ->. rewrite andb_false_r. by apply H3.
  - split; [done|]. split; [done|]. done.
Qed.
Lemma binv_run size threads acts : BInv size (bf_run size threads acts).
Proof.
  unfold bf_run. assert (H0 : BInv size (bf_new size threads)).
  { unfold BInv, bf_new, out. cbn [bf_free bf_thr bf_next bf_freed bf_alive bf_missed]. split; [lia|]. split; [|done]. intros _. split; [done|].
    replace (concat (pooled1 <$> replicate threads None)) with (@nil nat) by (induction threads; done). by rewrite app_nil_r. }
  revert H0. generalize (bf_new size threads). induction acts as [|a acts IH]; intros s H; [done|]. cbn [fold_left]. by apply IH, binv_step.
Qed.
Lemma quiet_out s : quiet s -> out s = [].
Proof. unfold quiet, out. induction 1 as [|o l -> _ IH]; [done|]. cbn. exact IH. Qed.
(** However many threads publish: one buffer is allocated for each element of the pool and for each publication that finds the pool empty; destroying the channel between publications
    deletes those of the pool, and only those. *)
Theorem C196_accounting size threads acts : let s := bf_run size threads acts in bf_alive s = true -> quiet s ->
  bf_next s = Nat.max 1 size + bf_missed s /\ bf_freed s = [] /\ bf_freed (bf_run size threads (acts ++ [BufDestroy])) ≡ₚ seq 0 (Nat.max 1 size).
Proof.
  intros s Ha Hq. destruct (binv_run size threads acts) as (H1 & H2 & _). fold s in H1, H2. destruct (H2 Ha) as [E1 E2]. split; [done|]. split; [done|].
  unfold bf_run. rewrite fold_left_app. cbn [fold_left bf_step bf_freed]. fold (bf_run size threads acts). fold s. rewrite E1. cbn [app]. rewrite (quiet_out s Hq), app_nil_r in E2. exact E2.
Qed.
(** With one publishing thread no publication finds the pool empty: no buffer is allocated after the construction, and the destruction of the channel deletes them all. *)
Lemma one_step size s a : BInv size s -> bf_missed s = 0 -> length (bf_thr s) = 1 -> bf_missed (bf_step s a) = 0 /\ length (bf_thr (bf_step s a)) = 1.
Proof.
  intros (H1 & H2 & H3) Hm Hl. destruct s as [free thr nx freed alive missed]. unfold out in *. cbn [bf_free bf_thr bf_next bf_freed bf_alive bf_missed] in *.
  destruct a as [t|t|]; cbn [bf_step bf_free bf_thr bf_next bf_freed bf_alive bf_missed].
  - destruct alive; [|done]. destruct (thr !! t) as [[o|]|] eqn:Ht; [done| |done]. destruct (H2 eq_refl) as [_ E2].
    destruct free as [|x f]; cbn [bf_thr bf_missed]; rewrite insert_length; [|done]. exfalso. destruct thr as [|o [|]]; try done. destruct t; [|done]. injection Ht as ->. cbn in E2.
    apply Permutation_length in E2. rewrite seq_length in E2. unfold bf_pool in E2. cbn in E2. lia.
  - destruct (thr !! t) as [[[p x]|]|] eqn:Ht; cbn [bf_thr bf_missed]; rewrite ?insert_length; done.
  - done.
Qed.
Lemma one_run size acts : bf_missed (bf_run size 1 acts) = 0.
Proof.
  unfold bf_run. assert (H0 : BInv size (bf_new size 1) /\ bf_missed (bf_new size 1) = 0 /\ length (bf_thr (bf_new size 1)) = 1) by (split; [exact (binv_run size 1 [])|done]).
  revert H0. generalize (bf_new size 1). induction acts as [|a acts IH]; intros s (H1 & H2 & H3); [done|]. cbn [fold_left]. apply IH. destruct (one_step size s a H1 H2 H3). split; [by apply binv_step|done].
Qed.
Theorem C196_one_thread size acts : let s := bf_run size 1 acts in bf_next s = Nat.max 1 size /\
  (bf_alive s = true -> quiet s -> bf_freed (bf_run size 1 (acts ++ [BufDestroy])) ≡ₚ seq 0 (bf_next s)).
Proof.
  intros s. pose proof (one_run size acts) as Hm. destruct (binv_run size 1 acts) as (H1 & _). fold s in H1, Hm. unfold bf_pool in H1. split; [lia|].
  intros Ha Hq. destruct (C196_accounting size 1 acts Ha Hq) as (_ & _ & E). rewrite E. replace (bf_next s) with (Nat.max 1 size) by lia. done.
Qed.
(** ** C197 (refuted): with more publishing threads than elements, any number of buffers is allocated and never deleted. *)
Definition overlap (n : nat) : list bufact := (BufBegin <$> seq 0 (S n)) ++ (BufEnd <$> seq 0 (S n)).
Lemma insert_middle {A} (l1 l2 : list A) x y : <[length l1 := y]> (l1 ++ x :: l2) = l1 ++ y :: l2.
Proof. replace (length l1) with (length l1 + 0) by lia. rewrite insert_app_r. done. Qed.
Definition none {A} (_ : A) : option (bool * nat) := None.
Lemma begins f : forall done (thr : list nat) nx fr mi, length f = length thr ->
  fold_left bf_step (BufBegin <$> seq (length done) (length f)) (Bufst f (done ++ (none <$> thr) ++ [None]) nx fr true mi) = Bufst [] (done ++ ((fun x => Some (true, x)) <$> f) ++ [None]) nx fr true mi.
Proof.
  induction f as [|x f IH]; intros dn thr nx fr mi Hl; destruct thr as [|o thr]; try done. cbn [length seq fmap list_fmap fold_left bf_step bf_alive bf_thr bf_free bf_next bf_freed bf_missed app].
  rewrite list_lookup_middle by done. rewrite insert_middle.
  specialize (IH (dn ++ [Some (true, x)]) thr nx fr mi ltac:(cbn in Hl; lia)). rewrite app_length, Nat.add_1_r, <- !app_assoc in IH. cbn [app] in IH. exact IH.
Qed.
Lemma ends l : forall done rest f nx fr mi,
  fold_left bf_step (BufEnd <$> seq (length done) (length l)) (Bufst f (done ++ ((fun x => Some (true, x)) <$> l) ++ rest) nx fr true mi) = Bufst (rev l ++ f) (done ++ (none <$> l) ++ rest) nx fr true mi.
Proof.
  induction l as [|x l IH]; intros dn rest f nx fr mi; [done|]. cbn [length seq fmap list_fmap fold_left bf_step bf_alive bf_thr bf_free bf_next bf_freed bf_missed app].
  rewrite list_lookup_middle by done. rewrite insert_middle. cbn [andb].
  specialize (IH (dn ++ [None]) rest (x :: f) nx fr mi). rewrite app_length, Nat.add_1_r, <- !app_assoc in IH. cbn [app] in IH. rewrite IH. cbn [rev]. by rewrite <- app_assoc.
Qed.
Lemma overlap_run n f nx mi : length f = n -> exists f', length f' = n /\ fold_left bf_step (overlap n) (Bufst f (replicate (S n) None) nx [] true mi) = Bufst f' (replicate (S n) None) (S nx) [] true (S mi).
Proof.
  intros Hf. exists (rev f). split; [by rewrite rev_length|]. unfold overlap. rewrite fold_left_app. rewrite seq_S, !fmap_app, !fold_left_app. cbn [fmap list_fmap Nat.add].
  assert (Hr : replicate (S n) None = [] ++ (none <$> f) ++ [None] :> list (option (bool * nat))).
  { cbn [app]. rewrite <- Hf. clear. replace (S (length f)) with (length f + 1) by lia. rewrite replicate_add. f_equal. induction f as [|y f IH]; [done|]. cbn. f_equal. exact IH. }
  rewrite Hr. pose proof (begins f [] f nx [] mi eq_refl) as Hb. cbn [length] in Hb. rewrite Hf in Hb. rewrite Hb. cbn [app].
  cbn [fold_left bf_step bf_alive bf_thr bf_free bf_next bf_freed bf_missed].
  assert (Hn : n = length ((fun x => Some (true, x)) <$> f)) by by rewrite fmap_length.
  rewrite (list_lookup_middle ((fun x => Some (true, x)) <$> f) [] None n) by exact Hn.
  assert (Hi : forall (l : list (option (bool * nat))) x y r, n = length l -> <[n := y]> (l ++ x :: r) = l ++ y :: r) by (intros l x y r ->; apply insert_middle). rewrite (Hi _ _ _ _ Hn).
  pose proof (ends f [] [Some (false, nx)] [] (S nx) [] (S mi)) as He. cbn [length app] in He. rewrite Hf in He. rewrite He.
  cbn [bf_thr bf_free bf_next bf_freed bf_missed bf_alive]. assert (Hn' : n = length (none <$> f)) by by rewrite fmap_length.
  rewrite (list_lookup_middle (none <$> f) [] (Some (false, nx)) n) by exact Hn'. rewrite (Hi _ _ _ _ Hn'). cbn [andb]. by rewrite app_nil_r.
Qed.
Theorem C197_leak_refuted size m : let n := Nat.max 1 size in exists acts, let s := bf_run size (S n) (acts ++ [BufDestroy]) in
  quiet s /\ bf_next s = n + m /\ bf_freed s ≡ₚ seq 0 n /\ forall more, n + m <= bf_next (bf_run size (S n) ((acts ++ [BufDestroy]) ++ more)) /\ bf_freed (bf_run size (S n) ((acts ++ [BufDestroy]) ++ more)) = bf_freed s.
Proof.
  intros n. exists (concat (replicate m (overlap n))).
  assert (R : exists f, length f = n /\ bf_run size (S n) (concat (replicate m (overlap n))) = Bufst f (replicate (S n) None) (n + m) [] true m).
  { induction m as [|m (f & Hf & E)]; [exists (seq 0 n); split; [apply seq_length|]; unfold bf_run, bf_new; cbn [replicate concat fold_left]; fold n; by rewrite Nat.add_0_r|].
    replace (S m) with (m + 1) by lia. rewrite replicate_add, concat_app. cbn [replicate concat]. rewrite app_nil_r. unfold bf_run. rewrite fold_left_app. fold (bf_run size (S n) (concat (replicate m (overlap n)))). rewrite E.
    destruct (overlap_run n f (n + m) m Hf) as (f' & Hf' & E'). exists f'. split; [done|]. rewrite E'. f_equal; lia. }
  destruct R as (f & Hf & E). assert (Hq : quiet (bf_run size (S n) (concat (replicate m (overlap n))))). { rewrite E. unfold quiet. cbn [bf_thr]. by apply Forall_replicate. }
  destruct (C196_accounting size (S n) (concat (replicate m (overlap n)))) as (A1 & A2 & A3); [by rewrite E|done|]. fold n in A1, A3.
  set (acts := concat _) in *. assert (D : bf_run size (S n) (acts ++ [BufDestroy]) = Bufst [] (replicate (S n) None) (n + m) f false m) by (unfold bf_run; rewrite fold_left_app; cbn [fold_left]; fold (bf_run size (S n) acts); by rewrite E).
  cbv zeta. rewrite D in *. cbn [bf_next bf_freed bf_thr] in *. split; [by apply Forall_replicate|]. split; [done|]. split; [done|].
  intros more. unfold bf_run. rewrite fold_left_app. fold (bf_run size (S n) (acts ++ [BufDestroy])). rewrite D.
  assert (G : forall more s, bf_alive s = false -> bf_free s = [] -> bf_next s <= bf_next (fold_left bf_step more s) /\ bf_freed (fold_left bf_step more s) = bf_freed s).
  { clear. induction more as [|a more IH]; intros s Ha Hf; [done|]. cbn [fold_left].
    assert (K : bf_alive (bf_step s a) = false /\ bf_free (bf_step s a) = [] /\ bf_next (bf_step s a) = bf_next s /\ bf_freed (bf_step s a) = bf_freed s).
    { destruct a as [t|t|]; cbn [bf_step]; [by rewrite Ha|destruct (bf_thr s !! t) as [[[p x]|]|]; cbn; rewrite ?Ha, ?andb_false_r; done|cbn; rewrite Hf, app_nil_r; done]. }
    destruct K as (K1 & K2 & K3 & K4). rewrite <- K3, <- K4. by apply IH. }
  exact (G more (Bufst [] (replicate (S n) None) (n + m) f false m) eq_refl eq_refl).
Qed.
(** Two publications in turn through a pool of two; two at once through a pool of one. *)
Example C196_case : let s := bf_run 2 1 [BufBegin 0; BufEnd 0; BufBegin 0; BufEnd 0] in bf_alive s = true /\ quiet s /\ bf_next s = 2.
Proof. split; [done|]. split; [by repeat constructor|done]. Qed.
Print Assumptions C196_accounting.
Print Assumptions C196_one_thread.
Print Assumptions C197_leak_refuted.
