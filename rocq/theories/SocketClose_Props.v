(** * C44, C69: closing and moving sockets. *)
From stdpp Require Import prelude.
From Coq Require Import Lia.
From Verif Require Import Base Socket_Model.

(** * C44 *)
(** What holds: close() on an object that was closed or moved throws and calls nothing. *)
Theorem C44_closed_object_partial stale answers : base_close (-1) stale answers = (ClThrew, 0, (-1)%Z).
Proof. reflexivity. Qed.
(** The rest is the reverse of what one expects, for every object and every errno left by earlier calls: a successful close throws and leaves the descriptor's number
    in the object (whose destructor then closes that number again) ... *)
Theorem C44_success_throws id stale r : id <> (-1)%Z -> stale <> EINTR -> base_close id stale (ClOk :: r) = (ClThrew, 1, id).
Proof. intros H1 H2. unfold base_close. rewrite decide_False by done. cbn. by destruct stale. Qed.
(** ... a failed close returns normally ... *)
Theorem C44_failure_returns id stale e r : id <> (-1)%Z -> base_close id stale (ClErr e :: r) = (ClReturned, 1, (-1)%Z).
Proof. intros H1. unfold base_close. by rewrite decide_False. Qed.
(** ... and if errno happened to be EINTR, a closed descriptor is closed again until that fails: any number n of times, if other threads keep opening files. *)
Theorem C44_stale_eintr id n e r : id <> (-1)%Z -> base_close id EINTR (replicate n ClOk ++ ClErr e :: r) = (ClReturned, S n, (-1)%Z).
Proof. intros H1. unfold base_close. rewrite decide_False by done. induction n as [|n IH]; [done|]. cbn [replicate app close_loop]. by rewrite IH. Qed.
(** So the claim (a successful close returns after one ::close) is false: *)
Theorem C44_refuted : exists id stale, id <> (-1)%Z /\ (base_close id stale [ClOk]).1.1 <> ClReturned.
Proof. exists 5%Z, EOTHER. split; [done|]. by vm_compute. Qed.
(** and the destructor after an explicit close() closes a file that other code opened in between. *)
Theorem C44_closes_foreign_descriptor_refuted : let s := b_run [BNew 5; BClose 0; BOther 5; BDestroy 0] in (5%Z ∈ b_others s) /\ (5%Z ∉ b_open s) /\ b_closes s = [5; 5]%Z.
Proof. cbn zeta. split; [left|]. split; [vm_compute; apply not_elem_of_nil|reflexivity]. Qed.

(** * C173: whatever close() reports, it releases the descriptor of an object that holds an open one, once, and touches no other ... *)
Theorem C173_released s i id : b_objs s !! i = Some (Some id) -> id ∈ b_open s -> (0 <= id)%Z ->
  let s' := b_step s (BClose i) in
  b_closes s' = b_closes s ++ [id] /\ (forall x, x ∈ b_open s' <-> x ∈ b_open s /\ x <> id) /\ (forall j, j <> i -> b_objs s' !! j = b_objs s !! j).
Proof.
  intros Hi Hin Hp. cbn zeta. cbn [b_step]. rewrite Hi. unfold b_close, os_answers, base_close. rewrite (decide_True _ _ Hin). rewrite decide_False by lia.
  assert (exists o n id', close_loop id (b_errno s) [ClOk; ClErr EBADF] = (o, n, id') /\ n <> 0) as (o & n & id' & -> & Hn).
  { destruct (close_loop id (b_errno s) [ClOk; ClErr EBADF]) as [[o n] id'] eqn:E. exists o, n, id'. split; [done|]. destruct (b_errno s); cbn in E; injection E as <- <- <-; done. }
  rewrite decide_False by done. rewrite !(decide_True _ _ Hin). cbn [b_closes b_open b_objs]. split; [done|]. split.
  - intros x. rewrite elem_of_list_filter. tauto.
  - intros j Hj. by rewrite list_lookup_insert_ne.
Qed.
(** ... and on an object that was closed or moved from it throws and closes nothing. *)
Theorem C173_nothing_to_close s i : b_objs s !! i = Some (Some (-1)%Z) ->
  (forall stale answers, (base_close (-1) stale answers).1 = (ClThrew, 0)) /\ let s' := b_step s (BClose i) in b_closes s' = b_closes s /\ b_open s' = b_open s.
Proof. intros Hi. split; [done|]. cbn zeta. cbn [b_step]. rewrite Hi. done. Qed.
(** An object that was moved from is such an object: the descriptor is in the new one, and closing or destroying the old one makes no system call. *)
Theorem C173_moved_from s i id : b_objs s !! i = Some (Some id) -> let s' := b_step s (BMove i) in
  b_objs s' !! i = Some (Some (-1)%Z) /\ b_objs s' !! length (b_objs s) = Some (Some id) /\ (forall j, j <> i -> j < length (b_objs s) -> b_objs s' !! j = b_objs s !! j) /\
  (b_open s', b_closes s') = (b_open s, b_closes s) /\
  (forall a, a = BClose i \/ a = BDestroy i -> (b_open (b_step s' a), b_closes (b_step s' a), b_errno (b_step s' a)) = (b_open s, b_closes s, b_errno s)).
Proof.
  intros Hi. cbn zeta. cbn [b_step]. rewrite Hi. cbn [b_objs b_open b_closes b_errno].
  pose proof (lookup_lt_Some _ _ _ Hi) as Hlt.
  assert (Hm : (<[i:=Some (-1)%Z]> (b_objs s) ++ [Some id]) !! i = Some (Some (-1)%Z)).
  { rewrite lookup_app_l by (by rewrite insert_length). by apply list_lookup_insert. }
  split; [done|]. split; [rewrite lookup_app_r by (by rewrite insert_length); by rewrite insert_length, Nat.sub_diag|].
  split; [intros j Hj Hl; rewrite lookup_app_l by (by rewrite insert_length); by rewrite list_lookup_insert_ne|]. split; [done|].
  intros a [-> | ->]; cbn [b_step b_objs]; rewrite Hm; [done|]. rewrite decide_True by done. done.
Qed.
Print Assumptions C173_moved_from.
Example C173_case : let s := b_run [BNew 5; BOther 7; BNew 6; BMove 1] in
  b_objs s = [Some 5; Some (-1); Some 6]%Z /\ b_open (b_step s (BClose 0)) = [6; 7]%Z /\ b_open (b_step s (BClose 1)) = [6; 7; 5]%Z.
Proof. by vm_compute. Qed.

(** * C69: ownership, as long as close() is not called by the program (the destructor does it). *)
(** The descriptors held by live objects. *)
Definition holds (o : option Z) : list Z := match o with Some id => if decide (id = (-1)%Z) then [] else [id] | None => [] end.
Definition held (s : bst) : list Z := concat (holds <$> b_objs s).
Definition never_closes (acts : list bact) : Prop := forall i, BClose i ∉ acts.
Record OInv (s : bst) : Prop := {
  oi_nd : NoDup (held s);
  oi_open : forall x, x ∈ held s -> x ∈ b_open s;
  oi_acct : b_made s ≡ₚ held s ++ b_closes s;
  oi_other : forall x, x ∈ b_others s -> x ∈ b_open s /\ x ∉ held s
}.
Lemma oi_same s s' : OInv s -> held s' ≡ₚ held s -> b_open s' = b_open s -> b_closes s' = b_closes s -> b_made s' = b_made s -> b_others s' = b_others s -> OInv s'.
Proof.
  intros [O1 O2 O3 O4] Hh E1 E2 E3 E4. constructor; rewrite ?E1, ?E2, ?E3, ?E4.
  - by rewrite Hh.
  - intros x. rewrite Hh. auto.
  - by rewrite Hh.
  - intros x Hx. rewrite Hh. auto.
Qed.
Lemma oi_step s a : OInv s -> (forall i, a <> BClose i) -> OInv (b_step s a).
Proof.
  intros O Hn. pose proof O as [O1 O2 O3 O4]. destruct a as [fd|fd|e|i|i j|i|i]; cbn [b_step].
  - case_decide as Hd; [done|]. assert (Hfd : holds (Some fd) = [fd]) by (cbn; rewrite decide_False; [done|]; intros ->; apply Hd; right; lia).
    assert (Hf : fd ∉ b_open s) by (intros H; apply Hd; by left).
    assert (Hh : concat (holds <$> b_objs s ++ [Some fd]) = held s ++ [fd]) by (rewrite fmap_app, concat_app; cbn [fmap list_fmap concat]; by rewrite Hfd, app_nil_r).
    set (s' := Bst (b_objs s ++ [Some fd]) (fd :: b_open s) (b_errno s) (b_closes s) (b_made s ++ [fd]) (b_others s)).
    assert (Hh' : held s' = held s ++ [fd]) by exact Hh. constructor; rewrite ?Hh'.
    + apply NoDup_app. split; [done|]. split; [|apply NoDup_singleton]. intros x Hx ->%elem_of_list_singleton. by apply Hf, O2.
    + intros x [H|H%elem_of_list_singleton]%elem_of_app; [right; auto|subst; left].
    + cbn [s' b_made b_closes]. rewrite O3. solve_Permutation.
    + intros x Hx. destruct (O4 x Hx) as [H1 H2]. split; [by right|]. intros [H|H%elem_of_list_singleton]%elem_of_app; [done|]. by subst.
  - case_decide as Hd; [done|]. assert (Hf : fd ∉ b_open s) by (intros H; apply Hd; by left). constructor; cbn [b_objs b_open b_closes b_made b_others]; unfold held in *; cbn [b_objs]; try done.
    + intros x Hx. right. auto.
    + intros x [H|H%elem_of_list_singleton]%elem_of_app; [destruct (O4 x H); split; [by right|done]|]. subst. split; [left|]. intros H. by apply Hf, O2.
  - by apply (oi_same s).
  - destruct (b_objs s !! i) as [[id|]|] eqn:E; [|done..]. apply (oi_same s); try done. unfold held. cbn [b_objs]. rewrite fmap_app, concat_app. cbn [fmap list_fmap concat].
    rewrite app_nil_r. rewrite (concat_insert holds (b_objs s) i (Some id) (Some (-1)%Z) E). cbn [holds]. rewrite (decide_True (P := (-1)%Z = (-1)%Z)) by done. by rewrite app_nil_r.
  - destruct (b_objs s !! i) as [[x|]|] eqn:Ei; [|done..]. destruct (b_objs s !! j) as [[y|]|] eqn:Ej; [|done..]. apply (oi_same s); try done. unfold held. cbn [b_objs].
    destruct (decide (i = j)) as [->|Hne].
    + rewrite Ei in Ej. injection Ej as <-. rewrite !list_insert_id; try done. by rewrite list_insert_id.
    + pose proof (concat_insert holds (b_objs s) j (Some y) (Some x) Ej) as P1.
      pose proof (concat_insert holds (<[j:=Some x]> (b_objs s)) i (Some x) (Some y) ltac:(by rewrite list_lookup_insert_ne by done)) as P2.
      rewrite P1 in P2. by apply Permutation_app_inv_r in P2.
  - by destruct (Hn i).
  - destruct (b_objs s !! i) as [[id|]|] eqn:E; [|done..]. pose proof (concat_insert holds (b_objs s) i (Some id) None E) as P. cbn [holds] in P. rewrite app_nil_r in P. case_decide as Hid.
    + rewrite app_nil_r in P. by apply (oi_same s).
    + assert (Hin : id ∈ held s) by (unfold held; rewrite <-P; apply elem_of_app; right; left). pose proof (O2 id Hin) as Hop.
      assert (Hb : exists id' e, b_close s id = (id', filter (fun x => x <> id) (b_open s), e, b_closes s ++ [id])).
      { unfold b_close, base_close, os_answers. rewrite (decide_False (P := id = (-1)%Z)) by done. rewrite (decide_True (P := id ∈ b_open s)) by done. rewrite ?(decide_True (P := id ∈ b_open s)) by done. destruct (b_errno s); cbn [close_loop]; rewrite decide_False by done; eauto. }
      destruct Hb as (id' & e & ->).
      assert (Hnew : forall x, x ∈ concat (holds <$> <[i:=None]> (b_objs s)) <-> x ∈ held s /\ x <> id).
      { assert (Hnd : NoDup (concat (holds <$> <[i:=None]> (b_objs s)) ++ [id])) by (rewrite P; exact O1). apply NoDup_app in Hnd as (_ & Hnd & _). intros x. unfold held. rewrite <-P, elem_of_app, elem_of_list_singleton. split.
        - intros H. split; [by left|]. intros ->. apply (Hnd id H). left.
        - intros [[H|H] H2]; done. }
      constructor; unfold held; cbn [b_objs b_open b_closes b_made b_others].
      * assert (Hnd : NoDup (concat (holds <$> <[i:=None]> (b_objs s)) ++ [id])) by (rewrite P; exact O1). by apply NoDup_app in Hnd as (? & _ & _).
      * intros x [H1 H2]%Hnew. apply elem_of_list_filter. auto.
      * rewrite O3. unfold held. rewrite <-P. solve_Permutation.
      * intros x Hx. destruct (O4 x Hx) as [H1 H2]. split; [apply elem_of_list_filter; split; [|done]; by intros ->|]. rewrite Hnew. by intros [? _].
Qed.
Lemma oi_run acts : never_closes acts -> OInv (b_run acts).
Proof.
  unfold b_run. induction acts as [|a acts IH] using rev_ind; [intros _; constructor; [constructor|intros x H; by apply elem_of_nil in H|done|intros x H; by apply elem_of_nil in H]|]. intros Hn. rewrite fold_left_app. cbn [fold_left]. apply oi_step.
  - apply IH. intros i H. apply (Hn i), elem_of_app. by left.
  - intros i ->. apply (Hn i), elem_of_app. right. left.
Qed.
(** Through every history of constructions, moves, assignments and destructions, every descriptor given to an object is either held by exactly one live object (and open)
    or was closed once; *)
Theorem C69_one_owner acts : never_closes acts -> let s := b_run acts in NoDup (held s) /\ (forall x, x ∈ held s -> x ∈ b_open s) /\ b_made s ≡ₚ held s ++ b_closes s.
Proof. intros H. by destruct (oi_run acts H). Qed.
(** descriptors of other code are not touched; *)
Theorem C69_others_untouched acts x : never_closes acts -> x ∈ b_others (b_run acts) -> x ∈ b_open (b_run acts).
Proof. intros H Hx. destruct (oi_run acts H) as [_ _ _ O4]. by apply O4. Qed.
(** and once all objects are destroyed all of them are closed. *)
Theorem C69_all_closed_at_the_end acts : never_closes acts -> Forall (fun o => o = None) (b_objs (b_run acts)) -> b_closes (b_run acts) ≡ₚ b_made (b_run acts).
Proof.
  intros H Hd. destruct (oi_run acts H) as [_ _ O3 _]. rewrite O3. replace (held (b_run acts)) with (@nil Z); [done|]. unfold held. induction Hd as [|o l -> _ IH]; [done|]. cbn. exact IH.
Qed.
Definition own_demo : list bact := [BNew 3; BOther 7; BNew 4; BMove 0; BAssign 1 2; BErrno EINTR; BDestroy 0; BDestroy 1; BNew 3].
Example own_demo_ok : never_closes own_demo /\ held (b_run own_demo) = [4; 3]%Z /\ b_closes (b_run own_demo) = [3]%Z /\ b_made (b_run own_demo) = [3; 4; 3]%Z.
Proof. split; [|by vm_compute]. intros i H. repeat (apply elem_of_cons in H as [H|H]; [done|]). by apply elem_of_nil in H. Qed.
Print Assumptions C44_closed_object_partial.
Print Assumptions C44_success_throws.
Print Assumptions C44_failure_returns.
Print Assumptions C44_stale_eintr.
Print Assumptions C44_refuted.
Print Assumptions C44_closes_foreign_descriptor_refuted.
Print Assumptions C69_one_owner.
Print Assumptions C69_others_untouched.
Print Assumptions C69_all_closed_at_the_end.
