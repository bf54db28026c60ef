(** * C182: the thread-safe request/reply handler is free again after every call, whatever callbacks do. *)
From stdpp Require Import prelude.
From Verif Require Import CallbackHandler_Model.

(** ** Specification: a thread is in its own code when it is in none of its calls of the handler. *)
Definition own_code (s : hst) (t : nat) : Prop := exists stk, h_thr s !! t = Some stk /\ (stk = [] \/ exists l, stk = [Acts l]).

(** ** Proofs *)
Definition is_unlock (f : frame) : bool := match f with Unlock => true | _ => false end.
Definition unlocks (stk : list frame) : nat := length (List.filter is_unlock stk).
Definition ends_ok (stk : list frame) : Prop := last stk <> Some Unlock.
Record linv (s : hst) : Prop := {
  li_count : forall t stk, h_thr s !! t = Some stk -> unlocks stk = (if decide (h_lock s = Some t) then 1 else 0);
  li_end : forall t stk, h_thr s !! t = Some stk -> ends_ok stk;
  li_owner : forall t, h_lock s = Some t -> t < length (h_thr s)
}.
Lemma unlocks_inv k stk : unlocks (map (invalidate k) stk) = unlocks stk.
Proof. unfold unlocks. induction stk as [|f stk IH]; [done|]. cbn. destruct f; cbn; auto. Qed.
Lemma ends_inv k stk : ends_ok stk -> ends_ok (map (invalidate k) stk).
Proof. unfold ends_ok. change (map (invalidate k) stk) with (invalidate k <$> stk). rewrite fmap_last. destruct (last stk) as [f|]; [|done]. cbn. destruct f; cbn; congruence. Qed.
Lemma invall_lookup k (thr : list (list frame)) t stk : invalidate_all k thr !! t = Some stk -> exists stk0, thr !! t = Some stk0 /\ stk = map (invalidate k) stk0.
Proof. unfold invalidate_all. change (map (map (invalidate k)) thr) with (map (invalidate k) <$> thr). rewrite list_lookup_fmap. destruct (thr !! t) as [x|]; [|done]. cbn. intros [= <-]. eauto. Qed.
Lemma linv_inv s vec cap next ub log k thr : linv (Hst vec cap next (h_lock s) ub thr log) -> linv (Hst vec cap next (h_lock s) ub (invalidate_all k thr) log).
Proof.
  intros [H1 H2 H3]. constructor; cbn in *.
  - intros t stk H. apply invall_lookup in H as (x & Hx & ->). rewrite unlocks_inv. by apply H1.
  - intros t stk H. apply invall_lookup in H as (x & Hx & ->). apply ends_inv. by eapply H2.
  - unfold invalidate_all. by rewrite map_length.
Qed.
Lemma linv_set s vec cap next ub log t stk stk' lk : linv s -> h_thr s !! t = Some stk -> ends_ok stk' ->
  (lk = h_lock s /\ unlocks stk' = unlocks stk \/ h_lock s = None /\ lk = Some t /\ unlocks stk' = 1 \/ lk = None /\ unlocks stk' = 0 /\ unlocks stk = 1) ->
  linv (Hst vec cap next lk ub (<[t := stk']> (h_thr s)) log).
Proof.
  intros [H1 H2 H3] Ht He Hc. pose proof (lookup_lt_Some _ _ _ Ht) as Hlt. pose proof (H1 t stk Ht) as Hu. constructor; cbn.
  - intros u x Hx. apply list_lookup_insert_Some in Hx as [(<- & <- & _)|[Hne Hx]].
    + destruct Hc as [[-> ->]|[(_ & -> & ->)|(-> & -> & _)]]; [done|by rewrite decide_True|by rewrite decide_False].
    + rewrite (H1 u x Hx). destruct Hc as [[-> _]|[(E & -> & _)|(-> & _ & E)]]; [done|rewrite E, !decide_False by congruence; done|].
      rewrite (decide_False (P := None = Some u)) by done. rewrite decide_False; [done|]. intros Hl. rewrite E in Hu. destruct (decide (h_lock s = Some t)) as [Hl'|]; [congruence|done].
  - intros u x Hx. apply list_lookup_insert_Some in Hx as [(<- & <- & _)|[Hne Hx]]; [done|by eapply H2].
  - rewrite insert_length. intros u. destruct Hc as [[-> _]|[(_ & -> & _)|(-> & _)]]; [apply H3|intros [= <-]; done|done].
Qed.
Lemma ends_tail f stk : ends_ok (f :: stk) -> ends_ok stk.
Proof. unfold ends_ok. destruct stk as [|g stk]; [done|]. by rewrite last_cons_cons. Qed.
Lemma ends_cons f stk : f <> Unlock -> ends_ok stk -> ends_ok (f :: stk).
Proof. unfold ends_ok. intros Hf. destruct stk as [|g stk]; [cbn; congruence|]. by rewrite last_cons_cons. Qed.
Lemma linv_step E s t : linv s -> linv (step E s t).
Proof.
  intros I. unfold step. destruct (h_ub s); [done|]. destruct (h_thr s !! t) as [[|f rest]|] eqn:Ht; [done| |done].
  pose proof (li_end _ I _ _ Ht) as He. pose proof (ends_tail _ _ He) as Hr. destruct f as [[|a l]|[r cb|p]|i v| |].
  - eapply linv_set; [done|exact Ht|done|]. by left.
  - destruct (e_mt E).
    + destruct (h_lock s) eqn:El; [done|]. eapply linv_set; [done|exact Ht| |].
      * apply ends_cons; [done|]. unfold ends_ok. rewrite last_cons_cons. apply ends_cons; [done|done].
      * right; left. split_and!; [done..|]. pose proof (li_count _ I _ _ Ht) as Hu. rewrite El in Hu. cbn in *. unfold unlocks in *. cbn in *. by rewrite Hu.
    + eapply linv_set; [done|exact Ht| |by left]. by repeat apply ends_cons.
  - assert (L : linv (Hst (h_vec s ++ [Entry (h_next s) r cb]) (if length (h_vec s) =? h_cap s then S (h_cap s + e_grow E (h_cap s)) else h_cap s) (S (h_next s)) (h_lock s) false
      (<[t:=Acts (e_pub E r) :: rest]> (h_thr s)) (h_log s ++ [Issued (h_next s) r cb]))).
    { eapply linv_set; [done|exact Ht|by apply ends_cons|by left]. }
    destruct (length (h_vec s) =? h_cap s); [by apply linv_inv|done].
  - destruct (find_match (e_match E) p 0 (h_vec s)) as [[i e]|].
    + eapply linv_set; [done|exact Ht| |].
      * apply ends_cons; [done|]. destruct (e_throw E (en_cb e) p); cbn [app]; repeat (apply ends_cons; [done|]); done.
      * left. split; [done|]. unfold unlocks. cbn. by destruct (e_throw E (en_cb e) p).
    + eapply linv_set; [done|exact Ht|done|by left].
  - destruct v; [apply linv_inv|]; (eapply linv_set; [done|exact Ht|done|by left]).
  - eapply linv_set; [done|exact Ht|done|]. right; right. pose proof (li_count _ I _ _ Ht) as Hu. unfold unlocks in *. cbn in *. case_decide; [|done]. split_and!; [done|lia|lia].
  - destruct rest as [|g [|g2 rest]].
    + eapply linv_set; [done|exact Ht|done|by left].
    + eapply linv_set; [done|exact Ht|done|by left].
    + eapply linv_set; [done|exact Ht| |].
      * apply ends_cons; [done|]. by apply ends_tail in Hr.
      * destruct g; try (by left). right; right. pose proof (li_count _ I _ _ Ht) as Hu. unfold unlocks in *. cbn in *. case_decide; [|done]. split_and!; [done|lia|lia].
Qed.
Lemma linv_run E progs sched : linv (run E (hst_new progs) sched).
Proof.
  unfold run. assert (H : linv (hst_new progs)).
  { constructor; cbn; [| |done]; intros t stk H; rewrite list_lookup_fmap in H; destruct (progs !! t); [|done| |done]; cbn in H; injection H as <-; done. }
  revert H. generalize (hst_new progs). induction sched as [|t sched IH]; intros s H; [done|]. cbn. apply IH. by apply linv_step.
Qed.
(** C182: a thread that is in none of its calls does not hold the handler's mutex, whatever callbacks do: call the handler, publish, throw. *)
Theorem C182_not_held E progs sched t : let s := run E (hst_new progs) sched in own_code s t -> h_lock s <> Some t.
Proof.
  intros s (stk & Ht & Hs) Hl. pose proof (li_count _ (linv_run E progs sched) t stk Ht) as Hu. fold s in Hu. rewrite Hl, decide_True in Hu by done. by destruct Hs as [->|[l ->]].
Qed.
Print Assumptions C182_not_held.
(** So when all threads are outside, a call of any of them can enter. *)
Theorem C182_enters E progs sched t a l : e_mt E = true -> let s := run E (hst_new progs) sched in
  h_ub s = false -> (forall u, u < length (h_thr s) -> own_code s u) -> h_thr s !! t = Some [Acts (a :: l)] -> h_lock (step E s t) = Some t.
Proof.
  intros Hmt s Hub Hall Ht. unfold step. rewrite Hub, Ht, Hmt. destruct (h_lock s) as [u|] eqn:El; [|done]. exfalso.
  pose proof (li_owner _ (linv_run E progs sched) u) as Ho. fold s in Ho. by apply (C182_not_held E progs sched u (Hall u (Ho El))).
Qed.
Print Assumptions C182_enters.
(** Two threads; the callback of the first one's reply throws: the mutex is released, and the second thread's request enters. *)
Example C182_case :
  let E := Env (fun _ _ => true) (fun _ => []) (fun _ _ => []) (fun _ _ => true) true (fun n => n) in
  let s := run E (hst_new [[Req 1 7; Rep 5]; [Req 2 8]]) [0;0;0;0;0;0;0;0;0;0] in
  h_lock (run E (hst_new [[Req 1 7; Rep 5]; [Req 2 8]]) [0;0;0;0;0;0]) = Some 0 /\ h_ub s = false /\ own_code s 0 /\ own_code s 1 /\ h_lock s = None /\ h_log s = [Issued 0 1 7; Answered 0 7 5] /\ h_lock (step E s 1) = Some 1.
Proof. vm_compute. split_and!; try done; eexists; (split; [reflexivity|]); eauto. Qed.
