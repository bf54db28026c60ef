From stdpp Require Import prelude strings list_numbers.
From Coq Require Import ZArith Lia ZifyBool.
From Verif Require Import Base MultiRing_Model MultiRing_Spec MultiRing_Proofs MultiRing_Log EventLoop_Model EventLoop_Spec.
Local Open Scope Z_scope.

Lemma el_wf g : 1 <= ec_k g <= 30 -> wf_ring (el_rg g) 1.
Proof.
  intros Hk. constructor; cbn; try done.
  - intros i Hi. apply elem_of_list_singleton in Hi as ->. lia.
  - intros i d Hd. unfold deps_of in Hd. destruct (rg_deps (el_rg g) !! i) as [l|] eqn:E; [|by apply elem_of_nil in Hd].
    apply elem_of_list_lookup_2 in E. cbn in E. apply elem_of_list_singleton in E as ->. by apply elem_of_nil in Hd.
  - intros i Hi. apply prot_gate. cbn. replace i with 0%nat by lia. set_solver.
Qed.

(** ** The ring inside. *)
Lemma el_run_snoc g s acts a : el_run g s (acts ++ [a]) = el_step g (el_run g s acts) a.
Proof. unfold el_run. by rewrite fold_left_app. Qed.
Lemma ring_step g s a : el_ring (el_step g s a) = el_ring s \/ exists b, el_ring (el_step g s a) = mstep (el_rg g) (el_ring s) b.
Proof.
  destruct a as [t ok|th|n|u cb|u cb]; cbn [el_step].
  - unfold el_prod. destruct (el_dpc s !! t) as [[|p|p v]|]; [|by left..].
    right. exists (AProd t ok). cbn [mstep].
    destruct (m_prods (el_ring s) !! t) as [[[| |cur|cur i m|cur m|cur|lo [|i]|lo i] [|[b [|z [|z' l]]] todo]]|]; try done;
        (destruct (drop _ _) as [|[x [lo' vs| |]] [|]]; done).
  - unfold el_loop. destruct (m_cons (el_ring s) !! 0%nat) as [[sq [|j m|seq avail|nx avail|v] lg]|]; try (right; by exists (ACons 0 false)).
    destruct (avail <? nx); [right; by exists (ACons 0 false)|].
    destruct (el_h s) as [|[|u todo]|u d [|cb cbs] todo]; try (by left); [right; by exists (ACons 0 false)|].
    destruct th; [right; by exists (ACons 0 true)|by left].
  - by left.
  - left. by destruct (el_subs s !! u) as [[]|].
  - left. by destruct (el_subs s !! u) as [[]|].
Qed.
Lemma ring_run g progs acts : exists racts, el_ring (el_run g (el_new g progs) acts) = mrun (el_rg g) (mst_new 1 (el_claims <$> progs)) racts.
Proof.
  induction acts as [|a acts [racts IH]] using rev_ind; [by exists []|]. rewrite el_run_snoc.
  destruct (ring_step g (el_run g (el_new g progs) acts) a) as [E|[b E]]; rewrite E, IH; [by exists racts|]. exists (racts ++ [b]). by rewrite mrun_snoc.
Qed.
Lemma step_cursor_el g s a : m_cursor (el_ring s) <= m_cursor (el_ring (el_step g s a)).
Proof. destruct (ring_step g s a) as [->|[b ->]]; [lia|apply step_cursor]. Qed.
(** What the ring guarantees. *)
Record RInv (g : elcfg) (progs : list (list Z)) (m : mst) : Prop := {
  ri_m : MInv (el_rg g) 1 m;
  ri_l : LInv (el_claims <$> progs) m;
  ri_one : forall t p c, m_prods m !! t = Some p -> c ∈ pr_todo p -> exists z, c = Claim false [z];
}.
Lemma rinv_run g progs acts : 1 <= ec_k g <= 30 -> m_cursor (el_ring (el_run g (el_new g progs) acts)) < 2^31 ->
  RInv g progs (el_ring (el_run g (el_new g progs) acts)).
Proof.
  intros Hk Hb. destruct (ring_run g progs acts) as [racts E]. rewrite E in *. constructor.
  - apply minv_run; [by apply el_wf|by left].
  - apply linv_run.
  - intros t p c Hp Hc. destruct (todo_run _ _ _ _ _ _ Hp) as (prog & H1 & [k ->]).
    rewrite list_lookup_fmap in H1. destruct (progs !! t) as [l|]; [|done]. injection H1 as H1.
    assert (Hin : c ∈ el_claims l) by (rewrite H1; apply elem_of_app; by right). apply elem_of_list_fmap in Hin as (z & -> & _). eauto.
Qed.
Lemma vals_step r m b : forall j, j <= m_cursor m -> m_vals (mstep r m b) j = m_vals m j.
Proof.
  intros j Hj. destruct b as [t ok|i th]; cbn [mstep].
  - destruct (prod_shape r m t ok) as [|s' p p' c todo Ht Hp Hw Ha Hl Hv Hc|s' lo i c todo Ht Hp Hl Hv Hc|s' p c todo res Ht Hw Hp Hl Hr Hv Hc|s' cur c todo Ht Hcur Hp Hl Hv Hc]; rewrite ?Hv; try done.
    destruct (Z.leb_spec (cur + 1) j); [lia|done].
  - by destruct (cons_log r m i th) as (_ & _ & -> & _).
Qed.

(** ** One step of a publisher. *)
Definition written (m : mst) (j : Z) : Prop :=
  m_pub m j = true \/ exists t i todo, m_prods m !! t = Some (Prod (MWrite j (S i)) todo) \/ m_prods m !! t = Some (Prod (MFlag j 0) todo).
(** Some thread has claimed j and not written it yet; what a thread has still to publish. *)
Definition fresh (m : mst) (j : Z) : Prop := exists t todo, m_prods m !! t = Some (Prod (MWrite j 0) todo).
Definition rest (p : prod) : list claim := if writing (pr_pc p) then tail (pr_todo p) else pr_todo p.
Definition full (g : elcfg) (z : Z) : wrapper := Wrapper (Some (ev_data g z)) (ev_name g z).
Inductive pcase (g : elcfg) (s : elst) (t : nat) : elst -> Prop :=
| pc_same : pcase g s t s
| pc_disc dc d d' : el_dpc s !! t = Some d -> d <> DNone -> pcase g s t (El (el_ring s) (el_wr s) dc (<[t := d']> (el_dpc s)) (el_h s) (el_subs s) (el_log s))
| pc_move m' : el_dpc s !! t = Some DNone -> m_cursor m' = m_cursor (el_ring s) -> m_vals m' = m_vals (el_ring s) -> m_log m' = m_log (el_ring s) -> m_cons m' = m_cons (el_ring s) ->
    (forall j, written m' j -> written (el_ring s) j) ->
    (forall j, fresh m' j -> fresh (el_ring s) j) -> rest <$> m_prods m' = rest <$> m_prods (el_ring s) ->
    pcase g s t (El m' (el_wr s) (el_disc s) (el_dpc s) (el_h s) (el_subs s) (el_log s))
| pc_write m' lo z todo w : el_dpc s !! t = Some DNone -> m_cursor m' = m_cursor (el_ring s) -> m_vals m' = m_vals (el_ring s) -> m_log m' = m_log (el_ring s) -> m_cons m' = m_cons (el_ring s) ->
    m_prods (el_ring s) !! t = Some (Prod (MWrite lo 0) (Claim false [z] :: todo)) ->
    (forall j, written m' j -> written (el_ring s) j \/ j = lo) -> (w = [] \/ w = [VWarn lo] /\ w_data (el_wr s (ring_index (ec_k g) lo)) <> None) ->
    m_prods m' = <[t := Prod (MWrite lo 1) (Claim false [z] :: todo)]> (m_prods (el_ring s)) ->
    pcase g s t (El m' (fupd (el_wr s) (ring_index (ec_k g) lo) (full g z)) (el_disc s) (el_dpc s) (el_h s) (el_subs s) (el_log s ++ w))
| pc_accept m' z todo : el_dpc s !! t = Some DNone -> m_prods (el_ring s) !! t = Some (Prod (MCas (m_cursor (el_ring s))) (Claim false [z] :: todo)) ->
    m_prods m' = <[t := Prod (MWrite (m_cursor (el_ring s) + 1) 0) (Claim false [z] :: todo)]> (m_prods (el_ring s)) ->
    m_cursor m' = m_cursor (el_ring s) + 1 -> m_pub m' = m_pub (el_ring s) -> m_cons m' = m_cons (el_ring s) -> 
    m_vals m' (m_cursor (el_ring s) + 1) = z -> (forall j, j <= m_cursor (el_ring s) -> m_vals m' j = m_vals (el_ring s) j) ->
    m_log m' = m_log (el_ring s) ++ [(t, RClaimed (m_cursor (el_ring s) + 1) [z])] -> (forall j, written m' j -> written (el_ring s) j) ->
    pcase g s t (El m' (el_wr s) (el_disc s) (el_dpc s) (el_h s) (el_subs s) (el_log s ++ [VAccept t z (m_cursor (el_ring s) + 1)]))
| pc_refuse m' pc z todo : el_dpc s !! t = Some DNone -> m_prods (el_ring s) !! t = Some (Prod pc (Claim false [z] :: todo)) ->
    m_prods m' = <[t := Prod MIdle todo]> (m_prods (el_ring s)) ->
    m_cursor m' = m_cursor (el_ring s) -> m_vals m' = m_vals (el_ring s) -> m_cons m' = m_cons (el_ring s) ->
    m_log m' = m_log (el_ring s) ++ [(t, RRefused)] -> (forall j, written m' j -> written (el_ring s) j) -> writing pc = false ->
    pcase g s t (El m' (el_wr s) (el_disc s) (<[t := DRead (ec_pub g z).1]> (el_dpc s)) (el_h s) (el_subs s) (el_log s ++ [VRefuse t z])).

Lemma written_ins m m' t p p' : m_prods m !! t = Some p -> m_prods m' = <[t := p']> (m_prods m) -> m_pub m' = m_pub m ->
  (forall j i todo, p' <> Prod (MWrite j (S i)) todo /\ p' <> Prod (MFlag j 0) todo) -> forall j, written m' j -> written m j.
Proof.
  intros Ht Hp Hpub Hne j [H|(u & i & todo & H)]; [left; by rewrite <-Hpub|]. right. exists u, i, todo. rewrite Hp in H.
  destruct H as [H|H]; (apply list_lookup_insert_Some in H as [(-> & E & _)|[_ H]]; [by destruct (Hne j i todo)|]); auto.
Qed.
Lemma fresh_ins m m' t p' : m_prods m' = <[t := p']> (m_prods m) -> (forall j todo, p' <> Prod (MWrite j 0) todo) -> forall j, fresh m' j -> fresh m j.
Proof.
  intros Hp Hne j (u & todo & H). rewrite Hp in H. apply list_lookup_insert_Some in H as [(-> & E & _)|[_ H]]; [by destruct (Hne j todo)|]. by exists u, todo.
Qed.
Lemma rest_ins (l l' : list prod) t p p' : l !! t = Some p -> l' = <[t := p']> l -> rest p' = rest p -> rest <$> l' = rest <$> l.
Proof. intros Ht -> E. rewrite list_fmap_insert, E. apply list_insert_id. by rewrite list_lookup_fmap, Ht. Qed.
Lemma drop_self {A} (l : list A) : drop (length l) l = [].
Proof. by rewrite drop_ge. Qed.
Lemma drop_snoc {A} (l : list A) x : drop (length l) (l ++ [x]) = [x].
Proof. by rewrite drop_app. Qed.
Ltac mv Ht := apply pc_move; cbn; try done; [eapply written_ins; [exact Ht|reflexivity|done|done]|eapply fresh_ins; [reflexivity|done]|eapply rest_ins; [exact Ht|reflexivity|done]].
Definition single (m : mst) : Prop := forall t p c, m_prods m !! t = Some p -> c ∈ pr_todo p -> exists z, c = Claim false [z].
Lemma el_prod_case0 g s t ok : single (el_ring s) -> pcase g s t (el_prod g s t ok).
Proof.
  intros Hone. unfold el_prod. destruct (el_dpc s !! t) as [[|p|p v]|] eqn:Hd; [|by eapply pc_disc; [exact Hd|]..|constructor].
  set (m := el_ring s) in *. destruct (m_prods m !! t) as [[pc tl]|] eqn:Ht.
  2:{ unfold prod_step. rewrite Ht. destruct s; apply pc_move; done. }
  destruct tl as [|c todo].
  { unfold prod_step. rewrite Ht. assert (E : El m (el_wr s) (el_disc s) (el_dpc s) (el_h s) (el_subs s) (el_log s) = s) by (by destruct s).
    destruct pc as [| |cur|cur i mm|cur mm|cur|lo [|i]|lo i]; rewrite E; constructor. }
  destruct (Hone t _ c Ht) as [z ->]; [cbn; set_solver|].
  unfold prod_step. rewrite Ht.
  destruct pc as [| |cur|cur i mm|cur mm|cur|lo [|[|i]]|lo i]; cbn [m_log cl_n cl_vals cl_blocking length lookup list_lookup].
  - cbn. rewrite drop_self. mv Ht.
  - rewrite drop_self. mv Ht.
  - rewrite drop_self. apply pc_move; cbn; try done; [eapply written_ins; [exact Ht|reflexivity|done|]; intros j i l; by destruct (_ || _)|eapply fresh_ins; [reflexivity|]; intros j l; by destruct (_ || _)|eapply rest_ins; [exact Ht|reflexivity|]; by destruct (_ || _)].
  - cbn [rg_gating el_rg]. destruct ([0%nat] !! i); cbn [m_log]; rewrite drop_self; mv Ht.
  - destruct (mm <? _); cbn [fst snd].
    + rewrite drop_snoc. eapply pc_refuse; cbn; try done. eapply written_ins; [exact Ht|reflexivity|done|done].
    + rewrite drop_self. mv Ht.
  - destruct (bool_decide (m_cursor m = cur) && ok) eqn:E; cbn [m_log].
    + apply andb_true_iff in E as [E _]. apply bool_decide_eq_true in E. subst cur. rewrite drop_snoc. eapply pc_accept; cbn; fold m; try done.
      * change (cl_n (Claim false [z])) with 1. by rewrite Z.leb_refl, Z.sub_diag.
      * intros j Hj. destruct (Z.leb_spec (m_cursor m + 1) j); [lia|done].
      * eapply written_ins; [exact Ht|reflexivity|done|done].
    + rewrite drop_self. mv Ht.
  - eapply pc_write; cbn; fold m; try done.
    + intros j [H|(u & ii & l & H)]; [by left; left|]. cbn in H.
      destruct H as [H|H]; (apply list_lookup_insert_Some in H as [(-> & E & _)|[_ H]]; [|left; right; exists u, ii; eauto]); [|done].
      injection E as <- _ _. by right.
    + destruct (w_data _); [right|]; auto.
  - rewrite drop_self. apply pc_move; cbn; try done; [|eapply fresh_ins; [reflexivity|done]|eapply rest_ins; [exact Ht|reflexivity|done]]. intros j [H|(u & ii & l & H)]; [by left|]. cbn in H.
    destruct H as [H|H]; (apply list_lookup_insert_Some in H as [(-> & E & _)|[_ H]]; [|right; exists u, ii; eauto]); [done|].
    injection E as <- <-. right. exists u, 0%nat; eauto.
  - cbn. rewrite drop_self. apply pc_move; cbn; try done; [|eapply fresh_ins; [reflexivity|done]|eapply rest_ins; [exact Ht|reflexivity|done]]. intros j [H|(u & ii & l & H)]; [by left|]. cbn in H.
    destruct H as [H|H]; (apply list_lookup_insert_Some in H as [(-> & E & _)|[_ H]]; [|right; exists u, ii; eauto]); [done|].
    injection E as <- <-. right. exists u, (S i); eauto.
  - destruct i as [|i]; cbn.
    + rewrite drop_self. apply pc_move; cbn; try done; [|eapply fresh_ins; [reflexivity|done]|eapply rest_ins; [exact Ht|reflexivity|done]]. intros j [H|(u & ii & l & H)]; cbn in H.
      * destruct (decide (j = lo)) as [Ej|Ej]; [subst j; right; exists t, 0%nat; eauto|]. rewrite fupd_ne in H by lia. by left.
      * destruct H as [H|H]; (apply list_lookup_insert_Some in H as [(-> & E & _)|[_ H]]; [done|right; exists u, ii; eauto]).
    + rewrite drop_self. mv Ht.
Qed.

Lemma el_prod_case g progs s t ok : RInv g progs (el_ring s) -> pcase g s t (el_prod g s t ok).
Proof. intros R. apply el_prod_case0. exact (ri_one _ _ _ R). Qed.
Lemma single_run g progs acts : single (el_ring (el_run g (el_new g progs) acts)).
Proof.
  destruct (ring_run g progs acts) as [racts E]. rewrite E in *. intros t p c Hp Hc. destruct (todo_run _ _ _ _ _ _ Hp) as (prog & H1 & [k ->]).
  rewrite list_lookup_fmap in H1. destruct (progs !! t) as [l|]; [|done]. injection H1 as H1.
  assert (Hin : c ∈ el_claims l) by (rewrite H1; apply elem_of_app; by right). apply elem_of_list_fmap in Hin as (z & -> & _). eauto.
Qed.

(** ** One step of the loop. *)
Lemma cons_pos r nc m : MInv r nc m -> forall c th c', m_cons m !! 0%nat = Some c -> m_cons (cons_step r m 0 th) !! 0%nat = Some c' ->
  pos c <= pos c' /\ (forall nx avail, co_pc c = CHandle nx avail -> nx <= avail -> pos c' = nx) /\
  ((forall nx avail, co_pc c = CHandle nx avail -> avail < nx) -> pos c' = pos c).
Proof.
  intros I c th c' Hc. unfold cons_step. rewrite Hc. pose proof (i_cons _ _ _ I 0%nat c Hc) as (A & B & D & E & _).
  assert (Hlt : (0 < length (m_cons m))%nat) by (by eapply lookup_lt_Some).
  assert (Hs : forall x, m_cons (Mst (m_cursor m) (m_cache m) (m_flags m) (m_slots m) (m_prods m) (<[0%nat := x]> (m_cons m)) (m_ub m) (m_log m) (m_vals m) (m_pub m)) !! 0%nat = Some x).
  { intros x. cbn. by apply list_lookup_insert. }
  destruct c as [sq pc lg]; cbn [co_pc co_seq co_log pos] in *; destruct pc as [|j mm|seq avail|nx avail|v].
  - destruct (deps_of r 0); [destruct (_ <? _)|]; rewrite ?Hc, ?Hs; intros [= <-]; unfold pos; cbn; (split; [lia|split; [done|lia]]).
  - destruct (deps_of r 0 !! j); [|destruct (_ <? _)]; rewrite ?Hs; intros [= <-]; unfold pos; cbn; (split; [lia|split; [done|lia]]).
  - destruct (Z.ltb_spec avail seq); [|destruct (_ =? _)]; rewrite ?Hs; intros [= <-]; unfold pos; cbn; (split; [lia|split; [done|lia]]).
  - destruct (Z.ltb_spec avail nx).
    + rewrite Hs. intros [= <-]. unfold pos; cbn. split; [lia|]. split; [intros ?? [= <- <-]; lia|]. lia.
    + destruct th; rewrite Hs; intros [= <-]; unfold pos; cbn; (split; [lia|]; split; [intros ?? [= <- <-] _; lia|]; intros Hx; specialize (Hx _ _ eq_refl); lia).
  - rewrite Hs. intros [= <-]. unfold pos; cbn. split; [lia|split; [done|lia]].
Qed.
Lemma cons_keep r m th : m_prods (cons_step r m 0 th) = m_prods m /\ m_pub (cons_step r m 0 th) = m_pub m.
Proof.
  unfold cons_step. destruct (m_cons m !! 0%nat) as [c|]; [|done]. destruct (co_pc c); cbn; try done.
  - destruct (deps_of r 0); [|done]. by destruct (_ <? _).
  - destruct (deps_of r 0 !! _); [done|]. by destruct (_ <? _).
  - destruct (_ <? _); [done|]. by destruct (_ =? _).
  - destruct (_ <? _); [done|]. by destruct th.
Qed.
Lemma written_cons r m th j : written (cons_step r m 0 th) j <-> written m j.
Proof. unfold written. by destruct (cons_keep r m th) as [-> ->]. Qed.
Lemma cons0 g progs m : RInv g progs m -> exists c, m_cons m = [c].
Proof. intros R. pose proof (i_nc _ _ _ (ri_m _ _ _ R)) as H. destruct (m_cons m) as [|c [|]]; try done. by exists c. Qed.
(** ** The content of the slots, what is handed out. *)
Global Instance hpc_eq_dec : EqDecision hpc.
Proof. solve_decision. Defined.
Definition busy (h : hpc) : Z := match h with HNone => 0 | _ => 1 end.
Record EInv (g : elcfg) (s : elst) : Prop := {
  e_wr : forall c j, m_cons (el_ring s) = [c] -> pos c < j <= m_cursor (el_ring s) -> written (el_ring s) j ->
     el_wr s (ring_index (ec_k g) j) = full g (m_vals (el_ring s) j);
  e_h : el_h s <> HNone -> exists sq nx avail lg, m_cons (el_ring s) = [Cons sq (CHandle nx avail) lg] /\ nx <= avail;
  e_data : forall u d cbs todo, el_h s = HCalls u d cbs todo -> exists sq nx avail lg, m_cons (el_ring s) = [Cons sq (CHandle nx avail) lg] /\ d = Some (ev_data g (m_vals (el_ring s) nx));
  e_acc : accepted (el_log s) = granted_events (m_log (el_ring s));
  e_disp : forall c, m_cons (el_ring s) = [c] ->
     dispatched (el_log s) = (fun j => (j, ev_name g (m_vals (el_ring s) j), Some (ev_data g (m_vals (el_ring s) j)))) <$> seqZ 0 (pos c + 1 + busy (el_h s))
}.
Lemma accepted_app a b : accepted (a ++ b) = accepted a ++ accepted b.
Proof. apply omap_app. Qed.
Lemma dispatched_app a b : dispatched (a ++ b) = dispatched a ++ dispatched b.
Proof. apply omap_app. Qed.
Lemma granted_ev_snoc l t x : granted_events (l ++ [(t, x)]) = granted_events l ++ match x with RClaimed _ vs => vs | _ => [] end.
Proof. unfold granted_events. rewrite granted_snoc. destruct x; rewrite fmap_app, concat_app; cbn; by rewrite ?app_nil_r. Qed.
Lemma win g progs m c : 1 <= ec_k g <= 30 -> RInv g progs m -> m_cons m = [c] -> m_cursor m - rsize (ec_k g) <= co_seq c /\ co_seq c <= pos c /\ pos c <= m_cursor m /\ -1 <= co_seq c.
Proof.
  intros Hk R Hc. assert (H0 : m_cons m !! 0%nat = Some c) by (by rewrite Hc).
  pose proof (prot_window _ _ m (el_wf g Hk) (ri_m _ _ _ R) 0%nat) as Hw. unfold cseq in Hw. rewrite H0 in Hw.
  destruct (i_cons _ _ _ (ri_m _ _ _ R) 0%nat c H0) as (A & (B & _) & D & E & _).
  split; [apply Hw, prot_gate; cbn; set_solver|]. unfold pos. destruct (co_pc c); try (split; [lia|split; [lia|done]]);
    destruct E as (E1 & (E2 & _) & _); split_and!; lia.
Qed.
(** The event at the front is in its slot. *)
Lemma front g progs s sq nx avail lg : 1 <= ec_k g <= 30 -> RInv g progs (el_ring s) -> EInv g s -> m_cons (el_ring s) = [Cons sq (CHandle nx avail) lg] -> nx <= avail ->
  el_wr s (ring_index (ec_k g) nx) = full g (m_vals (el_ring s) nx) /\ 0 <= nx <= m_cursor (el_ring s).
Proof.
  intros Hk R E Hc Hle. assert (H0 : m_cons (el_ring s) !! 0%nat = Some (Cons sq (CHandle nx avail) lg)) by (by rewrite Hc).
  destruct (i_cons _ _ _ (ri_m _ _ _ R) 0%nat _ H0) as (A & (B & _) & D & F & _). cbn [co_pc co_seq] in *. destruct F as (F1 & (F2 & _) & F3).
  split; [|lia]. eapply e_wr; [done|exact Hc|unfold pos; cbn; lia|]. left. apply F3. lia.
Qed.
Lemma ring_idx_inj g a b cur : 1 <= ec_k g <= 30 -> cur - rsize (ec_k g) < a <= cur -> cur - rsize (ec_k g) < b <= cur -> ring_index (ec_k g) a = ring_index (ec_k g) b -> a = b.
Proof. intros Hk Ha Hb. rewrite !ring_index_mod by lia. intros H. pose proof (rsize_pos (ec_k g) ltac:(lia)). apply mod_window in H; lia. Qed.

Lemma einv_prod g progs s t ok : 1 <= ec_k g <= 30 -> RInv g progs (el_ring s) -> EInv g s -> EInv g (el_prod g s t ok).
Proof.
  intros Hk R E. destruct (cons0 _ _ _ R) as [c Hc]. destruct (win g progs _ c Hk R Hc) as (W1 & W2 & W3 & W4).
  destruct (el_prod_case g progs s t ok R) as [|dc d d' Hd Hdn|m' Hd Hcur Hv Hl Hcs Hw Hfr Hre|m' lo z todo w Hd Hcur Hv Hl Hcs Ht Hw Hwarn Hwp|m' z todo Hd Ht Hp Hcur Hpub Hcs Hv1 Hv2 Hl Hw|m' pc z todo Hd Ht Hp Hcur Hv Hcs Hl Hw Hnw].
  - done.
  - destruct E; constructor; cbn in *; done.
  - destruct E as [E1 E2 E3 E4 E5]; constructor; cbn [el_ring el_wr el_h el_log]; rewrite ?Hcs, ?Hcur, ?Hv, ?Hl; try done. intros c0 j H1 H2 H3. by eapply E1; eauto.
  - destruct E as [E1 E2 E3 E4 E5]; constructor; cbn [el_ring el_wr el_h el_log]; rewrite ?Hcs, ?Hcur, ?Hv, ?Hl; try done.
    + intros c0 j H1 H2 H3. rewrite Hc in H1. injection H1 as <-.
      pose proof (i_prod _ _ _ (ri_m _ _ _ R) t _ Ht) as Hok. cbn [prod_ok] in Hok. destruct Hok as (_ & K1 & K2 & K3 & _).
      change (cl_n (Claim false [z])) with 1 in K2. specialize (K3 0%nat z eq_refl) as [K3 K4]. rewrite Z.add_0_r in K3, K4.
      assert (Hlo : pos c < lo).
      { destruct (Z.lt_ge_cases (pos c) lo); [done|]. exfalso. assert (H0 : m_cons (el_ring s) !! 0%nat = Some c) by (by rewrite Hc).
        destruct (i_cons _ _ _ (ri_m _ _ _ R) 0%nat c H0) as (A & (B & _) & D & F & _). unfold pos in *.
        assert (m_pub (el_ring s) lo = true); [|congruence].
        destruct (co_pc c); try (apply D; lia); destruct F as (F1 & _ & F3); apply F3; lia. }
      destruct (decide (j = lo)) as [->|Hne].
      * rewrite fupd_eq by done. by rewrite K3.
      * rewrite fupd_ne; [|intros Hx; apply Hne; apply (ring_idx_inj g j lo (m_cursor (el_ring s))); [done|lia|lia|done]].
        destruct (Hw j H3) as [Hj|]; [|done]. by eapply E1; eauto.
    + rewrite accepted_app, E4. destruct Hwarn as [->|[-> _]]; by rewrite app_nil_r.
    + intros c0 H0. rewrite dispatched_app, (E5 c0 H0). destruct Hwarn as [->|[-> _]]; by rewrite app_nil_r.
  - destruct E as [E1 E2 E3 E4 E5]; constructor; cbn [el_ring el_wr el_h el_log]; rewrite ?Hcs, ?Hcur; try done.
    + intros c0 j H1 H2 H3. rewrite Hc in H1. injection H1 as <-. apply Hw in H3.
      assert (Hj : j <= m_cursor (el_ring s)).
      { destruct H3 as [H3|(u & i & l & H3)]; [apply (i_pub _ _ _ (ri_m _ _ _ R)) in H3; lia|].
        assert (Ho : exists p, m_prods (el_ring s) !! u = Some p /\ owns p j).
        { destruct l as [|c' l]; [destruct H3 as [H3|H3]; apply (l_idle _ _ (ri_l _ _ _ R)) in H3; done|].
          assert (Hn : c' ∈ c' :: l) by set_solver. destruct H3 as [H3|H3]; (destruct (ri_one _ _ _ R u _ c' H3 Hn) as [z' ->]; eexists; split; [exact H3|]; unfold owns, cl_n; cbn; lia). }
        destruct Ho as (p & Hp' & Ho). destruct (owns_facts _ _ p j (i_prod _ _ _ (ri_m _ _ _ R) u p Hp') Ho). lia. }
      rewrite Hv2 by lia. eapply E1; [exact Hc|lia|done].
    + intros u d cbs l Hh. destruct (E3 u d cbs l Hh) as (sq & nx & avail & lg & F1 & F2). exists sq, nx, avail, lg. split; [done|].
      assert (Hle : nx <= avail). { destruct E2 as (sq' & nx' & avail' & lg' & G1 & G2); [by rewrite Hh|]. rewrite F1 in G1. injection G1 as <- <- <- <-. done. }
      assert (H0 : m_cons (el_ring s) !! 0%nat = Some (Cons sq (CHandle nx avail) lg)) by (by rewrite F1).
      destruct (i_cons _ _ _ (ri_m _ _ _ R) 0%nat _ H0) as (_ & _ & _ & F & _). cbn in F. destruct F as (_ & (F & _) & _). rewrite Hv2 by lia. done.
    + rewrite accepted_app, E4, Hl, granted_ev_snoc. done.
    + intros c0 H0. rewrite dispatched_app, app_nil_r, (E5 c0 H0). rewrite Hc in H0. injection H0 as <-.
      apply list_fmap_ext. intros i j Hij. apply lookup_seqZ in Hij as [-> Hi]. cbn. rewrite Hv2; [done|].
      assert (pos c + busy (el_h s) <= m_cursor (el_ring s)); [|lia].
      destruct (decide (el_h s = HNone)) as [->|Hh]; [cbn; lia|]. destruct (E2 Hh) as (sq & nx & avail & lg & F1 & F2). rewrite Hc in F1. injection F1 as ->.
      assert (H0 : m_cons (el_ring s) !! 0%nat = Some (Cons sq (CHandle nx avail) lg)) by (by rewrite Hc).
      destruct (i_cons _ _ _ (ri_m _ _ _ R) 0%nat _ H0) as (_ & _ & _ & F & _). cbn in F. destruct F as (_ & (F & _) & _). unfold pos. cbn. destruct (el_h s); cbn; lia.
  - destruct E as [E1 E2 E3 E4 E5]; constructor; cbn [el_ring el_wr el_h el_log]; rewrite ?Hcs, ?Hcur, ?Hv, ?Hl; try done.
    + intros c0 j H1 H2 H3. by eapply E1; eauto.
    + rewrite accepted_app, E4, granted_ev_snoc. done.
    + intros c0 H0. rewrite dispatched_app, app_nil_r. by apply E5.
Qed.

Lemma cons_single r m c th : m_cons m = [c] -> exists c', m_cons (cons_step r m 0 th) = [c'].
Proof.
  intros Hc. pose proof (f_equal (fun l => l !! 0%nat) Hc) as H0. cbn in H0. unfold cons_step. rewrite Hc. cbn [lookup list_lookup].
  destruct (co_pc c); cbn [m_cons insert list_insert]; repeat (match goal with |- context [match ?x with _ => _ end] => destruct x end); cbn [m_cons insert list_insert]; rewrite ?Hc; eauto.
Qed.
(** The ring step of the loop thread, outside the handler or at its end. *)
Lemma einv_ring g progs s th wr' lg' : 1 <= ec_k g <= 30 -> RInv g progs (el_ring s) -> EInv g s ->
  (forall c j, m_cons (el_ring s) = [c] -> pos c < j <= m_cursor (el_ring s) -> (forall nx avail, co_pc c = CHandle nx avail -> nx <= avail -> j <> nx) ->
     el_wr s (ring_index (ec_k g) j) = full g (m_vals (el_ring s) j) -> wr' (ring_index (ec_k g) j) = full g (m_vals (el_ring s) j)) ->
  (busy (el_h s) = 1 \/ forall c nx avail, m_cons (el_ring s) = [c] -> co_pc c = CHandle nx avail -> avail < nx) ->
  accepted lg' = [] -> dispatched lg' = [] ->
  EInv g (El (cons_step (el_rg g) (el_ring s) 0 th) wr' (el_disc s) (el_dpc s) HNone (el_subs s) (el_log s ++ lg')).
Proof.
  intros Hk R E Hwr Hb Hacc Hdis. destruct (cons0 _ _ _ R) as [c Hc]. destruct (cons_single (el_rg g) (el_ring s) c th Hc) as [c' Hc'].
  destruct (cons_pos _ _ _ (ri_m _ _ _ R) c th c') as (P1 & P2 & P3); [by rewrite Hc|by rewrite Hc'|].
  destruct (cons_log (el_rg g) (el_ring s) 0 th) as (L1 & L2 & L3 & L4).
  destruct E as [E1 E2 E3 E4 E5]. constructor; cbn [el_ring el_wr el_h el_log]; rewrite ?L1, ?L3, ?L4; try done.
  - intros c0 j H1 H2 H3. rewrite Hc' in H1. injection H1 as <-. apply written_cons in H3. apply (Hwr c j); [done|lia| |].
    + intros nx avail Hx Hle ->. specialize (P2 nx avail Hx Hle). lia.
    + eapply E1; [done|lia|done].
  - by rewrite accepted_app, E4, Hacc, app_nil_r.
  - intros c0 H0. rewrite Hc' in H0. injection H0 as <-. rewrite dispatched_app, Hdis, app_nil_r, (E5 c Hc). do 2 f_equal. cbn [busy].
    destruct Hb as [Hb|Hb].
    + assert (Hh : el_h s <> HNone) by (intros Hx; rewrite Hx in Hb; done). destruct (E2 Hh) as (sq & nx & avail & lg & F1 & F2). rewrite Hc in F1. injection F1 as ->.
      rewrite (P2 nx avail eq_refl F2), Hb. unfold pos. cbn. lia.
    + rewrite P3; [|intros nx avail Hx; by eapply Hb].
      assert (Hh : el_h s = HNone); [|rewrite Hh; cbn; lia].
      destruct (el_h s) eqn:Eh; [done|..]; (destruct E2 as (sq & nx & avail & lg & F1 & F2); [done|]; rewrite Hc in F1; injection F1 as ->; specialize (Hb _ nx avail Hc eq_refl); lia).
Qed.
Lemma einv_loop g progs s th : 1 <= ec_k g <= 30 -> RInv g progs (el_ring s) -> EInv g s -> EInv g (el_loop g s th).
Proof.
  intros Hk R E. destruct (cons0 _ _ _ R) as [c Hc]. destruct (win g progs _ c Hk R Hc) as (W1 & W2 & W3 & W4).
  unfold el_loop. rewrite Hc. cbn [lookup list_lookup].
  assert (Hout : (forall c0 nx avail, m_cons (el_ring s) = [c0] -> co_pc c0 = CHandle nx avail -> avail < nx) ->
    EInv g (El (cons_step (el_rg g) (el_ring s) 0 false) (el_wr s) (el_disc s) (el_dpc s) (el_h s) (el_subs s) (el_log s))).
  { intros Ho. assert (Hh : el_h s = HNone).
    { destruct (el_h s) eqn:Eh; [done|..]; (destruct (e_h _ _ E) as (sq & nx & avail & lg & F1 & F2); [by rewrite Eh|]; specialize (Ho _ nx avail F1 eq_refl); lia). }
    rewrite Hh. rewrite <-(app_nil_r (el_log s)). eapply einv_ring; eauto. }
  destruct c as [sq pc lg]. destruct pc as [|j mm|seq avail|nx avail|v];
    try (apply Hout; intros c0 nx' avail' H1 H2; rewrite Hc in H1; injection H1 as <-; done).
  destruct (Z.ltb_spec avail nx) as [Hlt|Hge].
  { apply Hout. intros c0 nx' avail' H1 H2. rewrite Hc in H1. injection H1 as <-. cbn in H2. injection H2 as <- <-. done. }
  destruct (front g progs s sq nx avail lg Hk R E Hc Hge) as [Hfr Hnx].
  pose proof E as [E1 E2 E3 E4 E5]. destruct (el_h s) as [|[|u todo]|u d [|cb cbs] todo] eqn:Eh.
  - constructor; cbn [el_ring el_wr el_h el_log]; try done.
    + intros _. eauto 10.
    + by rewrite accepted_app, E4, app_nil_r.
    + intros c0 H0. rewrite dispatched_app, (E5 c0 H0). rewrite Hc in H0. injection H0 as <-. cbn [dispatched omap list_omap busy]. rewrite Hfr. cbn [full w_name w_data].
      unfold pos. cbn [co_pc]. replace (nx - 1 + 1 + 0) with nx by lia. replace (nx - 1 + 1 + 1) with (nx + 1) by lia. rewrite seqZ_snoc, fmap_app by lia. done.
  - assert (Eb : busy (el_h s) = 1) by (by rewrite Eh). eapply einv_ring; eauto.
    intros c0 j H1 H2 H3 H4. rewrite Hc in H1. injection H1 as <-. rewrite fupd_ne; [done|]. intros Hx.
    apply (H3 nx avail eq_refl Hge). apply (ring_idx_inj g j nx (m_cursor (el_ring s)) Hk); [cbn in *; lia|cbn in *|done].
    assert (H0 : m_cons (el_ring s) !! 0%nat = Some (Cons sq (CHandle nx avail) lg)) by (by rewrite Hc).
    destruct (i_cons _ _ _ (ri_m _ _ _ R) 0%nat _ H0) as (_ & _ & _ & F & _). cbn in F. lia.
  - constructor; cbn [el_ring el_wr el_h el_log]; try done.
    + intros _. eauto 10.
    + intros u' d cbs todo' [= <- <- _ _]. rewrite Hfr. cbn. eauto 10.
  - constructor; cbn [el_ring el_wr el_h el_log]; try done.
    intros _. eauto 10.
  - destruct th.
    + assert (Eb : busy (el_h s) = 1) by (by rewrite Eh). eapply einv_ring; eauto.
    + constructor; cbn [el_ring el_wr el_h el_log]; try done.
      * intros _. eauto 10.
      * intros u' d' cbs' todo' [= <- <- _ _]. by eapply E3.
      * by rewrite accepted_app, E4, app_nil_r.
      * intros c0 H0. by rewrite dispatched_app, app_nil_r, (E5 c0 H0).
Qed.
Lemma einv_step g progs s a : 1 <= ec_k g <= 30 -> RInv g progs (el_ring s) -> EInv g s -> EInv g (el_step g s a).
Proof.
  intros Hk R E. destruct a as [t ok|th|n|u cb|u cb]; cbn [el_step]; [by eapply einv_prod|by eapply einv_loop|..].
  - destruct E as [E1 E2 E3 E4 E5]. constructor; cbn [el_ring el_wr el_h el_log]; try done; [by rewrite accepted_app, app_nil_r|]. intros c Hc. by rewrite dispatched_app, app_nil_r, (E5 c Hc).
  - destruct (el_subs s !! u) as [[n l]|]; [|done]. destruct E as [E1 E2 E3 E4 E5]. constructor; cbn [el_ring el_wr el_h el_log]; try done; [by rewrite accepted_app, app_nil_r|]. intros c Hc. by rewrite dispatched_app, app_nil_r, (E5 c Hc).
  - destruct (el_subs s !! u) as [[n l]|]; [|done]. destruct E as [E1 E2 E3 E4 E5]. constructor; cbn [el_ring el_wr el_h el_log]; try done; [by rewrite accepted_app, app_nil_r|]. intros c Hc. by rewrite dispatched_app, app_nil_r, (E5 c Hc).
Qed.
Lemma einv_new g progs : EInv g (el_new g progs).
Proof.
  constructor; cbn; try done.
  - intros c j [= <-] H. cbn in *. lia.
  - intros c [= <-]. done.
Qed.
Lemma einv_run g progs acts : 1 <= ec_k g <= 30 -> m_cursor (el_ring (el_run g (el_new g progs) acts)) < 2^31 -> EInv g (el_run g (el_new g progs) acts).
Proof.
  intros Hk. induction acts as [|a acts IH] using rev_ind; intros Hb; [apply einv_new|]. rewrite el_run_snoc in *.
  assert (Hb0 : m_cursor (el_ring (el_run g (el_new g progs) acts)) < 2^31) by (pose proof (step_cursor_el g (el_run g (el_new g progs) acts) a); lia).
  eapply einv_step; [done|by apply rinv_run|by apply IH].
Qed.

(** The number of accepted publications is the cursor. *)
Lemma accepted_none w : (forall t z q, VAccept t z q ∉ w) -> accepted w = [].
Proof. intros H. induction w as [|e w IH]; [done|]. unfold accepted in *. cbn. rewrite IH by (intros ??? Hx; eapply H; by right). destruct e; try done. exfalso. eapply H. left. Qed.
Lemma cursor_accepted g progs acts : let s := el_run g (el_new g progs) acts in m_cursor (el_ring s) + 1 = Z.of_nat (length (accepted (el_log s))).
Proof.
  cbn. induction acts as [|a acts IH] using rev_ind; [done|]. rewrite el_run_snoc. pose proof (single_run g progs acts) as Hone. set (s := el_run g (el_new g progs) acts) in *.
  assert (Frame : forall s' w, m_cursor (el_ring s') = m_cursor (el_ring s) -> el_log s' = el_log s ++ w -> accepted w = [] -> m_cursor (el_ring s') + 1 = Z.of_nat (length (accepted (el_log s')))).
  { intros s' w -> -> E. by rewrite accepted_app, E, app_nil_r. }
  assert (Frame0 : forall s', m_cursor (el_ring s') = m_cursor (el_ring s) -> el_log s' = el_log s -> m_cursor (el_ring s') + 1 = Z.of_nat (length (accepted (el_log s')))).
  { by intros s' -> ->. }
  destruct a as [t ok|th|n|u cb|u cb]; cbn [el_step].
  - destruct (el_prod_case0 g s t ok Hone) as [|dc d d' Hd Hdn|m' Hd Hcur Hv Hl Hcs Hw Hfr Hre|m' lo z todo w Hd Hcur Hv Hl Hcs Ht Hw Hwarn Hwp|m' z todo Hd Ht Hp Hcur Hpub Hcs Hv1 Hv2 Hl Hw|m' pc z todo Hd Ht Hp Hcur Hv Hcs Hl Hw Hnw].
    + done.
    + by apply Frame0.
    + by apply Frame0.
    + eapply Frame; [done|reflexivity|]. destruct Hwarn as [->|[-> _]]; done.
    + cbn [el_ring el_log]. rewrite Hcur, accepted_app, app_length. cbn [accepted omap list_omap length]. lia.
    + eapply Frame; [done|reflexivity|done].
  - assert (Hcur : forall b, m_cursor (cons_step (el_rg g) (el_ring s) 0 b) = m_cursor (el_ring s)) by (intros b; apply cons_log).
    unfold el_loop. destruct (m_cons (el_ring s) !! 0%nat) as [[sq [|j m|seq avail|nx avail|v] lg]|]; try (apply Frame0; [apply Hcur|done]).
    destruct (avail <? nx); [apply Frame0; [apply Hcur|done]|]. destruct (el_h s) as [|[|u todo]|u d [|cb cbs] todo]; try (by apply Frame0).
    + eapply Frame; [done|reflexivity|done].
    + eapply Frame; [apply Hcur|reflexivity|done].
    + destruct th; (eapply Frame; [first [apply Hcur|done]|reflexivity|done]).
  - eapply Frame; [done|reflexivity|done].
  - destruct (el_subs s !! u) as [[n l]|]; [|done]. eapply Frame; [done|reflexivity|done].
  - destruct (el_subs s !! u) as [[n l]|]; [|done]. eapply Frame; [done|reflexivity|done].
Qed.
