From stdpp Require Import prelude list_numbers.
From Coq Require Import ZArith Lia ZifyBool.
From Verif Require Import Base MultiRing_Model MultiRing_Spec MultiRing_Proofs.
Local Open Scope Z_scope.

(** What a step does to the log. *)
Lemma cons_log r s i th : m_log (cons_step r s i th) = m_log s /\ m_prods (cons_step r s i th) = m_prods s /\ m_vals (cons_step r s i th) = m_vals s /\ m_cursor (cons_step r s i th) = m_cursor s.
Proof.
  unfold cons_step. destruct (m_cons s !! i) as [c|]; [|done]. destruct (co_pc c); cbn; try done.
  - destruct (deps_of r i); [|done]. by destruct (_ <? _).
  - destruct (deps_of r i !! _); [done|]. by destruct (_ <? _).
  - destruct (_ <? _); [done|]. by destruct (_ =? _).
  - destruct (_ <? _); [done|]. by destruct th.
Qed.
Lemma prod_cons r s t ok : m_cons (prod_step r s t ok) = m_cons s.
Proof.
  unfold prod_step. destruct (m_prods s !! t) as [[pc [|c todo]]|]; [done| |done]. destruct pc; cbn; try done.
  - by destruct (_ <? _).
  - by destruct (rg_gating r !! _).
  - destruct (cl_blocking c); [|done]. by destruct (_ <? _).
  - by destruct (_ && _).
  - by destruct (cl_vals c !! _).
  - by destruct (cl_vals c !! _).
Qed.
Definition writing (pc : mpc) : bool := match pc with MWrite _ _ | MFlag _ _ => true | _ => false end.
Definition active (pc : mpc) : bool := match pc with MIdle => false | _ => true end.
Inductive pshape (r : ring) (s : mst) (t : nat) : mst -> Prop :=
| ps_same : pshape r s t s
| ps_move s' p p' c todo : m_prods s !! t = Some (Prod p (c :: todo)) -> m_prods s' = <[t := Prod p' (c :: todo)]> (m_prods s) ->
    writing p' = writing p -> (active p' = true -> active p = true \/ 1 <= cl_n c) -> m_log s' = m_log s -> m_vals s' = m_vals s -> m_cursor s' = m_cursor s -> pshape r s t s'
| ps_end s' lo i c todo : m_prods s !! t = Some (Prod (MFlag lo i) (c :: todo)) -> m_prods s' = <[t := Prod MIdle todo]> (m_prods s) ->
    m_log s' = m_log s -> m_vals s' = m_vals s -> m_cursor s' = m_cursor s -> pshape r s t s'
| ps_fail s' p c todo res : m_prods s !! t = Some (Prod p (c :: todo)) -> writing p = false -> m_prods s' = <[t := Prod MIdle todo]> (m_prods s) ->
    m_log s' = m_log s ++ [(t, res)] -> ((res = RBadArg /\ cl_n c < 1) \/ (res = RRefused /\ cl_blocking c = false)) -> m_vals s' = m_vals s -> m_cursor s' = m_cursor s -> pshape r s t s'
| ps_claim s' cur c todo : m_prods s !! t = Some (Prod (MCas cur) (c :: todo)) -> m_cursor s = cur -> m_prods s' = <[t := Prod (MWrite (cur + 1) 0) (c :: todo)]> (m_prods s) ->
    m_log s' = m_log s ++ [(t, RClaimed (cur + 1) (cl_vals c))] ->
    m_vals s' = (fun j => if (cur + 1 <=? j) && (j <=? cur + cl_n c) then nth (Z.to_nat (j - (cur + 1))) (cl_vals c) 0 else m_vals s j) ->
    m_cursor s' = cur + cl_n c -> pshape r s t s'.
Lemma prod_shape r s t ok : pshape r s t (prod_step r s t ok).
Proof.
  unfold prod_step. destruct (m_prods s !! t) as [[pc [|c todo]]|] eqn:Ht; [constructor| |constructor].
  destruct pc as [| |cur|cur i m|cur m|cur|lo i|lo i].
  - destruct (Z.ltb_spec (cl_n c) 1).
    + eapply ps_fail; eauto.
    + eapply ps_move; eauto.
  - eapply ps_move; eauto.
  - eapply ps_move; [exact Ht|reflexivity| |auto|done..]. by destruct (_ || _).
  - destruct (rg_gating r !! i); eapply ps_move; eauto.
  - destruct (cl_blocking c) eqn:Eb.
    + destruct (m <? _); eapply ps_move; eauto.
    + destruct (m <? _); [eapply ps_fail; eauto|eapply ps_move; eauto].
  - destruct (bool_decide (m_cursor s = cur) && ok) eqn:E; [|eapply ps_move; eauto].
    apply andb_true_iff in E as [E _]. apply bool_decide_eq_true in E. eapply ps_claim; eauto.
  - destruct (cl_vals c !! i); eapply ps_move; eauto.
  - destruct (cl_vals c !! i); [eapply ps_move; eauto|eapply ps_end; eauto].
Qed.

Lemma results_snoc t l u x : results_of t (l ++ [(u, x)]) = results_of t l ++ (if decide (u = t) then [x] else []).
Proof. unfold results_of. rewrite filter_app, filter_cons, filter_nil. cbn [fst]. destruct (decide (u = t)); by rewrite fmap_app. Qed.
Lemma granted_snoc l u x : granted (l ++ [(u, x)]) = granted l ++ match x with RClaimed lo vals => [(lo, vals)] | _ => [] end.
Proof. unfold granted. rewrite omap_app. cbn. by destruct x. Qed.
Lemma contiguous_snoc n l lo vals : contiguous n (l ++ [(lo, vals)]) =
  match contiguous n l with Some m => if (lo =? m) && negb (bool_decide (vals = [])) then Some (lo + Z.of_nat (length vals)) else None | None => None end.
Proof. revert n; induction l as [|[lo' vals'] l IH]; intros n; cbn; [done|]. destruct (_ && _); [apply IH|done]. Qed.

Record LInv (progs : list (list claim)) (s : mst) : Prop := {
  l_len : length (m_prods s) = length progs;
  l_active : forall t p c todo, m_prods s !! t = Some (Prod p (c :: todo)) -> active p = true -> 1 <= cl_n c;
  l_idle : forall t p, m_prods s !! t = Some (Prod p []) -> p = MIdle;
  l_prog : forall t p prog, m_prods s !! t = Some p -> progs !! t = Some prog ->
     exists past, prog = past ++ pr_todo p /\
       if writing (pr_pc p) then exists c todo, pr_todo p = c :: todo /\ Forall2 matches (past ++ [c]) (results_of t (m_log s))
       else Forall2 matches past (results_of t (m_log s));
  l_who : forall t res, (t, res) ∈ m_log s -> (t < length progs)%nat;
  l_cont : contiguous 0 (granted (m_log s)) = Some (m_cursor s + 1);
  l_cur : -1 <= m_cursor s;
  l_vals : Z.of_nat (length (granted_events (m_log s))) = m_cursor s + 1 /\
     (forall j, 0 <= j <= m_cursor s -> granted_events (m_log s) !! Z.to_nat j = Some (m_vals s j))
}.
Lemma linv_same progs s s' : LInv progs s -> m_prods s' = m_prods s -> m_log s' = m_log s -> m_vals s' = m_vals s -> m_cursor s' = m_cursor s -> LInv progs s'.
Proof. intros [] E1 E2 E3 E4. constructor; rewrite ?E1, ?E2, ?E3, ?E4; done. Qed.
Lemma linv_step r progs s a : LInv progs s -> LInv progs (mstep r s a).
Proof.
  intros I. destruct a as [t ok|i th]; cbn [mstep].
  2:{ destruct (cons_log r s i th) as (E1 & E2 & E3 & E4). by eapply linv_same. }
  destruct (prod_shape r s t ok) as [|s' p p' c todo Ht Hp Hw Ha Hl Hv Hc|s' lo i c todo Ht Hp Hl Hv Hc|s' p c todo res Ht Hw Hp Hl Hr Hv Hc|s' cur c todo Ht Hcur Hp Hl Hv Hc].
  - done.
  - constructor; rewrite ?Hl, ?Hc, ?Hv; try apply I.
    + rewrite Hp, insert_length. apply I.
    + intros u q d ds Hu Hq. rewrite Hp in Hu. apply list_lookup_insert_Some in Hu as [(-> & E & _)|[_ Hu]]; [|by eapply l_active].
      injection E as <- <- <-. destruct (Ha Hq) as [Hact|]; [|done]. by eapply l_active.
    + intros u q Hu. rewrite Hp in Hu. apply list_lookup_insert_Some in Hu as [(-> & E & _)|[_ Hu]]; [done|by eapply l_idle].
    + intros u q prog Hu Hprog. rewrite Hp in Hu. apply list_lookup_insert_Some in Hu as [(-> & <- & _)|[_ Hu]]; [|by eapply l_prog].
      cbn [pr_pc pr_todo]. rewrite Hw. by apply (l_prog _ _ I u _ prog Ht).
  - constructor; rewrite ?Hl, ?Hc, ?Hv; try apply I.
    + rewrite Hp, insert_length. apply I.
    + intros u q d ds Hu Hq. rewrite Hp in Hu. apply list_lookup_insert_Some in Hu as [(-> & E & _)|[_ Hu]]; [|by eapply l_active].
      injection E as <- E. done.
    + intros u q Hu. rewrite Hp in Hu. apply list_lookup_insert_Some in Hu as [(-> & E & _)|[_ Hu]]; [by injection E as <- _|by eapply l_idle].
    + intros u q prog Hu Hprog. rewrite Hp in Hu. apply list_lookup_insert_Some in Hu as [(-> & <- & _)|[_ Hu]]; [|by eapply l_prog].
      cbn [pr_pc pr_todo writing]. destruct (l_prog _ _ I u _ prog Ht Hprog) as (past & -> & c' & todo' & E & HF). cbn [pr_todo] in *. injection E as <- <-.
      exists (past ++ [c]). split; [by rewrite <-app_assoc|done].
  - constructor; rewrite ?Hc, ?Hv.
    + rewrite Hp, insert_length. apply I.
    + intros u q d ds Hu Hq. rewrite Hp in Hu. apply list_lookup_insert_Some in Hu as [(-> & E & _)|[_ Hu]]; [|by eapply l_active].
      injection E as <- E. done.
    + intros u q Hu. rewrite Hp in Hu. apply list_lookup_insert_Some in Hu as [(-> & E & _)|[_ Hu]]; [by injection E as <- _|by eapply l_idle].
    + intros u q prog Hu Hprog. rewrite Hl, results_snoc. rewrite Hp in Hu. apply list_lookup_insert_Some in Hu as [(-> & <- & _)|[Hne Hu]].
      * cbn [pr_pc pr_todo writing]. destruct (l_prog _ _ I u _ prog Ht Hprog) as (past & -> & HF). cbn [pr_todo pr_pc] in *. rewrite Hw in HF.
        exists (past ++ [c]). split; [by rewrite <-app_assoc|]. rewrite decide_True by done. apply Forall2_app; [done|]. constructor; [|done].
        destruct Hr as [[-> Hn]|[-> Hb]]; cbn; [|done]. unfold cl_n in Hn. destruct (cl_vals c); [done|cbn in Hn; lia].
      * rewrite decide_False by done. rewrite app_nil_r. by eapply l_prog.
    + intros u res' Hin. rewrite Hl in Hin. apply elem_of_app in Hin as [Hin|Hin]; [by eapply l_who|]. apply elem_of_list_singleton in Hin as [= -> ->].
      rewrite <-(l_len _ _ I). by eapply lookup_lt_Some.
    + rewrite Hl, granted_snoc. destruct Hr as [[-> _]|[-> _]]; rewrite app_nil_r; apply I.
    + apply I.
    + rewrite Hl. unfold granted_events. rewrite granted_snoc. destruct Hr as [[-> _]|[-> _]]; rewrite app_nil_r; apply I.
  - assert (Hn : 1 <= cl_n c) by (eapply l_active; eauto). pose proof (l_cur _ _ I) as Hcur1.
    constructor.
    + rewrite Hp, insert_length. apply I.
    + intros u q d ds Hu Hq. rewrite Hp in Hu. apply list_lookup_insert_Some in Hu as [(-> & E & _)|[_ Hu]]; [|by eapply l_active].
      by injection E as <- <- <-.
    + intros u q Hu. rewrite Hp in Hu. apply list_lookup_insert_Some in Hu as [(-> & E & _)|[_ Hu]]; [done|by eapply l_idle].
    + intros u q prog Hu Hprog. rewrite Hl, results_snoc. rewrite Hp in Hu. apply list_lookup_insert_Some in Hu as [(-> & <- & _)|[Hne Hu]].
      * cbn [pr_pc pr_todo writing]. destruct (l_prog _ _ I u _ prog Ht Hprog) as (past & -> & HF). cbn [pr_todo pr_pc writing] in *.
        exists past. split; [done|]. exists c, todo. split; [done|]. rewrite decide_True by done. apply Forall2_app; [done|]. by constructor.
      * rewrite decide_False by done. rewrite app_nil_r. by eapply l_prog.
    + intros u res' Hin. rewrite Hl in Hin. apply elem_of_app in Hin as [Hin|Hin]; [by eapply l_who|]. apply elem_of_list_singleton in Hin as [= -> ->].
      rewrite <-(l_len _ _ I). by eapply lookup_lt_Some.
    + rewrite Hl, granted_snoc, contiguous_snoc, (l_cont _ _ I), Hc, Hcur. rewrite Z.eqb_refl. cbn [andb].
      rewrite bool_decide_false; [cbn; unfold cl_n; f_equal; lia|]. intros E. unfold cl_n in Hn. rewrite E in Hn. cbn in Hn. lia.
    + lia.
    + rewrite Hl, Hc. destruct (l_vals _ _ I) as [V1 V2]. unfold granted_events. rewrite granted_snoc, fmap_app, concat_app. cbn [fmap list_fmap concat snd]. rewrite app_nil_r.
      fold (granted_events (m_log s)). split; [rewrite app_length; unfold cl_n; lia|]. intros j Hj. rewrite Hv.
      destruct (Z.leb_spec (cur + 1) j); [destruct (Z.leb_spec j (cur + cl_n c)); [|lia]|]; cbn [andb].
      * rewrite lookup_app_r by lia. replace (Z.to_nat j - length (granted_events (m_log s)))%nat with (Z.to_nat (j - (cur + 1))) by lia.
        destruct (lookup_lt_is_Some_2 (cl_vals c) (Z.to_nat (j - (cur + 1)))) as [v E]; [unfold cl_n in *; lia|]. rewrite E. f_equal. symmetry. by apply nth_lookup_Some.
      * rewrite lookup_app_l by lia. apply V2. lia.
Qed.
Lemma linv_new nc progs : LInv progs (mst_new nc progs).
Proof.
  assert (Hp : forall t p, m_prods (mst_new nc progs) !! t = Some p -> exists l, progs !! t = Some l /\ p = Prod MIdle l).
  { intros t p H. cbn in H. rewrite list_lookup_fmap in H. destruct (progs !! t) as [l|]; [|done]. injection H as <-. eauto. }
  constructor.
  - cbn. by rewrite fmap_length.
  - intros t p c todo H Ha. apply Hp in H as (l & _ & E). by injection E as -> _.
  - intros t p H. apply Hp in H as (l & _ & E). by injection E as -> _.
  - intros t p prog H Hprog. apply Hp in H as (l & E1 & ->). exists []. cbn. split; [congruence|constructor].
  - intros t res H. cbn in H. set_solver.
  - done.
  - cbn. lia.
  - cbn. split; [done|]. intros. lia.
Qed.
Lemma linv_run r nc progs acts : LInv progs (mrun r (mst_new nc progs) acts).
Proof. induction acts as [|a acts IH] using rev_ind; [apply linv_new|]. rewrite mrun_snoc. by apply linv_step. Qed.

(** Why a try_next is refused: at some moment during the call a gating consumer was too far behind. *)
Definition full_at (r : ring) (s : mst) (n cur m : Z) : Prop := cur <= m_cursor s /\ exists g, g ∈ rg_gating r /\ cseq (m_cons s) g <= m.
Definition witnessed (r : ring) (nc : nat) (progs : list (list claim)) (acts : list mact) (t : nat) (c : claim) (todo : list claim) (cur m : Z) : Prop :=
  m = seen_cursor c cur \/ exists acts1, acts1 `prefix_of` acts /\
    in_call (mrun r (mst_new nc progs) acts1) t c todo /\ full_at r (mrun r (mst_new nc progs) acts1) (cl_n c) cur m.
Definition why (r : ring) (nc : nat) (progs : list (list claim)) (acts : list mact) : Prop :=
  forall t pc c todo, m_prods (mrun r (mst_new nc progs) acts) !! t = Some (Prod pc (c :: todo)) ->
    match pc with
    | MCap cur => -1 <= cur <= m_cursor (mrun r (mst_new nc progs) acts)
    | MScan cur _ m | MCheck cur m => -1 <= cur <= m_cursor (mrun r (mst_new nc progs) acts) /\ witnessed r nc progs acts t c todo cur m
    | _ => True
    end.
Lemma witnessed_snoc r nc progs acts a t c todo cur m : witnessed r nc progs acts t c todo cur m -> witnessed r nc progs (acts ++ [a]) t c todo cur m.
Proof. intros [?|(acts1 & H & ?)]; [by left|right]. exists acts1. split; [by apply prefix_app_r|done]. Qed.
Lemma why_run r nc progs acts : why r nc progs acts.
Proof.
  induction acts as [|a acts IH] using rev_ind.
  - intros t pc c todo H. cbn in H. rewrite list_lookup_fmap in H. destruct (progs !! t); [|done]. by injection H as <- _.
  - intros t pc c todo H. pose proof (step_cursor r (mrun r (mst_new nc progs) acts) a) as Hmono. rewrite mrun_snoc in *.
    set (s := mrun r (mst_new nc progs) acts) in *.
    assert (Hframe : forall pc, m_prods s !! t = Some (Prod pc (c :: todo)) ->
      match pc with
      | MCap cur => -1 <= cur <= m_cursor (mstep r s a)
      | MScan cur _ m | MCheck cur m => -1 <= cur <= m_cursor (mstep r s a) /\ witnessed r nc progs (acts ++ [a]) t c todo cur m
      | _ => True
      end).
    { intros pc' Hpc. specialize (IH t pc' c todo Hpc). fold s in IH. destruct pc'; try done; [lia|..]; (destruct IH; split; [lia|by apply witnessed_snoc]). }
    destruct a as [u ok|i th]; cbn [mstep] in *.
    2:{ destruct (cons_log r s i th) as (_ & E & _). rewrite E in H. by apply Hframe. }
    destruct (decide (u = t)) as [->|Hne].
    2:{ apply Hframe. destruct (prod_shape r s u ok) as [|s' p p' c' todo' Ht Hp|s' lo i c' todo' Ht Hp|s' p c' todo' res Ht Hw Hp|s' cur c' todo' Ht Hcur Hp]; [done|..];
        rewrite Hp in H; by rewrite list_lookup_insert_ne in H. }
    clear Hmono. unfold prod_step in *. destruct (m_prods s !! t) as [[q [|d ds]]|] eqn:Ht; [by rewrite Ht in H| |by rewrite Ht in H].
    assert (Hlt : (t < length (m_prods s))%nat) by (by eapply lookup_lt_Some).
    destruct q as [| |cur|cur i m|cur m|cur|lo i|lo i].
    + destruct (cl_n d <? 1); cbn in H; rewrite list_lookup_insert in H by done; by injection H as <- _.
    + cbn in *. rewrite list_lookup_insert in H by done. injection H as <- <- <-. split; [apply (l_cur progs s (linv_run r nc progs acts))|lia].
    + cbn in H |- *. rewrite list_lookup_insert in H by done. injection H as <- <- <-. specialize (Hframe _ eq_refl). cbn in Hframe.
      destruct (_ || _); [|done]. split; [done|by left].
    + pose proof (Hframe (MScan cur i m)) as HF. destruct (rg_gating r !! i) as [g|] eqn:Eg; cbn in H |- *; rewrite list_lookup_insert in H by done; injection H as <- <- <-.
      * specialize (HF eq_refl). cbn in HF. destruct HF as [H1 H2]. split; [done|].
        destruct (Z.ltb_spec (cseq (m_cons s) g) m); [|done].
        right. exists acts. split; [by apply prefix_app_r|]. fold s. split; [eexists; split; [exact Ht|done]|]. split; [fold s; lia|]. exists g. split; [|fold s; lia].
        by eapply elem_of_list_lookup_2.
      * by apply HF.
    + destruct (cl_blocking d).
      * destruct (m <? _); cbn in H; rewrite list_lookup_insert in H by done; by injection H as <- _.
      * destruct (m <? _); cbn in H; rewrite list_lookup_insert in H by done; by injection H as <- _.
    + destruct (_ && _); cbn in H; rewrite list_lookup_insert in H by done; by injection H as <- _.
    + destruct (cl_vals d !! i); cbn in H; rewrite list_lookup_insert in H by done; by injection H as <- _.
    + destruct (cl_vals d !! i); cbn in H; rewrite list_lookup_insert in H by done; by injection H as <- _.
Qed.
Lemma refused_why r nc progs acts t ok : let s := mrun r (mst_new nc progs) acts in
  m_log (mstep r s (AProd t ok)) = m_log s ++ [(t, RRefused)] ->
  exists c todo, in_call s t c todo /\
    (rsize (rg_k r) < cl_n c \/ exists acts1, acts1 `prefix_of` acts /\ in_call (mrun r (mst_new nc progs) acts1) t c todo /\ no_room r (mrun r (mst_new nc progs) acts1) (cl_n c)).
Proof.
  intros s H. pose proof (why_run r nc progs acts t) as Hw. fold s in Hw. cbn [mstep] in H. unfold prod_step in H.
  assert (Hno : forall l : list (nat * presult), l = l ++ [(t, RRefused)] -> False).
  { intros l E. apply (f_equal length) in E. rewrite app_length in E. cbn in E. lia. }
  destruct (m_prods s !! t) as [[q [|c todo]]|] eqn:Ht; [by apply Hno in H| |by apply Hno in H].
  exists c, todo. specialize (Hw q c todo eq_refl). split.
  { exists q. split; [exact Ht|]. intros ->. destruct (cl_n c <? 1); cbn in H; [|by apply Hno in H]. apply app_inv_head in H. done. }
  destruct q as [| |cur|cur i m|cur m|cur|lo i|lo i]; cbn in H.
  - destruct (cl_n c <? 1); cbn in H; [|by apply Hno in H]. apply app_inv_head in H. done.
  - by apply Hno in H.
  - by apply Hno in H.
  - destruct (rg_gating r !! i); by apply Hno in H.
  - destruct (cl_blocking c) eqn:Eb; [destruct (m <? _); by apply Hno in H|].
    destruct (Z.ltb_spec m (wrap_point r c cur)) as [Hlt|]; cbn in H; [|by apply Hno in H].
    destruct Hw as [Hc [->|(acts1 & Hpre & Hcall & Hcur & g & Hg & Hm)]].
    + left. unfold wrap_point, seen_cursor in Hlt. rewrite Eb in Hlt. pose proof (wrap32_le (wrap32 cur + cl_n c)). pose proof (wrap32_ge cur). unfold cl_n in *. lia.
    + right. exists acts1. split; [done|]. split; [done|]. exists g. split; [done|].
      unfold wrap_point in Hlt. rewrite Eb in Hlt. pose proof (wrap32_le (wrap32 cur + cl_n c)). pose proof (wrap32_ge cur).
      assert (-1 <= m_cursor (mrun r (mst_new nc progs) acts1)) by apply (l_cur progs _ (linv_run r nc progs acts1)).
      assert (wrap32 cur <= cur) by (apply wrap32_le; lia). unfold cl_n in *. lia.
  - destruct (_ && _); cbn in H; [apply app_inv_head in H; done|by apply Hno in H].
  - destruct (cl_vals c !! i); by apply Hno in H.
  - destruct (cl_vals c !! i); by apply Hno in H.
Qed.
