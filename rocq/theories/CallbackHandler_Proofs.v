From stdpp Require Import prelude.
From Verif Require Import CallbackHandler_Model CallbackHandler_Spec.

Definition pe (e : entry) : pend := Pend (en_id e) (en_req e) (en_cb e).

Lemma find_match_take m p l k :
  match find_match m p k l with
  | Some (i, e) => exists j, i = k + j /\ l !! j = Some e /\ take_first m p (pe <$> l) = Some (pe e, pe <$> delete j l)
  | None => take_first m p (pe <$> l) = None
  end.
Proof.
  revert k; induction l as [|x l IH]; intros k; [done|].
  rewrite fmap_cons. cbn [find_match take_first pe p_req]. destruct (m (en_req x) p) eqn:E.
  - exists 0. split; [lia|]. done.
  - specialize (IH (S k)). destruct (find_match m p (S k) l) as [[i e]|].
    + destruct IH as (j & -> & Hl & Ht). exists (S j). split; [lia|]. split; [done|]. by rewrite Ht.
    + by rewrite IH.
Qed.
Lemma follows_snoc m l e : follows_rules m (l ++ [e]) = rule m (follows_rules m l) e.
Proof. unfold follows_rules. by rewrite fold_left_app. Qed.

(** Facts about the specification alone: no request is answered twice. *)
Lemma take_first_perm m p l x l' : take_first m p l = Some (x, l') -> l ≡ₚ x :: l'.
Proof.
  revert x l'; induction l as [|y l IH]; intros x l'; simpl; [done|].
  destruct (m (p_req y) p); [intros [= -> ->]; done|].
  destruct (take_first m p l) as [[z l2]|]; [|done]. intros [= <- <-]. rewrite (IH _ _ eq_refl). by rewrite Permutation_swap.
Qed.
Lemma rules_account m l st : follows_rules m l = Some st ->
  answered l ++ (p_id <$> st.1) ≡ₚ seq 0 st.2.
Proof.
  revert st; induction l as [|e l IH] using rev_ind; intros st.
  - intros [= <-]. done.
  - rewrite follows_snoc. destruct (follows_rules m l) as [[pl n]|]; [|done]. specialize (IH _ eq_refl).
    unfold answered. rewrite omap_app. fold (answered l). simpl in *.
    destruct e as [u r cb|u cb p|p].
    + destruct (Nat.eqb_spec u n) as [->|]; [|done]. intros [= <-]. cbn [fst snd omap list_omap]. rewrite app_nil_r.
      rewrite fmap_app, app_assoc, IH. cbn [fmap list_fmap p_id]. rewrite seq_S. done.
    + destruct (take_first m p pl) as [[x l']|] eqn:Et; [|done].
      destruct (Nat.eqb_spec (p_id x) u) as [<-|]; [|done]. destruct (p_cb x =? cb); [|done]. intros [= <-].
      cbn [fst snd omap list_omap]. rewrite <- IH. rewrite (take_first_perm _ _ _ _ _ Et). by rewrite <- app_assoc.
    + destruct (take_first m p pl); [done|]. intros [= <-]. cbn [fst snd omap list_omap]. by rewrite app_nil_r.
Qed.
Lemma rules_once m l st : follows_rules m l = Some st -> NoDup (answered l).
Proof.
  intros H. apply rules_account in H. assert (HN : NoDup (answered l ++ (p_id <$> st.1))) by (rewrite H; apply NoDup_seq).
  by apply NoDup_app in HN as [? _].
Qed.

(** ** The invariant. [A]: the calls callbacks may make. *)
Section inv.
  Context (E : env) (A : act -> Prop).
  Context (HA : forall cb p, Forall A (e_cb E cb p)).
  Context (HA2 : forall a, A a -> exists r cb, a = Req r cb /\ e_pub E r = []).
  Context (Hthrow : forall cb p, e_throw E cb p = false).

  Definition above_ok (f : frame) : Prop := match f with Acts l => Forall A l | Do a => A a | _ => False end.
  Definition plain (f : frame) : Prop := match f with Erase _ _ | Throw => False | _ => True end.
  Definition quiet (stk : list frame) : Prop := stk = [] \/ exists l, stk = [Acts l].
  (** number of the pending erase *)
  Definition shape (s : hst) (stk : list frame) : Prop :=
    (Forall plain stk /\ follows_rules (e_match E) (h_log s) = Some (pe <$> h_vec s, h_next s)) \/
    (exists above i below, stk = above ++ Erase i true :: below /\ Forall above_ok above /\ Forall plain below /\
       i < length (h_vec s) /\
       follows_rules (e_match E) (h_log s) = Some (pe <$> delete i (h_vec s), h_next s)).
  (** in the thread-safe variant: while locked, the frames of the owner end with Unlock and its own code *)
  Definition Inv (s : hst) : Prop :=
    h_ub s = false /\
    exists a stk, h_thr s !! a = Some stk /\ shape s stk /\
      (forall t stk', t <> a -> h_thr s !! t = Some stk' -> quiet stk') /\
      (if e_mt E then
         match h_lock s with
         | None => quiet stk
         | Some t => t = a /\ exists top l, stk = top ++ [Unlock; Acts l] /\ (Unlock ∉ top)
         end
       else length (h_thr s) = 1).

  Lemma quiet_plain stk : quiet stk -> Forall plain stk.
  Proof. intros [->|[l ->]]; repeat constructor. Qed.
  Lemma invalidate_plain k stk : Forall plain stk -> map (invalidate k) stk = stk.
  Proof. induction 1 as [|f stk Hf _ IH]; [done|]. simpl. rewrite IH. by destruct f. Qed.
  Lemma invalidate_above k stk : Forall above_ok stk -> map (invalidate k) stk = stk.
  Proof. induction 1 as [|f stk Hf _ IH]; [done|]. simpl. rewrite IH. by destruct f. Qed.

  Lemma plain_no_erase stk i v : Forall plain stk -> Erase i v ∉ stk.
  Proof. intros H Hin. rewrite Forall_forall in H. by apply (H _ Hin). Qed.
  Lemma invalidate_all_id k thr : Forall (Forall plain) thr -> invalidate_all k thr = thr.
  Proof. unfold invalidate_all. induction 1 as [|x l Hx _ IH]; [done|]. simpl. by rewrite IH, invalidate_plain. Qed.

  Lemma all_plain s a stk : h_thr s !! a = Some stk -> Forall plain stk ->
    (forall t stk', t <> a -> h_thr s !! t = Some stk' -> quiet stk') -> Forall (Forall plain) (h_thr s).
  Proof.
    intros Ha Hp Hq. apply Forall_lookup. intros t x Hx. destruct (decide (t = a)) as [->|Hne].
    - congruence.
    - by eapply quiet_plain, Hq.
  Qed.
  Lemma all_plain_ins s a stk rest : h_thr s !! a = Some stk -> Forall plain rest ->
    (forall t stk', t <> a -> h_thr s !! t = Some stk' -> quiet stk') -> Forall (Forall plain) (<[a:=rest]> (h_thr s)).
  Proof.
    intros Ha Hp Hq. apply Forall_lookup. intros t x Hx. destruct (decide (t = a)) as [->|Hne].
    - rewrite list_lookup_insert in Hx by (by eapply lookup_lt_Some). congruence.
    - rewrite list_lookup_insert_ne in Hx by done. by eapply quiet_plain, Hq.
  Qed.
  Lemma quiet_ins s a stk rest : (forall t stk', t <> a -> h_thr s !! t = Some stk' -> quiet stk') ->
    forall t stk', t <> a -> <[a:=rest]> (h_thr s) !! t = Some stk' -> h_thr s !! a = Some stk -> quiet stk'.
  Proof. intros Hq t stk' Hne Hl _. rewrite list_lookup_insert_ne in Hl by done. eauto. Qed.

  Lemma top_tail (f : frame) rest top l : f :: rest = top ++ [Unlock; Acts l] -> Unlock ∉ top ->
    f <> Unlock -> exists top', top = f :: top' /\ rest = top' ++ [Unlock; Acts l] /\ Unlock ∉ top'.
  Proof.
    intros Heq Hn Hf. destruct top as [|g top]; simpl in Heq; injection Heq as -> ->; [done|].
    exists top. split_and!; [done..|]. set_solver.
  Qed.

  Lemma inv_step s t : Inv s -> room s -> Inv (step E s t).
  Proof.
    intros (Hub & a & stk & Ha & Hsh & Hq & Hm) Hroom. pose proof (lookup_lt_Some _ _ _ Ha) as Hlt.
    unfold step. rewrite Hub. destruct (h_thr s !! t) as [[|f rest]|] eqn:Et;
      [split; [done|]; by exists a, stk| |split; [done|]; by exists a, stk].
    destruct (decide (t = a)) as [->|Hne].
    - (* the active thread *) rewrite Et in Ha. injection Ha as <-.
      assert (Hqi : forall rest' t stk', t <> a -> <[a:=rest']> (h_thr s) !! t = Some stk' -> quiet stk').
      { intros rest' t stk' Hn Hl. rewrite list_lookup_insert_ne in Hl by done. eauto. }
      destruct f as [[|b l]|[r cb|p]|i v| |].
      + (* Acts [] *) split; [done|]. exists a, rest. cbn [h_thr h_vec h_log h_next h_lock].
        split; [by rewrite list_lookup_insert|]. split.
        { destruct Hsh as [[Hp Hr]|(ab & i & be & Heq & Hab & Hbe & Hi & Hr)].
          - left. by apply Forall_cons in Hp as [_ ?].
          - right. destruct ab as [|g ab]; [done|]. injection Heq as <- ->. apply Forall_cons in Hab as [_ Hab].
            exists ab, i, be. done. }
        split; [apply Hqi|]. destruct (e_mt E); [|by rewrite insert_length].
        destruct (h_lock s) as [t'|].
        * destruct Hm as [-> (top & l & Heq & Hn)]. split; [done|].
          destruct (top_tail _ _ _ _ Heq Hn) as (top' & _ & -> & ?); [done|]. eauto.
        * destruct Hm as [Hm|[l Hm]]; [done|]. injection Hm as <- ->. by left.
      + (* Acts (b :: l) *) destruct (e_mt E) eqn:Emt.
        * destruct (h_lock s) as [t'|] eqn:Elk.
          { split; [done|]. exists a, (Acts (b :: l) :: rest). rewrite Emt, Elk. done. }
          destruct Hm as [Hm|[l' Hm]]; [done|]. injection Hm as <- ->.
          split; [done|]. exists a, [Do b; Unlock; Acts l]. cbn [h_thr h_vec h_log h_next h_lock]. rewrite Emt.
          split; [by rewrite list_lookup_insert|]. split.
          { destruct Hsh as [[Hp Hr]|(ab & i & be & Heq & Hab & Hbe & Hi & Hr)].
            - left. split; [repeat constructor|done].
            - destruct ab as [|g [|? ?]]; simplify_eq/=. }
          split; [apply Hqi|]. split; [done|]. exists [Do b], l. split; [done|]. set_solver.
        * split; [done|]. exists a, (Do b :: Acts l :: rest). cbn [h_thr h_vec h_log h_next h_lock]. rewrite Emt.
          split; [by rewrite list_lookup_insert|]. split.
          { destruct Hsh as [[Hp Hr]|(ab & i & be & Heq & Hab & Hbe & Hi & Hr)].
            - left. apply Forall_cons in Hp as [_ ?]. split; [by repeat constructor|done].
            - right. destruct ab as [|g ab]; [done|]. injection Heq as <- ->. apply Forall_cons in Hab as [Hb Hab].
              apply Forall_cons in Hb as [Hb Hl].
              exists (Do b :: Acts l :: ab), i, be. split; [done|]. split; [by repeat constructor|]. done. }
          split; [apply Hqi|]. by rewrite insert_length.
      + (* Do Req *)
        assert (Hrest : Forall plain rest -> Forall plain (Acts (e_pub E r) :: rest)) by (by constructor).
        set (e' := Entry (h_next s) r cb).
        assert (Hm' : if e_mt E then match h_lock s with
             | None => quiet (Acts (e_pub E r) :: rest)
             | Some t => t = a /\ exists top l, Acts (e_pub E r) :: rest = top ++ [Unlock; Acts l] /\ (Unlock ∉ top)
             end else length (<[a:=Acts (e_pub E r) :: rest]> (h_thr s)) = 1).
        { destruct (e_mt E); [|by rewrite insert_length].
          destruct (h_lock s) as [t'|].
          - destruct Hm as [-> (top & l & Heq & Hn)]. split; [done|].
            destruct (top_tail _ _ _ _ Heq Hn) as (top' & _ & -> & ?); [done|]. exists (Acts (e_pub E r) :: top'), l. split; [done|]. set_solver.
          - destruct Hm as [Hm|[l Hm]]; done. }
        destruct Hsh as [[Hp Hr]|(ab & i & be & Heq & Hab & Hbe & Hi & Hr)].
        * apply Forall_cons in Hp as [_ Hp].
          assert (Hthr : (if length (h_vec s) =? h_cap s then invalidate_all 0 (<[a:=Acts (e_pub E r) :: rest]> (h_thr s))
                          else <[a:=Acts (e_pub E r) :: rest]> (h_thr s)) = <[a:=Acts (e_pub E r) :: rest]> (h_thr s)).
          { destruct (_ =? _); [|done]. apply invalidate_all_id. eapply all_plain_ins; eauto. }
          split; [done|]. exists a, (Acts (e_pub E r) :: rest). cbn [h_thr h_vec h_log h_next h_lock]. rewrite Hthr.
          split; [by rewrite list_lookup_insert|]. split; [|split; [apply Hqi|done]].
          left. split; [auto|]. cbn [h_log h_vec h_next]. rewrite follows_snoc, Hr. cbn [rule]. rewrite Nat.eqb_refl. by rewrite fmap_app.
        * destruct ab as [|g ab]; [done|]. injection Heq as <- ->. apply Forall_cons in Hab as [Hb Hab].
          assert (Hroom' : length (h_vec s) < h_cap s).
          { eapply Hroom; [exact Et|]. exists i, true. set_solver. }
          assert ((length (h_vec s) =? h_cap s) = false) as -> by (apply Nat.eqb_neq; lia).
          split; [done|]. exists a, (Acts (e_pub E r) :: ab ++ Erase i true :: be). cbn [h_thr h_vec h_log h_next h_lock].
          split; [by rewrite list_lookup_insert|]. split; [|split; [apply Hqi|done]].
          right. exists (Acts (e_pub E r) :: ab), i, be. split; [done|]. split.
          { constructor; [|done]. simpl in Hb. destruct (HA2 _ Hb) as (r' & cb' & Hbb & Hpub). injection Hbb as -> ->. rewrite Hpub. simpl. constructor. }
          split; [done|]. cbn [h_log h_vec h_next]. rewrite app_length. split; [simpl; lia|].
          rewrite follows_snoc, Hr. cbn [rule]. rewrite Nat.eqb_refl.
          f_equal. f_equal. rewrite !delete_take_drop, take_app_le by lia. rewrite drop_app_le by lia.
          change [Pend (h_next s) r cb] with (pe <$> [Entry (h_next s) r cb]). rewrite <- fmap_app. by rewrite <- app_assoc.
      + (* Do Rep *)
        destruct Hsh as [[Hp Hr]|(ab & i & be & Heq & Hab & Hbe & Hi & Hr)].
        2:{ destruct ab as [|g ab]; [done|]. injection Heq as <- ->. apply Forall_cons in Hab as [Hb Hab].
            simpl in Hb. destruct (HA2 _ Hb) as (r' & cb' & Hbb & _). done. }
        apply Forall_cons in Hp as [_ Hp].
        pose proof (find_match_take (e_match E) p (h_vec s) 0) as Hf.
        destruct (find_match (e_match E) p 0 (h_vec s)) as [[i e]|].
        * destruct Hf as (j & -> & Hj & Htk). rewrite Hthrow. cbn [app].
          split; [done|]. exists a, (Acts (e_cb E (en_cb e) p) :: Erase (0 + j) true :: rest). cbn [h_thr h_vec h_log h_next h_lock].
          split; [by rewrite list_lookup_insert|]. split.
          { right. exists [Acts (e_cb E (en_cb e) p)], j, rest. split; [done|]. split; [constructor; [apply HA|constructor]|].
            split; [done|]. cbn [h_log h_vec h_next]. split; [by eapply lookup_lt_Some|].
            rewrite follows_snoc, Hr. cbn [rule]. rewrite Htk. cbn [pe p_id p_cb]. by rewrite !Nat.eqb_refl. }
          split; [apply Hqi|]. destruct (e_mt E); [|by rewrite insert_length].
          destruct (h_lock s) as [t'|].
          -- destruct Hm as [-> (top & l & Heq & Hn)]. split; [done|].
             destruct (top_tail _ _ _ _ Heq Hn) as (top' & _ & -> & ?); [done|].
             eexists (_ :: _ :: top'), l. split; [done|]. set_solver.
          -- destruct Hm as [Hm|[l Hm]]; done.
        * split; [done|]. exists a, rest. cbn [h_thr h_vec h_log h_next h_lock].
          split; [by rewrite list_lookup_insert|]. split.
          { left. split; [done|]. cbn [h_log h_vec h_next]. rewrite follows_snoc, Hr. cbn [rule]. by rewrite Hf. }
          split; [apply Hqi|]. destruct (e_mt E); [|by rewrite insert_length].
          destruct (h_lock s) as [t'|].
          -- destruct Hm as [-> (top & l & Heq & Hn)]. split; [done|].
             destruct (top_tail _ _ _ _ Heq Hn) as (top' & _ & -> & ?); [done|]. eauto.
          -- destruct Hm as [Hm|[l Hm]]; done.
      + (* Erase *)
        destruct Hsh as [[Hp Hr]|(ab & j & be & Heq & Hab & Hbe & Hi & Hr)].
        { by apply Forall_cons in Hp as [? _]. }
        destruct ab as [|g ab]; [|injection Heq as <- ->; by apply Forall_cons in Hab as [? _]].
        injection Heq as -> -> ->.
        rewrite invalidate_all_id by (eapply all_plain_ins; eauto).
        split; [done|]. exists a, be. cbn [h_thr h_vec h_log h_next h_lock].
        split; [by rewrite list_lookup_insert|]. split; [by left|].
        split; [apply Hqi|]. destruct (e_mt E); [|by rewrite insert_length].
        destruct (h_lock s) as [t'|].
        * destruct Hm as [-> (top & l & Heq & Hn)]. split; [done|].
          destruct (top_tail _ _ _ _ Heq Hn) as (top' & _ & -> & ?); [done|]. eauto.
        * destruct Hm as [Hm|[l Hm]]; done.
      + (* Unlock *)
        destruct Hsh as [[Hp Hr]|(ab & j & be & Heq & Hab & Hbe & Hi & Hr)].
        2:{ destruct ab as [|g ab]; [done|]. injection Heq as <- ->. by apply Forall_cons in Hab as [? _]. }
        apply Forall_cons in Hp as [_ Hp].
        split; [done|]. exists a, rest. cbn [h_thr h_vec h_log h_next h_lock].
        split; [by rewrite list_lookup_insert|]. split; [by left|].
        split; [apply Hqi|]. destruct (e_mt E); [|by rewrite insert_length].
        destruct (h_lock s) as [t'|].
        * destruct Hm as [-> (top & l & Heq & Hn)]. destruct top as [|g top]; simpl in Heq.
          -- injection Heq as ->. right; eauto.
          -- injection Heq as <- _. exfalso. apply Hn. constructor.
        * destruct Hm as [Hm|[l Hm]]; done.
      + (* Throw *)
        destruct Hsh as [[Hp Hr]|(ab & j & be & Heq & Hab & Hbe & Hi & Hr)].
        { by apply Forall_cons in Hp as [? _]. }
        destruct ab as [|g ab]; [done|]. injection Heq as <- ->. by apply Forall_cons in Hab as [? _].
    - (* another thread: its stack is quiet *)
      destruct (Hq t _ Hne Et) as [?|[l Hl]]; [done|]. injection Hl as -> ->.
      assert (Hmt : e_mt E = true).
      { destruct (e_mt E); [done|]. apply lookup_lt_Some in Et, Ha. lia. }
      rewrite Hmt in *. destruct l as [|b l].
      + split; [done|]. exists a, stk. cbn [h_thr h_vec h_log h_next h_lock]. rewrite Hmt.
        rewrite list_lookup_insert_ne by done. split; [done|]. split; [exact Hsh|]. split; [|done].
        intros t' stk' Hn Hl. destruct (decide (t = t')) as [<-|].
        * rewrite list_lookup_insert in Hl by (by eapply lookup_lt_Some). injection Hl as <-. by left.
        * rewrite list_lookup_insert_ne in Hl by done. eauto.
      + destruct (h_lock s) as [t'|] eqn:Elk.
        * split; [done|]. exists a, stk. rewrite Elk, Hmt. done.
        * split; [done|]. exists t, [Do b; Unlock; Acts l]. cbn [h_thr h_vec h_log h_next h_lock]. rewrite Hmt.
          split; [rewrite list_lookup_insert; [done|by eapply lookup_lt_Some]|]. split.
          { left. split; [repeat constructor|]. destruct Hsh as [[Hp Hr]|(ab & j & be & Heq & Hab & Hbe & Hi & Hr)]; [done|].
            destruct Hm as [->|[l' ->]]; [by destruct ab|]. destruct ab as [|? [|? ?]]; simplify_eq/=. }
          split.
          { intros t' stk' Hn Hl. rewrite list_lookup_insert_ne in Hl by done.
            destruct (decide (t' = a)) as [->|]; [congruence|eauto]. }
          split; [done|]. exists [Do b], l. split; [done|]. set_solver.
  Qed.

  Lemma inv_new progs : progs <> [] -> (e_mt E = false -> length progs = 1) -> Inv (hst_new progs).
  Proof.
    intros Hne H1. split; [done|]. destruct progs as [|l progs]; [done|].
    exists 0, [Acts l]. split; [done|]. split; [left; split; [repeat constructor|done]|].
    split.
    - intros t stk' Ht Hl. cbn [hst_new h_thr] in Hl. rewrite list_lookup_fmap in Hl. destruct ((l :: progs) !! t); [|done].
      injection Hl as <-. right. eauto.
    - destruct (e_mt E); [right; eauto|]. cbn [hst_new h_thr]. rewrite fmap_length. auto.
  Qed.
  Lemma inv_run s sched : Inv s -> (forall n, room (run E s (take n sched))) -> Inv (run E s sched).
  Proof.
    revert s; induction sched as [|t sched IH]; intros s HI Hr; [done|].
    cbn [run fold_left]. apply IH.
    - apply inv_step; [done|]. apply (Hr 0).
    - intros n. apply (Hr (S n)).
  Qed.
End inv.
