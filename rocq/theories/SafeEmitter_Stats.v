(** * C63: the discard statistics of SafeEventEmitter. *)
From stdpp Require Import prelude strings list_numbers.
From Verif Require Import Base SafeEmitter_Model SafeEmitter_Spec SafeEmitter_Proofs SafeEmitter_Once SafeEmitter_Props.
Local Open Scope Z_scope.
Local Open Scope string_scope.
Local Open Scope list_scope.

Definition stat_ls (id : Z) (ls : list listener) : option (string * Z) :=
  match filter (fun l => l_id l = id) ls with
  | l :: _ => if l_once l then None else Some (l_sub l, l_disc l)
  | [] => None
  end.
Definition ST (s : em) : Prop := forall id, stat_ls id (e_ls s) = fold_left (stat_step id) (rev (e_log s)) None.

Lemma filter_none id (ls : list listener) : id ∉ l_id <$> ls -> filter (fun l => l_id l = id) ls = [].
Proof.
  induction ls as [|l ls IH]; [done|]. rewrite fmap_cons, not_elem_of_cons. intros [H1 H2]. rewrite filter_cons_False by congruence. auto.
Qed.
Lemma stat_ls_cons id l ls : stat_ls id (l :: ls) = if (id =? l_id l)%Z then (if l_once l then None else Some (l_sub l, l_disc l)) else stat_ls id ls.
Proof.
  unfold stat_ls. destruct (Z.eqb_spec id (l_id l)) as [->|H].
  - by rewrite filter_cons_True.
  - rewrite filter_cons_False by congruence. done.
Qed.
Lemma stat_ls_snoc id l ls : l_id l ∉ l_id <$> ls ->
  stat_ls id (ls ++ [l]) = if (id =? l_id l)%Z then (if l_once l then None else Some (l_sub l, l_disc l)) else stat_ls id ls.
Proof.
  intros Hni. unfold stat_ls. rewrite filter_app. destruct (Z.eqb_spec id (l_id l)) as [->|H].
  - rewrite filter_none by done. cbn [app]. by rewrite filter_cons_True.
  - rewrite (filter_cons_False _ l []) by congruence. by rewrite filter_nil, app_nil_r.
Qed.
Lemma stat_ls_erase id i ls ls' : NoDup (l_id <$> ls) -> erase_id i ls = Some ls' -> stat_ls id ls' = if (id =? i)%Z then None else stat_ls id ls.
Proof.
  revert ls'. induction ls as [|l ls IH]; intros ls' Hnd E; cbn [erase_id] in E; [done|]. rewrite fmap_cons in Hnd. apply NoDup_cons in Hnd as [Hni Hnd].
  destruct (Z.eqb_spec (l_id l) i) as [<-|Hne].
  - injection E as <-. rewrite stat_ls_cons. destruct (Z.eqb_spec id (l_id l)) as [->|H]; [|done]. unfold stat_ls. by rewrite filter_none.
  - destruct (erase_id i ls) as [r|]; [|done]. injection E as <-. rewrite !stat_ls_cons, (IH r Hnd eq_refl).
    destruct (Z.eqb_spec id (l_id l)) as [->|H]; [|done]. by destruct (Z.eqb_spec (l_id l) i).
Qed.
Lemma stat_ls_discard id sub ls : stat_ls id (discard sub ls) =
  match stat_ls id ls with Some (sub', n) => Some (sub', if bool_decide (sub' = sub) then n + 1 else n) | None => None end.
Proof.
  induction ls as [|l ls IH]; [done|]. unfold discard in *. rewrite fmap_cons, !stat_ls_cons, IH.
  destruct (bool_decide (l_sub l = sub)) eqn:Es; destruct (l_once l) eqn:Eo; cbn [andb negb l_id l_once l_sub l_disc]; rewrite ?Eo;
    destruct (Z.eqb_spec id (l_id l)); try done; by rewrite Es.
Qed.
Lemma st_same s s' e : ST s -> e_ls s' = e_ls s -> e_log s' = e :: e_log s -> (forall id r, stat_step id r e = r) -> ST s'.
Proof. intros H E1 E2 H2 id. rewrite E1, E2. cbn [rev]. rewrite fold_left_app. cbn [fold_left]. by rewrite H2, <- H. Qed.
Lemma st_remove s i : Inv s -> ST s -> ST (remove_listener i s).1.
Proof.
  intros I H id. unfold remove_listener. destruct (erase_id i (e_ls s)) as [ls|] eqn:E; cbn [fst log set_ls e_ls e_log rev];
    rewrite fold_left_app; cbn [fold_left stat_step].
  - rewrite (stat_ls_erase id i _ _ (ls_nodup s I) E), H. done.
  - apply H.
Qed.
Lemma exec_ST s a : G s -> few (exec s a) -> ST s -> ST (exec s a).
Proof.
  intros HG Hf H. pose proof HG as [I _]. pose proof (ls_nodup _ (proj1 (exec_G _ _ HG Hf))) as Hnd'.
  destruct a as [t c|t|t|t]; cbn [exec] in *.
  - destruct (e_thr s !! t) as [st|] eqn:Ht; [|done].
    assert (forall st, NoDup (l_id <$> e_ls (do_call t st c s)) -> ST (do_call t st c s)) as Hc.
    { clear Hf Hnd'. intros st' Hnd'. destruct c as [sub cb|sub cb|i| |sub ev|sub]; cbn [do_call] in *.
      1,2: intros id; unfold add_listener in *; cbn [log e_ls e_log rev] in *; rewrite fmap_app in Hnd'; apply NoDup_app in Hnd' as (_ & Hd & _);
        rewrite stat_ls_snoc by (intros Hin; apply (Hd _ Hin); left); cbn [l_id l_once l_sub l_disc]; rewrite fold_left_app; cbn [fold_left stat_step];
        by rewrite H.
      - by apply st_remove.
      - intros id. cbn [log set_ls e_ls e_log rev]. rewrite fold_left_app. done.
      - by eapply (st_same s).
      - intros id. cbn [log set_ls e_ls e_log rev]. rewrite fold_left_app, stat_ls_discard, H. done. }
    destruct st as [|[k sub ev hs|k h] st]; [by apply Hc|done|by apply Hc].
  - destruct (e_thr s !! t) as [st|] eqn:Ht; [|done]. destruct st as [|[k sub ev [|h hs]|k h] st]; try done; by eapply (st_same s).
  - destruct (e_thr s !! t) as [st|] eqn:Ht; [|done]. destruct st as [|[k sub ev hs|k h] st]; try done. destruct (l_once h); [|exact H].
    pose proof (st_remove s (l_id h) I H) as Hr. destruct (remove_listener (l_id h) s) as [s' [|]]; cbn [fst] in Hr; [exact Hr|].
    unfold unwind. by eapply (st_same s').
  - destruct (e_thr s !! t) as [st|] eqn:Ht; [|done]. destruct st as [|[k sub ev hs|k h] st]; try done. unfold unwind. by eapply (st_same s).
Qed.
Lemma run_ST s acts : G s -> few (run s acts) -> ST s -> ST (run s acts).
Proof.
  revert s; induction acts as [|a acts IH]; intros s HG Hf Hc; [done|].
  pose proof (few_exec _ _ _ Hf). apply (IH (exec s a)); [by apply exec_G|done|by apply exec_ST].
Qed.

(** C63: at every moment, getListenerStats reports for listener [id] the number of discardEvent calls for its event made
    since it was registered; and nothing for one-off, removed or unknown listeners. *)
Theorem C63_discards n acts id : few_listeners (history n acts) -> get_stats id (run (em_new n) acts) = discards id (history n acts).
Proof.
  intros Hf. unfold discards, history. rewrite <- (run_ST _ acts (init_G n) Hf); [|done]. unfold stat_ls, get_stats.
  destruct (filter _ _) as [|l ?]; [done|]. by destruct (l_once l).
Qed.
Print Assumptions C63_discards.
(** In words: the statistics of a repeating listener that has not been removed. *)
Lemma discards_count id h n0 sub : LClear ∉ h -> LRemoved id ∉ h -> id ∉ created h ->
  fold_left (stat_step id) h (Some (sub, n0)) = Some (sub, n0 + Z.of_nat (length (filter (fun e => e = true) ((fun e => match e with LDiscard s => bool_decide (s = sub) | _ => false end) <$> h)))).
Proof.
  revert n0. induction h as [|e h IH]; intros n0; [intros; cbn; by rewrite Z.add_0_r|].
  rewrite !not_elem_of_cons. intros [H1 H1'] [H2 H2'] H3. cbn [fold_left fmap list_fmap].
  destruct e as [id' s' o cb|id'| | |sub'| | | |]; cbn [created stat_step] in *; try (rewrite IH by done; by rewrite filter_cons_False by done).
  - rewrite not_elem_of_cons in H3. destruct H3 as [H3 H3']. rewrite (proj2 (Z.eqb_neq id id')) by done. rewrite IH by done. by rewrite filter_cons_False by done.
  - rewrite (proj2 (Z.eqb_neq id id')) by congruence. rewrite IH by done. by rewrite filter_cons_False by done.
  - done.
  - rewrite IH by done. destruct (decide (sub = sub')) as [<-|Hne].
    + rewrite !bool_decide_eq_true_2 by done. rewrite filter_cons_True by done. cbn [length]. do 2 f_equal. lia.
    + rewrite !bool_decide_eq_false_2 by congruence. by rewrite filter_cons_False by done.
Qed.
Theorem C63_discards_in_words n acts h1 id sub cb h2 :
  few_listeners (history n acts) -> history n acts = h1 ++ LOn id sub false cb :: h2 -> LClear ∉ h2 -> LRemoved id ∉ h2 ->
  get_stats id (run (em_new n) acts) = Some (Z.of_nat (length (filter (fun e => e = true) ((fun e => match e with LDiscard s => bool_decide (s = sub) | _ => false end) <$> h2)))).
Proof.
  intros Hf E H1 H2. rewrite C63_discards by done. pose proof (C07_ids_unique n acts Hf) as Hnd. unfold discards. rewrite E in *.
  rewrite fold_left_app. cbn [fold_left stat_step]. rewrite Z.eqb_refl. rewrite discards_count; [done|done|done|].
  rewrite created_app in Hnd. apply NoDup_app in Hnd as (_ & _ & Hnd). cbn [created] in Hnd. by apply NoDup_cons in Hnd as [? _].
Qed.
Example C63_case : let acts := [ACall 0 (COn "a" 1); ACall 0 (COnce "a" 2); ACall 1 (CDiscard "a"); ACall 0 (COn "a" 3); ACall 0 (CDiscard "a"); ACall 0 (CDiscard "b")] in
  (fun id => get_stats id (run (em_new 2) acts)) <$> [1; 2; 3; 4] = [Some 2; None; Some 1; None].
Proof. reflexivity. Qed.
