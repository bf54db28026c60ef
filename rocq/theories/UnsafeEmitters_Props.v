(** * Properties of the unsafe emitters: C09, C10, C11, C53. *)
From stdpp Require Import prelude strings gmap.
From Verif Require Import SafeEmitter_Model UnsafeEmitters_Model UnsafeEmitters_Spec UnsafeEmitters_Proofs.
Local Open Scope string_scope.
Local Open Scope list_scope.

(** C09: every history of calls returns what the registry specification
    returns: existing id for a known name, the callbacks of the live listeners of
    the event in registration order, never a null or out-of-range callback. *)
Theorem C09_multi_refines : forall os, (multi_run multi_new os).2 = (spec_run registry_new os).2.
Proof. intros os. apply run_rel, rel_new. Qed.
Print Assumptions C09_multi_refines.
Example C09_case : (multi_run multi_new [MOn true "l1" "a" 7; MOn false "l2" "a" 8; MOn false "l1" "b" 9; MRemove true 0; MEmit "a";
    MEmit "b"; MOn false "l1" "b" 9; MEmit "b"; MRemove false 0; MEmit "a"]).2 =
  [OId 0; OId 1; OId 0; OUnit; OEmit (Called [8]); OEmit (Called []); OId 2; OEmit (Called [9]); OUnit; OEmit (Called [8])].
Proof. reflexivity. Qed.

(** C10: statistics of a live listener registered with a container. *)
Definition C10_statement : Prop := forall os r d, let m := (multi_run multi_new os).1 in
  r ∈ rs (spec_run registry_new os).1 -> r_disc r = Some d ->
  multi_stats (r_id r) m = SGot (Stat (r_name r) (r_event r) d).
(** False: after removing one of two listeners, the other's statistics are unavailable. *)
Theorem C10_stats_available_refuted : ~ C10_statement.
Proof.
  intros H. specialize (H [MOn true "l1" "a" 7; MOn true "l2" "a" 8; MRemove true 0] (Reg 1 "l2" "a" 8 (Some 0)) 0).
  assert (Hc : Reg 1 "l2" "a" 8 (Some 0) ∈ rs (spec_run registry_new [MOn true "l1" "a" 7; MOn true "l2" "a" 8; MRemove true 0]).1).
  { vm_compute. constructor. }
  specialize (H Hc eq_refl). vm_compute in H. discriminate.
Qed.
Print Assumptions C10_stats_available_refuted.
(** And it can throw: a listener without container beside two with one. *)
Theorem C10_stats_never_throws_refuted : ~ (forall os id, multi_stats id (multi_run multi_new os).1 <> SThrow).
Proof. intros H. by apply (H [MOn false "l1" "a" 7; MOn true "l2" "a" 8] 0). Qed.
Print Assumptions C10_stats_never_throws_refuted.
(** What holds: whenever the emitter keeps more statistics objects than the id, they are the
    listener's own, with the number of discards since its registration. *)
Theorem C10_stats : forall os r d, let m := (multi_run multi_new os).1 in
  r ∈ rs (spec_run registry_new os).1 -> r_disc r = Some d -> r_id r < size (m_stats m) ->
  multi_stats (r_id r) m = SGot (Stat (r_name r) (r_event r) d).
Proof.
  intros os r d m Hr Hd Hs. destruct (run_rel os _ _ rel_new) as [R _]. fold m in R.
  unfold multi_stats. destruct (Nat.leb_spec (size (m_stats m)) (r_id r)); [lia|].
  by rewrite (rel_stats m _ R r d Hr Hd).
Qed.
Print Assumptions C10_stats.
(** In particular when every listener was registered with a container and none was removed. *)
Definition all_with_container (os : list mop) : Prop :=
  Forall (fun o => match o with MOn c _ _ _ => c = true | MRemove _ _ | MRemoveAll _ => False | _ => True end) os.
Theorem C10_stats_no_removal : forall os r d, all_with_container os -> let m := (multi_run multi_new os).1 in
  r ∈ rs (spec_run registry_new os).1 -> r_disc r = Some d ->
  multi_stats (r_id r) m = SGot (Stat (r_name r) (r_event r) d).
Proof.
  intros os r d Hall m Hr Hd. apply C10_stats; auto.
  assert (Hdom : forall os m0, all_with_container os -> (forall i, is_Some (m_stats m0 !! i) <-> i < length (m_ls m0)) ->
     forall i, is_Some (m_stats (multi_run m0 os).1 !! i) <-> i < length (m_ls (multi_run m0 os).1)).
  { clear. induction os as [|o os IH]; intros m0 Hall H0; [done|]. apply Forall_cons in Hall as [Ho Hall]. simpl.
    assert (H1 : forall i, is_Some (m_stats (multi_step m0 o).1 !! i) <-> i < length (m_ls (multi_step m0 o).1)).
    { destruct o as [c n e cb|c id|c|e|e]; simpl; try done.
      - subst c. unfold multi_on. destruct (m_names m0 !! n); [done|]. simpl. intros i. rewrite app_length, lookup_insert_is_Some'.
        rewrite H0. simpl. lia.
      - intros i. rewrite <- H0.
        assert (Hf : forall ids, is_Some (foldr (fun id st => alter bump id st) (m_stats m0) ids !! i) <-> is_Some (m_stats m0 !! i)).
        { induction ids as [|x ids IHi]; [done|]. simpl. rewrite lookup_alter_is_Some. done. }
        apply Hf. }
    destruct (multi_step m0 o) as [m' r]. simpl in *. specialize (IH m' Hall H1). by destruct (multi_run m' os). }
  specialize (Hdom os multi_new Hall). fold m in Hdom.
  assert (H0 : forall i : nat, is_Some (m_stats multi_new !! i) <-> i < length (m_ls multi_new)).
  { intros i. simpl. rewrite lookup_empty. split; [by intros [? ?]|lia]. }
  specialize (Hdom H0).
  destruct (run_rel os _ _ rel_new) as [R _]. fold m in R. pose proof (rel_ls m _ R r Hr) as Hl. apply lookup_lt_Some in Hl.
  assert (Hsz : size (m_stats m) = length (m_ls m)).
  { rewrite <- size_dom. assert (E : dom (m_stats m) = list_to_set (seq 0 (length (m_ls m)))).
    { apply set_eq. intros i. rewrite elem_of_dom, Hdom, elem_of_list_to_set, elem_of_seq. lia. }
    rewrite E, size_list_to_set by apply NoDup_seq. apply seq_length. }
  fold m. rewrite Hsz. exact Hl.
Qed.
Print Assumptions C10_stats_no_removal.
Example C10_case : let os := [MOn true "l1" "a" 7; MOn true "l2" "b" 8; MDiscard "b"; MDiscard "b"] in
  all_with_container os /\ rs (spec_run registry_new os).1 = [Reg 0 "l1" "a" 7 (Some 0); Reg 1 "l2" "b" 8 (Some 2)] /\
  multi_stats 1 (multi_run multi_new os).1 = SGot (Stat "l2" "b" 2).
Proof. split_and!; [by repeat constructor|reflexivity|reflexivity]. Qed.

(** C11: the single-listener emitter is an optional slot. *)
Theorem C11_single_refines : forall os, (single_run single_new os).2 = (sspec_run None os).2.
Proof. intros os. apply srun_rel. done. Qed.
Print Assumptions C11_single_refines.
Example C11_case : (single_run single_new [MOn true "l1" "a" 7; MOn false "l2" "b" 8; MEmit "a"; MEmit "b"; MRemove true 0; MEmit "a";
    MOn false "l2" "b" 8; MEmit "b"; MEmit "a"]).2 =
  [SId 0; SId 0; SEmit (SCalled 7); SEmit SNothing; SUnit; SEmit SNothing; SId 0; SEmit (SCalled 8); SEmit SNothing].
Proof. reflexivity. Qed.

(** C53: emitters never hand a null statistics pointer to the container. *)
Theorem C53_multi_no_null : forall os, CDetach None ∉ m_cont (multi_run multi_new os).1.
Proof. intros os. apply multi_no_null. simpl. set_solver. Qed.
Print Assumptions C53_multi_no_null.
(** False for the single-listener emitter: removing when no statistics exist. *)
Theorem C53_single_refuted : ~ (forall os, CDetach None ∉ s_cont (single_run single_new os).1).
Proof. intros H. apply (H [MOn true "l1" "a" 7; MRemove true 0; MRemoveAll true]). vm_compute. constructor. Qed.
Print Assumptions C53_single_refuted.
(** It holds there when no removal happens unless a listener registered with a container is present. *)
Fixpoint careful (present : bool) (os : list mop) : Prop :=
  match os with
  | [] => True
  | o :: os' =>
      match o with
      | MOn c _ _ _ => c = true /\ careful true os'
      | MRemove c id => (c = true -> id = 0%nat -> present = true) /\ careful (if (id =? 0)%nat then false else present) os'
      | MRemoveAll c => (c = true -> present = true) /\ careful false os'
      | _ => careful present os'
      end
  end.
Theorem C53_single : forall os, careful false os -> CDetach None ∉ s_cont (single_run single_new os).1.
Proof.
  assert (H : forall os p s, careful p os -> (p = s_reg s) -> (s_reg s = true -> is_Some (s_stats s)) -> CDetach None ∉ s_cont s ->
    CDetach None ∉ s_cont (single_run s os).1).
  { induction os as [|o os IH]; intros p s Hc Hp Hs Hn; [done|]. simpl.
    destruct (single_step s o) as [s' r] eqn:E. 
    assert (G : CDetach None ∉ s_cont (single_run s' os).1); [|by destruct (single_run s' os)].
    destruct o as [c n e cb|c id|c|e|e]; simpl in *; injection E as <- <- || idtac.
    - destruct Hc as [-> Hc]. unfold single_on in E. destruct (s_reg s) eqn:Er; injection E as <- <-.
      + eapply IH; eauto.
      + eapply IH; [exact Hc| | |]; simpl; eauto. set_solver.
    - destruct Hc as [H1 Hc]. unfold single_remove in *. destruct id as [|id]; simpl in *.
      + eapply IH; [exact Hc| | |]; simpl; auto; [done|]. destruct c; [|done]. subst p.
        destruct (Hs (H1 eq_refl eq_refl)) as [st ->]. set_solver.
      + eapply IH; eauto.
    - destruct Hc as [H1 Hc]. unfold single_remove in *. simpl in *.
      eapply IH; [exact Hc| | |]; simpl; auto; [done|]. destruct c; [|done]. subst p.
      destruct (Hs (H1 eq_refl)) as [st ->]. set_solver.
    - eapply IH; eauto.
    - unfold single_discard in *. case_bool_decide; eapply IH; eauto; simpl.
      intros Er. destruct (Hs Er) as [st ->]. eauto. }
  intros os Hc. eapply H; [exact Hc|done|done|]. simpl. set_solver.
Qed.
Print Assumptions C53_single.
Example C53_case : careful false [MOn true "l1" "a" 7; MEmit "a"; MRemove true 0; MOn true "l2" "a" 8; MRemoveAll true].
Proof. simpl. auto. Qed.
(** False for the safe emitter too: removeAllListeners (safe_event_emitter.h lines
    190-199) detaches the statistics of every listener, and those of once listeners are null. *)
Definition safe_remove_all_detaches (s : em) : list (option Z) :=
  (fun l => if l_once l then None else Some (l_id l)) <$> e_ls s.
Theorem C53_safe_refuted : ~ (forall n acts, None ∉ safe_remove_all_detaches (run (em_new n) acts)).
Proof. intros H. apply (H 1 [ACall 0 (COnce "a" 3)]). vm_compute. constructor. Qed.
Print Assumptions C53_safe_refuted.
