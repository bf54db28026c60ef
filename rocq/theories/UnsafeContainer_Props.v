(** * C198: what the container shows of the listeners of a multi-listener unsafe emitter. *)
From stdpp Require Import prelude strings gmap.
From Verif Require Import UnsafeEmitters_Model UnsafeEmitters_Spec UnsafeEmitters_Proofs.
Local Open Scope string_scope.
Local Open Scope list_scope.

(** What a container holds after calls on it (newest first), as pairs (listener, event): attach adds an entry; detach removes the first entry of the same name, if there is one
    (/repo/core/modules/core/src/core_container.cpp 186-216; the name of a statistics object is computed by the SDK, not in the repository, from listener and event: here it is the pair of them). *)
Fixpoint drop_first (n : string * string) (l : list (string * string)) : list (string * string) :=
  match l with [] => [] | p :: l' => if decide (p = n) then l' else p :: drop_first n l' end.
Fixpoint listed (cs : list ccall) : list (string * string) :=
  match cs with
  | [] => []
  | CAttach s :: cs' => listed cs' ++ [(st_listener s, st_event s)]
  | CDetach (Some s) :: cs' => drop_first (st_listener s, st_event s) (listed cs')
  | CDetach None :: cs' => listed cs'
  end.
(** Every call is made with the container. *)
Definition contained (os : list mop) : Prop := Forall (fun o => match o with MOn c _ _ _ | MRemove c _ | MRemoveAll c => c = true | _ => True end) os.
Definition entry (r : reg) : string * string := (r_name r, r_event r).

Lemma drop_first_sub n l : drop_first n l `sublist_of` l.
Proof. induction l as [|p l IH]; [done|]. cbn [drop_first]. destruct (decide (p = n)); [by apply sublist_cons|by apply sublist_skip]. Qed.
Lemma sub_elem {A} (x : A) l l' : l `sublist_of` l' -> x ∈ l -> x ∈ l'.
Proof. intros H Hx. eapply elem_of_submseteq; [exact Hx|]. by apply sublist_submseteq. Qed.
Lemma sub_nodup {A} (l l' : list A) : l `sublist_of` l' -> NoDup l' -> NoDup l.
Proof.
  induction 1 as [|x l l' H IH|x l l' H IH]; intros Hn; [done| |]; apply NoDup_cons in Hn as [Hx Hn]; [|auto]. constructor; [|auto]. intros Hi. apply Hx. by eapply sub_elem.
Qed.
Lemma drop_first_gone n l : NoDup l -> n ∉ drop_first n l.
Proof.
  induction l as [|p l IH]; [intros _; apply not_elem_of_nil|]. intros [H1 H2]%NoDup_cons. cbn [drop_first].
  destruct (decide (p = n)) as [<-|]; [done|]. apply not_elem_of_cons. split; [done|auto].
Qed.
Lemma entry_nodup l : NoDup (r_name <$> l) -> NoDup (entry <$> l).
Proof. intros H. apply (NoDup_fmap_1 fst). by rewrite <- list_fmap_compose. Qed.
Lemma drop_first_reg n e id (l : list reg) : NoDup (r_name <$> l) -> NoDup (r_id <$> l) -> (exists r, r ∈ l /\ entry r = (n, e) /\ r_id r = id) ->
  drop_first (n, e) (entry <$> l) = entry <$> filter (fun r => r_id r <> id) l.
Proof.
  induction l as [|x l IH]; intros Hn Hi (r & Hr & E1 & E2); [by apply elem_of_nil in Hr|].
  rewrite fmap_cons in *. apply NoDup_cons in Hn as [Hn1 Hn2]. apply NoDup_cons in Hi as [Hi1 Hi2]. cbn [drop_first]. rewrite filter_cons.
  apply elem_of_cons in Hr as [->|Hr].
  - rewrite (decide_True _ _ E1). rewrite decide_False by (intros H; by apply H). f_equal. symmetry. apply filter_id_notin. by rewrite <- E2.
  - assert (entry x <> (n, e)). { intros E. apply Hn1. rewrite <- E1 in E. injection E as -> _. apply elem_of_list_fmap. eauto. }
    rewrite decide_False by done. rewrite decide_True.
    2:{ intros E. apply Hi1. rewrite E, <- E2. apply elem_of_list_fmap. eauto. }
    rewrite fmap_cons. f_equal. apply IH; eauto.
Qed.
Lemma listed_all (ps : list (nat * stat)) cs : NoDup (listed cs) ->
  let l := listed (((fun p => CDetach (Some p.2)) <$> ps) ++ cs) in l `sublist_of` listed cs /\ forall p, p ∈ ps -> (st_listener p.2, st_event p.2) ∉ l.
Proof.
  intros Hn. cbn zeta. induction ps as [|p ps [I1 I2]]; [split; [done|]; intros p Hp; by apply elem_of_nil in Hp|]. rewrite fmap_cons. cbn [app listed].
  set (l := listed _) in *. split; [etrans; [apply drop_first_sub|done]|]. intros q Hq. apply elem_of_cons in Hq as [->|Hq].
  - apply drop_first_gone. by eapply sub_nodup.
  - intros H. apply (I2 q Hq). eapply sub_elem; [apply drop_first_sub|exact H].
Qed.

Record CRel (m : multi) (g : registry) : Prop := {
  cr_rel : Rel m g;
  cr_disc : forall r, r ∈ rs g -> is_Some (r_disc r);
  cr_list : listed (m_cont m) = entry <$> rs g
}.
Lemma cstep o m g : contained [o] -> CRel m g -> CRel (multi_step m o).1 (spec_step g o).1.
Proof.
  intros Hc [R D L]. unfold contained in Hc; rewrite Forall_singleton in Hc. constructor; [by apply step_rel| |].
  - destruct o as [c n e cb|c id|c|e|e]; cbn beta iota in Hc; cbn [spec_step fst rs].
    + subst c. destruct (named n (rs g)); cbn [fst rs]; [|done]. intros r Hr. apply elem_of_app in Hr as [Hr|Hr]; [by apply D|]. apply elem_of_list_singleton in Hr as ->. by eexists.
    + intros r Hr. apply elem_of_list_filter in Hr as [_ Hr]. by apply D.
    + intros r Hr. by apply elem_of_nil in Hr.
    + done.
    + intros r Hr. apply elem_of_list_fmap in Hr as (r0 & -> & Hr). destruct (D r0 Hr) as [d E]. case_decide; [cbn; rewrite E; by eexists|by eexists].
  - destruct o as [c n e cb|c id|c|e|e]; cbn beta iota in Hc; cbn [spec_step multi_step fst rs].
    + subst c. unfold multi_on. destruct (named n (rs g)) as [|r l] eqn:En.
      * destruct (m_names m !! n) as [id|] eqn:Em.
        { exfalso. apply (rel_names m g R) in Em as (r & Hr & E & _). exact (named_nil _ _ En r Hr E). }
        cbn [fst rs m_cont listed st_listener st_event]. by rewrite L, fmap_app.
      * assert (Hr : r ∈ named n (rs g)) by (rewrite En; left). apply elem_of_list_filter in Hr as [E Hr].
        assert (Em : m_names m !! n = Some (r_id r)) by (apply (rel_names m g R); eauto). rewrite Em. cbn [fst rs]. exact L.
    + subst c. unfold multi_remove. destruct (Nat.ltb_spec id (length (m_ls m))) as [Hid|Hid].
      2:{ cbn [fst rs]. rewrite filter_id_notin; [exact L|]. intros Hin. apply elem_of_list_fmap in Hin as (r & -> & Hr). apply (rel_ls m g R), lookup_lt_Some in Hr. lia. }
      cbn [m_cont]. destruct (List.find _ (map_to_list (m_names m))) as [[n i]|] eqn:Ef.
      * apply find_some in Ef as [Hin E]. apply elem_of_list_In, elem_of_map_to_list in Hin. cbn [snd] in E. apply Nat.eqb_eq in E as ->.
        apply (rel_names m g R) in Hin as (r & Hr & E1 & E2). destruct (D r Hr) as [d Hd]. pose proof (rel_stats m g R r d Hr Hd) as Hs. rewrite E2 in Hs. rewrite Hs.
        cbn [listed st_listener st_event]. rewrite L. apply drop_first_reg; [apply R|apply R|exists r; done].
      * cbn [listed]. rewrite filter_id_notin; [exact L|]. intros Hin. apply elem_of_list_fmap in Hin as (r & E & Hr).
        assert (Hn : m_names m !! r_name r = Some id) by (apply (rel_names m g R); eauto). apply elem_of_map_to_list, elem_of_list_In in Hn. apply (find_none _ _ Ef) in Hn. cbn [snd] in Hn. by rewrite Nat.eqb_refl in Hn.
    + subst c. unfold multi_remove_all. cbn [m_cont]. destruct (listed_all (map_to_list (m_stats m)) (m_cont m)) as [H1 H2].
      { rewrite L. apply entry_nodup, R. }
      destruct (listed (_ ++ _)) as [|p l]; [done|exfalso].
      assert (Hp : p ∈ listed (m_cont m)) by (eapply sub_elem; [exact H1|left]). rewrite L in Hp. apply elem_of_list_fmap in Hp as (r & -> & Hr).
      destruct (D r Hr) as [d Hd]. pose proof (rel_stats m g R r d Hr Hd) as Hs. apply elem_of_map_to_list in Hs. apply (H2 _ Hs). cbn. left.
    + exact L.
    + unfold multi_discard. cbn [m_cont]. rewrite L, <- list_fmap_compose. apply list_fmap_ext. intros i r _. unfold compose, entry. by case_decide.
Qed.
(** With the container given at every call, the container shows exactly the listeners that are registered, each once, in the order of registration. *)
Theorem C198_container_lists_listeners os : contained os ->
  listed (m_cont (multi_run multi_new os).1) = entry <$> rs (spec_run registry_new os).1.
Proof.
  assert (H : forall os m g, contained os -> CRel m g -> CRel (multi_run m os).1 (spec_run g os).1).
  { clear. induction os as [|o os IH]; intros m g Hc R; [done|]. apply Forall_cons in Hc as [Ho Hc]. cbn [multi_run spec_run].
    pose proof (cstep o m g ltac:(constructor; [exact Ho|constructor]) R) as R'. destruct (multi_step m o) as [m' r1], (spec_step g o) as [g' r2]. cbn [fst] in R'. specialize (IH m' g' Hc R').
    destruct (multi_run m' os), (spec_run g' os). exact IH. }
  intros Hc. apply H; [done|]. constructor; [apply rel_new|intros r Hr; by apply elem_of_nil in Hr|done].
Qed.
Print Assumptions C198_container_lists_listeners.
Example C198_case : let os := [MOn true "l1" "a" 7; MOn true "l2" "a" 8; MOn true "l1" "b" 9; MDiscard "a"; MRemove true 0; MRemoveAll true; MOn true "l2" "c" 8; MOn true "l3" "c" 7; MRemove true 5] in
  contained os /\ listed (m_cont (multi_run multi_new os).1) = [("l2", "c"); ("l3", "c")].
Proof. split; [by repeat constructor|by vm_compute]. Qed.
(** ** C199 (refuted): if some listeners are registered without the container, and every removal is made with it, the container shows the listeners that were registered with it.
    Statistics survive removeAllListeners under their number, and are detached - by name - when the next listener of that number is removed. *)
Definition removals_contained (os : list mop) : Prop := Forall (fun o => match o with MRemove c _ | MRemoveAll c => c = true | _ => True end) os.
Definition with_container (r : reg) : bool := match r_disc r with Some _ => true | None => false end.
Definition C199_statement : Prop := forall os, removals_contained os ->
  listed (m_cont (multi_run multi_new os).1) = entry <$> List.filter with_container (rs (spec_run registry_new os).1).
Theorem C199_mixed_refuted : ~ C199_statement.
Proof.
  intros H. specialize (H [MOn true "l1" "a" 7; MRemoveAll true; MOn false "l2" "a" 8; MOn true "l1" "a" 9; MRemove true 0] ltac:(by repeat constructor)). vm_compute in H. discriminate.
Qed.
Print Assumptions C199_mixed_refuted.
