(** * C77: listeners of the unsafe emitters that call the emitter back. *)
From stdpp Require Import prelude strings gmap.
From Verif Require Import Base UnsafeEmitters_Model UnsafeEmitters_Spec UnsafeEmitters_Proofs Reentrancy_Model.

(** The calls made by an emit itself, not by emits inside its listeners. *)
Definition at_depth (d : nat) (log : list (nat * nat)) : list nat := snd <$> List.filter (fun x => x.1 =? d) log.
(** What the listeners of the events A may do: emit these events, to any depth; register listeners for other events; discard. *)
Definition safe_op (A : gset string) (o : mop) : Prop :=
  match o with MEmit e => e ∈ A | MOn _ _ sub _ => sub ∉ A | MDiscard _ => True | MRemove _ _ | MRemoveAll _ => False end.

Definition ids (e : string) (m : multi) : list nat := default [] (m_subs m !! e).
Definition livein (A : gset string) (m : multi) : Prop := forall e id, e ∈ A -> id ∈ ids e m -> exists cb, m_ls m !! id = Some (Some cb).
Definition cbs (e : string) (m : multi) : list nat := omap (fun id => mjoin (m_ls m !! id)) (ids e m).
Record keep (A : gset string) (s s' : rm) : Prop := {
  k_ids : forall e, e ∈ A -> ids e (rm_m s') = ids e (rm_m s);
  k_buf : forall e b, e ∈ A -> fst <$> rm_buf s !! e = Some b -> fst <$> rm_buf s' !! e = Some b;
  k_ls : forall id cb, m_ls (rm_m s) !! id = Some (Some cb) -> m_ls (rm_m s') !! id = Some (Some cb)
}.
Lemma keep_refl A s : keep A s s. Proof. by constructor. Qed.
Lemma keep_trans A s1 s2 s3 : keep A s1 s2 -> keep A s2 s3 -> keep A s1 s3.
Proof. intros [A1 A2 A3] [B1 B2 B3]. constructor; intros; [rewrite B1, A1 by done; done|by apply B2, A2|by apply B3, A3]. Qed.
Lemma keep_live A s s' : keep A s s' -> livein A (rm_m s) -> livein A (rm_m s').
Proof. intros [A1 A2 A3] L e id He Hi. rewrite A1 in Hi by done. destruct (L e id He Hi) as [cb H]. exists cb. by apply A3. Qed.
Lemma keep_touch A e s : keep A s (r_touch e s).
Proof.
  unfold r_touch. destruct (rm_buf s !! e) eqn:E; [apply keep_refl|]. constructor; cbn; try done. intros e' b He Hb. destruct (decide (e' = e)) as [->|Hne]; [by rewrite E in Hb|by rewrite lookup_insert_ne].
Qed.
Lemma touch_m e s : rm_m (r_touch e s) = rm_m s /\ rm_log (r_touch e s) = rm_log s /\ is_Some (rm_buf (r_touch e s) !! e).
Proof. unfold r_touch. destruct (rm_buf s !! e) eqn:E; cbn; rewrite ?E, ?lookup_insert; eauto. Qed.
Lemma keep_op grow A s o : safe_op A o -> (forall e, o <> MEmit e) -> keep A s (r_op grow s o) /\ rm_log (r_op grow s o) = rm_log s.
Proof.
  intros Ho Hn. destruct o as [c ln sub cb|c id|c|e|e]; cbn in Ho; try done.
  - cbn [r_op]. cbn zeta. destruct (m_names (rm_m s) !! ln) eqn:En; [split; [apply keep_refl|done]|].
    pose proof (keep_touch A sub s) as K. destruct (touch_m sub s) as (T1 & T2 & [[b cap] T3]). set (s1 := r_touch sub s) in *. rewrite T3. cbn [from_option id].
    assert (Hm : forall buf fr lg, (forall e, e ∈ A -> buf !! e = rm_buf s1 !! e) -> keep A s (RM (multi_step (rm_m s) (MOn c ln sub cb)).1 buf fr lg)).
    { intros buf fr lg Hb. cbn [multi_step]. unfold multi_on. rewrite En. cbn. destruct K as [K1 K2 K3]. constructor; cbn.
      - intros e He. unfold ids. cbn. rewrite lookup_insert_ne; [done|]. intros ->. done.
      - intros e b' He Hb'. rewrite Hb by done. by apply K2.
      - intros id x Hx. rewrite lookup_app_l; [done|]. by eapply lookup_lt_Some. }
    case_decide; (split; [|done]); apply Hm; [done|]. intros e He. rewrite lookup_insert_ne; [done|]. intros ->. done.
Qed.
Lemma cbs_keep A s s' e : e ∈ A -> livein A (rm_m s) -> keep A s s' -> cbs e (rm_m s') = cbs e (rm_m s).
Proof.
  intros He L [K1 K2 K3]. unfold cbs. rewrite K1 by done. assert (H : forall id, id ∈ ids e (rm_m s) -> m_ls (rm_m s') !! id = m_ls (rm_m s) !! id). { intros id Hi. destruct (L e id He Hi) as [cb Hc]. rewrite Hc. by apply K3. }
  induction (ids e (rm_m s)) as [|x l IH]; [done|]. cbn [omap list_omap]. rewrite (H x) by left. rewrite IH; [done|]. intros id Hi. apply H. by right.
Qed.
(** What an emit does, from a state in which the listeners of A are live. *)
Definition emit_ok (A : gset string) (depth : nat) (e : string) (s : rm) (r : rres) : Prop :=
  match r with
  | RDone s' => keep A s s' /\ exists log, rm_log s' = rm_log s ++ log /\ at_depth depth log = cbs e (rm_m s) /\ forall x, x ∈ log -> depth <= x.1
  | RFuel => True
  | RUb _ | RThrow _ => False
  end.
Lemma at_depth_app d l1 l2 : at_depth d (l1 ++ l2) = at_depth d l1 ++ at_depth d l2.
Proof. unfold at_depth. by rewrite List.filter_app, fmap_app. Qed.
Lemma at_depth_deeper d l : (forall x, x ∈ l -> S d <= x.1) -> at_depth d l = [].
Proof. intros H. unfold at_depth. induction l as [|x l IH]; [done|]. cbn. pose proof (H x ltac:(left)). replace (x.1 =? d) with false by (symmetry; apply Nat.eqb_neq; lia). apply IH. intros y Hy. apply H. by right. Qed.
Lemma body_ok grow A (emit : string -> rm -> rres) d os s :
  (forall e s, e ∈ A -> livein A (rm_m s) -> emit_ok A (S d) e s (emit e s)) -> Forall (safe_op A) os -> livein A (rm_m s) ->
  match r_body grow emit os s with
  | RDone s' => keep A s s' /\ exists log, rm_log s' = rm_log s ++ log /\ forall x, x ∈ log -> S d <= x.1
  | RFuel => True | _ => False end.
Proof.
  intros He. revert s. induction os as [|o os IH]; intros s Hs L; [split; [apply keep_refl|]; exists []; rewrite app_nil_r; split; [done|]; by intros x ?%elem_of_nil|].
  apply Forall_cons in Hs as [Ho Hs]. cbn [r_body].
  assert (G : match (match o with MEmit e => emit e s | _ => RDone (r_op grow s o) end) with
    | RDone s' => keep A s s' /\ exists log, rm_log s' = rm_log s ++ log /\ forall x, x ∈ log -> S d <= x.1 | RFuel => True | _ => False end).
  { assert (Hother : (forall e, o <> MEmit e) -> keep A s (r_op grow s o) /\ exists log, rm_log (r_op grow s o) = rm_log s ++ log /\ forall x, x ∈ log -> S d <= x.1).
    { intros Hn. destruct (keep_op grow A s o Ho Hn) as [K E]. split; [done|]. exists []. rewrite app_nil_r. split; [done|]. by intros x ?%elem_of_nil. }
    destruct o as [c ln sub cb|c id|c|e|e]; try (apply Hother; done). specialize (He e s Ho L). destruct (emit e s); try done. destruct He as (K & log & E & _ & H). eauto. }
  destruct (match o with MEmit e => emit e s | _ => RDone (r_op grow s o) end) as [s'| | |]; try done. destruct G as (K & log & E & H).
  specialize (IH s' Hs (keep_live _ _ _ K L)). destruct (r_body grow emit os s') as [s''| | |]; try done. destruct IH as (K' & log' & E' & H'). split; [by eapply keep_trans|]. exists (log ++ log'). rewrite E', E, app_assoc. split; [done|]. intros x [Hx|Hx]%elem_of_app; auto.
Qed.
Lemma loop_ok body grow A (emit : string -> rm -> rres) d e buf k : (forall cb, Forall (safe_op A) (body cb)) ->
  (forall e s, e ∈ A -> livein A (rm_m s) -> emit_ok A (S d) e s (emit e s)) -> e ∈ A ->
  forall i s, livein A (rm_m s) -> fst <$> rm_buf s !! e = Some buf -> i + k = length (ids e (rm_m s)) ->
  match r_loop body grow emit d e buf i k s with
  | RDone s' => keep A s s' /\ exists log, rm_log s' = rm_log s ++ log /\ at_depth d log = omap (fun id => mjoin (m_ls (rm_m s) !! id)) (drop i (ids e (rm_m s))) /\ forall x, x ∈ log -> d <= x.1
  | RFuel => True | _ => False end.
Proof.
  intros Hb He HA. induction k as [|k IH]; intros i s L Hbuf Hlen.
  - cbn. split; [apply keep_refl|]. exists []. rewrite app_nil_r, drop_ge by lia. split_and!; try done. by intros x ?%elem_of_nil.
  - cbn [r_loop]. rewrite decide_True by done. change (default [] (m_subs (rm_m s) !! e)) with (ids e (rm_m s)).
    destruct (lookup_lt_is_Some_2 (ids e (rm_m s)) i ltac:(lia)) as [id Hid]. rewrite Hid. destruct (L e id HA) as [cb Hcb]; [by eapply elem_of_list_lookup_2|]. rewrite Hcb.
    set (s0 := RM (rm_m s) (rm_buf s) (rm_fresh s) (rm_log s ++ [(d, cb)])). assert (K0 : keep A s s0) by (by constructor).
    pose proof (body_ok grow A emit d (body cb) s0 He (Hb cb) L) as HB. destruct (r_body grow emit (body cb) s0) as [s'| | |]; try done. destruct HB as (K & log & E & H).
    rewrite decide_True by (by apply (k_ls _ _ _ K)). pose proof (keep_trans _ _ _ _ K0 K) as K1. specialize (IH (S i) s' (keep_live _ _ _ K1 L)).
    rewrite (k_ids _ _ _ K1 e HA) in IH. specialize (IH (k_buf _ _ _ K1 e buf HA Hbuf) ltac:(lia)). destruct (r_loop body grow emit d e buf (S i) k s') as [s''| | |]; try done.
    destruct IH as (K2 & log' & E' & H1 & H2). split; [by eapply keep_trans|]. exists ([(d, cb)] ++ log ++ log'). cbn [rm_log s0] in E. split; [by rewrite E', E, <-!app_assoc|]. split.
    + rewrite !at_depth_app, (at_depth_deeper d log) by done. rewrite (drop_S _ _ _ Hid). cbn [omap list_omap]. rewrite Hcb. assert (Hone : at_depth d [(d, cb)] = [cb]) by (unfold at_depth; cbn; by rewrite Nat.eqb_refl). rewrite Hone, H1. cbn [mjoin option_join app]. f_equal.
      assert (Hls : forall x, x ∈ drop (S i) (ids e (rm_m s)) -> m_ls (rm_m s') !! x = m_ls (rm_m s) !! x).
      { intros x Hx. destruct (L e x HA) as [cx Hcx]; [rewrite <-(take_drop (S i) (ids e (rm_m s))); apply elem_of_app; by right|]. rewrite Hcx. by apply (k_ls _ _ _ K1). }
      clear -Hls. induction (drop (S i) (ids e (rm_m s))) as [|x l IHl]; [done|]. cbn [omap list_omap]. rewrite (Hls x) by left. rewrite IHl; [done|]. intros y Hy. apply Hls. by right.
    + intros x Hx. apply elem_of_app in Hx as [Hx|Hx]; [apply elem_of_list_singleton in Hx as ->; cbn; lia|]. apply elem_of_app in Hx as [Hx|Hx]; [specialize (H x Hx); lia|auto].
Qed.
Lemma remit_ok body grow A : (forall cb, Forall (safe_op A) (body cb)) -> forall fuel d e s, e ∈ A -> livein A (rm_m s) -> emit_ok A d e s (r_emit body grow fuel d e s).
Proof.
  intros Hb. induction fuel as [|f IH]; intros d e s He L; [done|]. cbn [r_emit]. destruct (touch_m e s) as (T1 & T2 & [[b cap] T3]). pose proof (keep_touch A e s) as K0. set (s0 := r_touch e s) in *.
  set (s1 := RM (multi_emit e (rm_m s0)).1 (rm_buf s0) (rm_fresh s0) (rm_log s0)).
  assert (K1 : keep A s0 s1). { constructor; cbn; try done. intros e' He'. unfold ids. cbn. destruct (decide (e' = e)) as [->|Hne]; [by rewrite lookup_insert|by rewrite lookup_insert_ne]. }
  pose proof (keep_trans _ _ _ _ K0 K1) as K. pose proof (loop_ok body grow A (r_emit body grow f (S d)) d e b (length (ids e (rm_m s1))) Hb (fun e s => IH (S d) e s) He 0 s1 (keep_live _ _ _ K L)) as HL.
  cbn [rm_buf s1] in *. rewrite T3 in *. cbn [fmap option_fmap option_map fst from_option id] in *. specialize (HL eq_refl eq_refl). unfold ids in HL. rewrite drop_0 in HL.
  destruct (r_loop body grow (r_emit body grow f (S d)) d e b 0 (length (default [] (m_subs (rm_m s1) !! e))) s1) as [s'| | |]; try done. destruct HL as (K2 & log & E & H1 & H2).
  split; [by eapply keep_trans|]. exists log. cbn [rm_log s1] in E. rewrite T2 in E. split; [done|]. split; [|done]. rewrite H1. fold (ids e (rm_m s1)). fold (cbs e (rm_m s1)). by apply (cbs_keep A).
Qed.

(** ** C77 *)
(** Whatever was done before (registrations, removals, emits outside of listeners), if the listeners only emit the events A, register listeners for other events or discard, an emit of an
    event of A, nested to any depth, never goes wrong, and itself calls exactly the listeners registered for its event, once each, in order of registration. *)
Theorem C77_reentrant_emit body grow A os e fuel buf fresh : (forall cb, Forall (safe_op A) (body cb)) -> e ∈ A ->
  match r_emit body grow fuel 0 e (rm_new (multi_run multi_new os).1 buf fresh) with
  | RDone s => at_depth 0 (rm_log s) = r_cb <$> of_event e (rs (spec_run registry_new os).1)
  | RFuel => True
  | RUb _ | RThrow _ => False
  end.
Proof.
  intros Hb He. destruct (run_rel os multi_new registry_new rel_new) as [R _]. set (m := (multi_run multi_new os).1) in *. set (g := (spec_run registry_new os).1) in *.
  assert (Hin : forall e, ids e m = r_id <$> of_event e (rs g)) by apply R.
  assert (L : livein A m). { intros e' id _ Hi. rewrite Hin in Hi. apply elem_of_list_fmap in Hi as (r & -> & Hr). apply elem_of_list_filter in Hr as [_ Hr]. exists (r_cb r). by apply R. }
  pose proof (remit_ok body grow A Hb fuel 0 e (rm_new m buf fresh) He L) as H. destruct (r_emit body grow fuel 0 e (rm_new m buf fresh)) as [s| | |]; try done. destruct H as (_ & log & E & H & _). cbn in E. rewrite E, H. cbn [rm_m rm_new].
  unfold cbs. rewrite Hin. assert (Hls : forall r, r ∈ of_event e (rs g) -> m_ls m !! r_id r = Some (Some (r_cb r))) by (intros r Hr; apply elem_of_list_filter in Hr as [_ Hr]; by apply R).
  induction (of_event e (rs g)) as [|r l IH]; [done|]. cbn [fmap list_fmap omap list_omap]. rewrite (Hls r) by left. cbn. f_equal. apply IH. intros x Hx. apply Hls. by right.
Qed.
(** Any other call is dangerous. A listener that registers another one for the event being emitted: the vector moves while it is iterated. *)
Definition demo (b1 : list mop) (cb : nat) : list mop := if cb =? 1 then b1 else [].
Definition went_wrong (r : rres) : bool := match r with RUb _ => true | _ => false end.
Definition dbl (n : nat) : nat := Nat.max 1 (2 * n).
(** The emitter after these registrations, starting from a new one. *)
Definition registered (ons : list mop) : rm := fold_left (r_op dbl) ons (rm_new multi_new ∅ 0).
Definition two : rm := registered [MOn false "l1" "a" 1; MOn false "l2" "a" 2].
Definition three : rm := registered [MOn false "l1" "a" 1; MOn false "l2" "a" 2; MOn false "l3" "a" 3].
Theorem C77_register_inside_refuted : forall fuel, went_wrong (r_emit (demo [MOn false "l4" "a" 4]) dbl (S fuel) 0 "a" two) = true.
Proof. intros fuel. vm_compute. reflexivity. Qed.
(** Removing a listener of the event being emitted, whichever of them: the iterators run past the end (and a later listener is skipped). *)
Theorem C77_remove_inside_refuted : forall fuel id, id < 3 -> went_wrong (r_emit (demo [MRemove false id]) dbl (S fuel) 0 "a" three) = true.
Proof. intros fuel [|[|[|id]]] H; [vm_compute; reflexivity..|lia]. Qed.
(** A case within the theorem: a listener of "a" that emits "b" and registers one for "c"; and one of "b" that discards. *)
Definition nest_body (cb : nat) : list mop := if cb =? 1 then [MEmit "b"; MOn true "l9" "c" 9; MEmit "b"] else if cb =? 4 then [MDiscard "b"] else [].
Example C77_case : (forall cb, Forall (safe_op {["a"; "b"]}) (nest_body cb)) /\
  (exists s, r_emit nest_body dbl 5 0 "a" (rm_new (multi_run multi_new [MOn false "l1" "a" 1; MOn true "l2" "a" 2; MOn true "l4" "b" 4]).1 ∅ 0) = RDone s /\ rm_log s = [(0, 1); (1, 4); (1, 4); (0, 2)]).
Proof.
  split; [|eexists; split; [vm_compute; reflexivity|reflexivity]]. intros cb. unfold nest_body. destruct (cb =? 1); [|destruct (cb =? 4)]; repeat constructor; cbn; try set_solver.
Qed.

(** ** The single-listener emitter. *)
Definition s_safe (o : mop) : Prop := match o with MEmit _ | MDiscard _ | MOn _ _ _ _ => True | MRemove _ _ | MRemoveAll _ => False end.
Definition s_good (s : single) (cb : nat) : Prop := s_reg s = true /\ s_cb s = Some cb /\ (s_wrap s = WPlain \/ (s_wrap s = WStats /\ is_Some (s_stats s))).
Lemma s_remit_ok body cb : (forall cb, Forall s_safe (body cb)) -> forall fuel d e s, s_good (r1_s s) cb ->
  match s_emit body fuel d e s with
  | SDone s' => s_good (r1_s s') cb /\ s_sub (r1_s s') = s_sub (r1_s s) /\ s_wrap (r1_s s') = s_wrap (r1_s s) /\ exists log, r1_log s' = r1_log s ++ log /\ at_depth d log = (if decide (e = s_sub (r1_s s)) then [cb] else []) /\ forall x, x ∈ log -> d <= x.1
  | SFuel => True | _ => False end.
Proof.
  intros Hb. induction fuel as [|f IH]; intros d e s G; [done|]. cbn [s_emit]. destruct G as (G1 & G2 & G3). unfold single_emit. rewrite G1. case_bool_decide as Ee; cbn [negb orb].
  2:{ split; [by split_and!|]. split; [done|]. split; [done|]. exists []. rewrite app_nil_r. rewrite decide_False by done. split_and!; try done. by intros x ?%elem_of_nil. }
  rewrite decide_True by done.
  assert (Hm : (match s_wrap (r1_s s) with WNone => SBad | WPlain => match s_cb (r1_s s) with Some cb => SCalled cb | None => SNoop end
      | WStats => match s_stats (r1_s s) with None => SNullStats | Some _ => match s_cb (r1_s s) with Some cb => SCalled cb | None => SNoop end end end) = SCalled cb).
  { rewrite G2. destruct G3 as [->|[-> [x ->]]]; done. }
  rewrite Hm.
  assert (B : forall os s, Forall s_safe os -> s_good (r1_s s) cb -> match s_body (s_emit body f (S d)) os s with
    | SDone s' => s_good (r1_s s') cb /\ s_sub (r1_s s') = s_sub (r1_s s) /\ s_wrap (r1_s s') = s_wrap (r1_s s) /\ exists log, r1_log s' = r1_log s ++ log /\ forall x, x ∈ log -> S d <= x.1 | SFuel => True | _ => False end).
  { clear -IH. induction os as [|o os IHos]; intros s Hs G; [split; [done|]; split; [done|]; split; [done|]; exists []; rewrite app_nil_r; split; [done|]; by intros x ?%elem_of_nil|].
    apply Forall_cons in Hs as [Ho Hs]. cbn [s_body].
    assert (H : match (match o with MEmit e => s_emit body f (S d) e s | _ => SDone (RS (single_step (r1_s s) o).1 (r1_log s)) end) with
      | SDone s' => s_good (r1_s s') cb /\ s_sub (r1_s s') = s_sub (r1_s s) /\ s_wrap (r1_s s') = s_wrap (r1_s s) /\ exists log, r1_log s' = r1_log s ++ log /\ forall x, x ∈ log -> S d <= x.1 | SFuel => True | _ => False end).
    { destruct o as [c ln sub x|c id|c|e|e]; cbn in Ho; try done.
      - cbn. unfold single_on. destruct G as (G1 & G2 & G3). rewrite G1. cbn. split; [|split; [done|]; split; [done|]; exists []; rewrite app_nil_r; split; [done|]; by intros y ?%elem_of_nil].
        split_and!; try done.
      - specialize (IH (S d) e s G). destruct (s_emit body f (S d) e s); try done. destruct IH as (I1 & I2 & I5 & log & I3 & _ & I4). eauto 10.
      - cbn. unfold single_discard. destruct G as (G1 & G2 & G3). case_bool_decide; cbn; (split; [|split; [done|]; split; [done|]; exists []; rewrite app_nil_r; split; [done|]; by intros y ?%elem_of_nil]); [|done]. split_and!; cbn; try done. destruct G3 as [->|[-> [x ->]]]; [by left|right]. split; [done|]. by eexists. }
    destruct (match o with MEmit e => _ | _ => _ end) as [s'| | |]; try done. destruct H as (H1 & H2 & H5 & log & H3 & H4). specialize (IHos s' Hs H1). destruct (s_body _ os s') as [s''| | |]; try done.
    destruct IHos as (J1 & J2 & J5 & log' & J3 & J4). split; [done|]. split; [congruence|]. split; [congruence|]. exists (log ++ log'). rewrite J3, H3, app_assoc. split; [done|]. intros x [Hx|Hx]%elem_of_app; auto. }
  specialize (B (body cb) (RS (r1_s s) (r1_log s ++ [(d, cb)])) (Hb cb)). cbn [r1_s r1_log] in B. specialize (B ltac:(by split_and!)).
  destruct (s_body _ (body cb) _) as [s'| | |]; try done. destruct B as ((B1 & B2 & B3) & B4 & B7 & log & B5 & B6). rewrite decide_True by done.
  assert (W : s_wrap (r1_s s) = WStats -> is_Some (s_stats (r1_s s'))).
  { rewrite <-B7. destruct B3 as [->|[-> H]]; done. }
  assert (R : s_good (r1_s s') cb /\ s_sub (r1_s s') = s_sub (r1_s s) /\ s_wrap (r1_s s') = s_wrap (r1_s s) /\ exists log, r1_log s' = r1_log s ++ log /\ at_depth d log = [cb] /\ forall x, x ∈ log -> d <= x.1).
  { split; [by split_and!|]. split; [done|]. split; [done|]. exists ([(d, cb)] ++ log). rewrite B5, <-app_assoc. split; [done|]. rewrite at_depth_app, (at_depth_deeper d log) by done. split; [unfold at_depth; cbn; by rewrite Nat.eqb_refl|].
    intros x [Hx|Hx]%elem_of_app; [apply elem_of_list_singleton in Hx as ->; cbn; lia|specialize (B6 x Hx); lia]. }
  destruct (s_wrap (r1_s s)); [exact R|exact R|]. destruct (W eq_refl) as [st ->]. exact R.
Qed.
(** Whatever was done before, if the listener only emits (to any depth), tries to register or discards, an emit never goes wrong and itself calls the listener exactly if it is registered for the event. *)
Theorem C77_single_reentrant_emit body os e fuel : (forall cb, Forall s_safe (body cb)) ->
  match s_emit body fuel 0 e (RS (single_run single_new os).1 []) with
  | SDone s => at_depth 0 (r1_log s) = match (sspec_run None os).1 with Some (e', cb) => if decide (e = e') then [cb] else [] | None => [] end
  | SFuel => True
  | SUb _ | SThrow1 _ => False
  end.
Proof.
  intros Hb. destruct (srun_rel os single_new None eq_refl) as [R _]. destruct ((sspec_run None os).1) as [[e' cb]|]; cbn in R.
  - destruct R as (R1 & R2 & R3 & R4). pose proof (s_remit_ok body cb Hb fuel 0 e (RS (single_run single_new os).1 [])) as H. cbn [r1_s r1_log] in H. specialize (H ltac:(by split_and!)).
    destruct (s_emit body fuel 0 e _) as [s| | |]; try done. destruct H as (_ & _ & _ & log & -> & H & _). cbn [app]. by rewrite H, R2.
  - destruct fuel; [done|]. cbn [s_emit]. unfold single_emit. cbn [r1_s]. rewrite R. rewrite orb_true_r. done.
Qed.
(** A listener that removes itself: the function being executed is replaced, and with statistics a null pointer is used after it returns. *)
Definition s_wrong (r : sres) : bool := match r with SUb _ => true | _ => false end.
Theorem C77_single_remove_inside_refuted : forall fuel cont, s_wrong (s_emit (demo [MRemove cont 0]) (S fuel) 0 "a" (RS (single_run single_new [MOn cont "l" "a" 1]).1 [])) = true.
Proof. intros fuel []; vm_compute; reflexivity. Qed.
(** A case within the theorem. *)
Example C77_single_case : exists s, s_emit (fun cb => [MDiscard "a"; MEmit "b"; MOn true "m" "b" 5]) 3 0 "a" (RS (single_run single_new [MOn true "l" "a" 1]).1 []) = SDone s /\ r1_log s = [(0, 1)].
Proof. eexists. split; [vm_compute; reflexivity|reflexivity]. Qed.
Print Assumptions C77_reentrant_emit.
Print Assumptions C77_register_inside_refuted.
Print Assumptions C77_remove_inside_refuted.
Print Assumptions C77_single_reentrant_emit.
Print Assumptions C77_single_remove_inside_refuted.
