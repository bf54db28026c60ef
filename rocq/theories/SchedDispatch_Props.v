(** * C180, C181: scheduled functions and events of an event loop provider reach the objects they are meant for. *)
From stdpp Require Import prelude strings gmap.
From Coq Require Import ZArith Lia ZifyBool.
From Verif Require Import SafeEmitter_Model UnsafeEmitters_Model Subscriber_Model ElDispatch_Model ElDispatch_Props SchedDispatch_Model.
Local Open Scope string_scope.
Local Open Scope list_scope.

(** ** Specification: the names that have a subscriber, and the name of the scheduler. *)
Record xspec := XSpec { xs_subs : list string; xs_sched : option string }.
Definition xs_call (a : xspec) (c : sdcall) : xspec * list owner :=
  match c with
  | XGet n => (if decide (n ∈ xs_subs a \/ xs_sched a = Some n) then a else XSpec (xs_subs a ++ [n]) (xs_sched a), [])
  | XSched n => (match xs_sched a with Some _ => a | None => XSpec (filter (fun m => m <> n) (xs_subs a)) (Some n) end, [])
  | XEvent n => (a, if decide (xs_sched a = Some n) then [OExec] else if decide (n ∈ xs_subs a) then [OSub n] else [])
  | XTask => (a, match xs_sched a with Some _ => [OExec] | None => [] end)
  end.
Fixpoint xs_calls (a : xspec) (cs : list sdcall) : list (list owner) :=
  match cs with [] => [] | c :: cs' => (xs_call a c).2 :: xs_calls (xs_call a c).1 cs' end.
(** getScheduler is not called with a name that has a subscriber already. *)
Fixpoint fresh_sched (seen : list string) (cs : list sdcall) : Prop :=
  match cs with
  | [] => True
  | XGet n :: cs' => fresh_sched (n :: seen) cs'
  | XSched n :: cs' => n ∉ seen /\ fresh_sched seen cs'
  | _ :: cs' => fresh_sched seen cs'
  end.

(** ** Proofs *)
Fixpoint regs (off : nat) (objs : list sobj) : list (string * nat) :=
  match objs with [] => [] | o :: r => (if so_alive o then [(ext (so_name o), off)] else []) ++ regs (S off) r end.
Lemma regs_app off l o : so_alive o = true -> regs off (l ++ [o]) = regs off l ++ [(ext (so_name o), off + length l)].
Proof. intros Ho. revert off; induction l as [|x l IH]; intros off; cbn; [by rewrite Ho, Nat.add_0_r|]. rewrite IH, <-app_assoc. do 3 f_equal. by rewrite Nat.add_succ_r. Qed.
Lemma regs_elem off l x i : (x, i) ∈ regs off l <-> exists j o, l !! j = Some o /\ so_alive o = true /\ x = ext (so_name o) /\ i = off + j.
Proof.
  revert off; induction l as [|o l IH]; intros off; cbn; [split; [by intros ?%elem_of_nil|intros (j & o & H & _); done]|]. rewrite elem_of_app, IH. split.
  - intros [H|(j & o' & H1 & H2 & -> & ->)].
    + destruct (so_alive o) eqn:Ea; [|by apply elem_of_nil in H]. apply elem_of_list_singleton in H. injection H as -> ->. exists 0, o. split_and!; [done..|lia].
    + exists (S j), o'. split_and!; [done..|lia].
  - intros ([|j] & o' & H1 & H2 & -> & ->); cbn in H1.
    + injection H1 as ->. left. rewrite H2, Nat.add_0_r. constructor.
    + right. exists j, o'. split_and!; [done..|lia].
Qed.
Lemma filter_none {A} (P : A -> Prop) `{forall x, Decision (P x)} (l : list A) : (forall x, x ∈ l -> ~ P x) -> filter P l = [].
Proof. induction l as [|x l IH]; intros Hl; [done|]. rewrite filter_cons_False; [apply IH; intros y Hy; apply Hl; by constructor|apply Hl; constructor]. Qed.
Definition uniq (objs : list sobj) : Prop := forall i j o p, objs !! i = Some o -> objs !! j = Some p -> so_alive o = true -> so_alive p = true -> so_name o = so_name p -> i = j.
Lemma regs_reach off l n i o : uniq l -> l !! i = Some o -> so_alive o = true -> so_name o = n -> snd <$> filter (fun p => p.1 = ext n) (regs off l) = [off + i].
Proof.
  revert off i; induction l as [|x l IH]; intros off i U Hi Ho Hn; [done|].
  assert (U' : uniq l) by (intros a b p q Ha Hb; intros; assert (S a = S b) by (eapply (U (S a) (S b)); eauto); lia).
  cbn [regs]. rewrite filter_app, fmap_app. destruct i as [|i]; cbn in Hi.
  - injection Hi as ->. rewrite Ho. cbn [app]. rewrite filter_cons_True by (cbn; by rewrite Hn). rewrite filter_nil. cbn.
    rewrite Nat.add_0_r. f_equal. rewrite filter_none; [done|]. intros [y j] Hy. cbn. intros Hx. apply regs_elem in Hy as (k & p & Hk & Hp & Hq & _).
    assert (0 = S k) by (eapply (U 0 (S k)); eauto; subst; by apply ext_inj). lia.
  - rewrite (IH (S off) i) by done. rewrite Nat.add_succ_r. destruct (so_alive x) eqn:Ex; [|done]. rewrite filter_cons_False; [done|].
    cbn. intros E. apply ext_inj in E. assert (0 = S i) by (eapply (U 0 (S i)); eauto; congruence). lia.
Qed.
Lemma regs_none off l n : (forall i o, l !! i = Some o -> so_alive o = true -> so_name o <> n) -> snd <$> filter (fun p => p.1 = ext n) (regs off l) = [].
Proof. intros H. rewrite filter_none; [done|]. intros [y j] Hy E. cbn in E. apply regs_elem in Hy as (k & p & Hk & Hp & -> & _). apply ext_inj in E. by eapply H. Qed.
Definition dead (o : sobj) : sobj := Sobj (so_name o) (so_exec o) (so_id o) false.
Notation pr := (fun l : listener => (l_sub l, l_cb l)).
Notation idok := (fun l : listener => l_id l = (Z.of_nat (l_cb l) + 1)%Z).
Lemma erase_regs objs : forall off ls i o, pr <$> ls = regs off objs -> Forall idok ls -> objs !! i = Some o -> so_alive o = true ->
  exists ls', erase_id (Z.of_nat (off + i) + 1) ls = Some ls' /\ pr <$> ls' = regs off (<[i := dead o]> objs) /\ (forall l, l ∈ ls' -> l ∈ ls).
Proof.
  induction objs as [|x objs IH]; intros off ls i o Hl Hf Hi Ho; [done|]. destruct i as [|i]; cbn in Hi.
  - injection Hi as ->. cbn [regs] in Hl. rewrite Ho in Hl. destruct ls as [|l ls]; [done|]. cbn in Hl. injection Hl as H1 H2 H3. apply Forall_cons in Hf as [Hf1 Hf2]. exists ls. cbn.
    rewrite Hf1, H2, Nat.add_0_r, Z.eqb_refl. split_and!; [done|done|]. intros; by constructor.
  - cbn [regs] in Hl. destruct (so_alive x) eqn:Ex.
    + destruct ls as [|l ls]; [done|]. cbn in Hl. injection Hl as H1 H2 H3. apply Forall_cons in Hf as [Hf1 Hf2].
      destruct (IH (S off) ls i o H3 Hf2 Hi Ho) as (ls' & E1 & E2 & E3). exists (l :: ls'). cbn. rewrite Hf1, H2, Ex.
      replace (_ =? _)%Z with false by lia. replace (off + S i) with (S off + i) by lia. rewrite E1. split_and!; [done|cbn; by rewrite H1, E2|].
      intros y Hy. apply elem_of_cons in Hy as [->|Hy]; [constructor|]. constructor. by apply E3.
    + cbn in Hl. destruct (IH (S off) ls i o Hl Hf Hi Ho) as (ls' & E1 & E2 & E3). exists ls'. cbn. rewrite Ex. replace (off + S i) with (S off + i) by lia. by split_and!.
Qed.

Record sinv (s : sdst) : Prop := {
  iv_x : XR (sd_ext s) (regs 0 (sd_objs s));
  iv_map : forall n i, sd_map s !! n = Some i <-> exists o, sd_objs s !! i = Some o /\ so_alive o = true /\ so_name o = n;
  iv_e : match sd_ext s with
         | ESafe e => e_last e = Z.of_nat (length (sd_objs s)) /\ Forall idok (e_ls e) /\ (forall i o, sd_objs s !! i = Some o -> so_id o = (Z.of_nat i + 1)%Z)
         | EMulti _ => True
         | ESingle _ => False
         end;
  iv_t : sd_threw s = false
}.
Lemma sinv_uniq s : sinv s -> uniq (sd_objs s).
Proof.
  intros I i j o p Hi Hj Ho Hp E. assert (A : sd_map s !! so_name o = Some i) by (apply (iv_map _ I); eauto). assert (B : sd_map s !! so_name o = Some j) by (apply (iv_map _ I); eauto). congruence.
Qed.
Lemma u32_small z : (0 <= z < 4294967296)%Z -> u32 z = z.
Proof. intros H. unfold u32. by apply Z.mod_small. Qed.
Lemma snoc_lookup {A} (l : list A) x i y : (l ++ [x]) !! i = Some y <-> (l !! i = Some y \/ (i = length l /\ y = x)).
Proof. rewrite lookup_app_Some, list_lookup_singleton_Some. split; [intros [H|(H1 & H2 & ->)]; [by left|right; split; [lia|done]]|intros [H|[-> ->]]; [by left|right; split; [lia|split; [lia|done]]]]. Qed.
(** Creation under a fresh name. *)
Lemma create_fresh s n b : sinv s -> sd_map s !! n = None -> (Z.of_nat (length (sd_objs s)) < 4294967295)%Z ->
  sinv (sd_create s n b) /\ sd_map (sd_create s n b) = <[n := length (sd_objs s)]> (sd_map s) /\ (exists id, sd_objs (sd_create s n b) = sd_objs s ++ [Sobj n b id true]) /\ sd_sched (sd_create s n b) = sd_sched s.
Proof.
  intros I Hn Hl. unfold sd_create.
  assert (Hx : ext n ∉ (regs 0 (sd_objs s)).*1).
  { intros H. apply elem_of_list_fmap in H as ([y j] & Hy & H). cbn in Hy. subst y. apply regs_elem in H as (k & p & Hk & Hp & E & _). apply ext_inj in E. subst n.
    assert (sd_map s !! so_name p = Some k) by (apply (iv_map _ I); eauto). congruence. }
  pose proof (xr_on (sd_cont s) (ext n) (length (sd_objs s)) (sd_ext s) _ (iv_x _ I) Hx) as X.
  destruct (em_on (sd_cont s) (ext n) (ext n) (length (sd_objs s)) (sd_ext s)) as [e id] eqn:Eo. cbn [fst] in X. split_and!; [|done|by exists id|done].
  constructor; cbn [sd_ext sd_objs sd_map sd_threw].
  - by rewrite regs_app by done.
  - intros m i. rewrite lookup_insert_Some. setoid_rewrite snoc_lookup. rewrite (iv_map _ I). split.
    + intros [[<- <-]|[Hne (o & H1 & H2 & H3)]]; [eexists; split_and!; [right; by split|done|done]|exists o; split_and!; [by left|done|done]].
    + intros (o & [H1|[-> ->]] & H2 & H3); cbn in *; [|by left]. right. split; [|by exists o]. intros <-. assert (sd_map s !! n = Some i) by (apply (iv_map _ I); eauto). congruence.
  - pose proof (iv_e _ I) as E. destruct (sd_ext s) as [em|mu|si]; cbn [em_on] in Eo.
    + injection Eo as <- <-. destruct E as (E1 & E2 & E3). unfold add_listener. cbn. rewrite E1. rewrite u32_small by lia. rewrite app_length. cbn. split_and!; [lia| |].
      * apply Forall_app. split; [done|]. constructor; [done|constructor].
      * intros i o H. apply snoc_lookup in H as [H|[-> ->]]; [by apply E3|done].
    + destruct (multi_on _ _ _ _ _). injection Eo as <- <-. done.
    + done.
  - apply I.
Qed.
(** getScheduler on a name that is taken, with the safe emitter. *)
Lemma sched_taken s n i o e : sinv s -> sd_ext s = ESafe e -> sd_map s !! n = Some i -> sd_objs s !! i = Some o -> (Z.of_nat (length (sd_objs s)) < 4294967295)%Z ->
  let s2 := sd_destroy (sd_create s n true) i in
  sinv s2 /\ sd_map s2 = <[n := length (sd_objs s)]> (sd_map s) /\ (exists id, sd_objs s2 = <[i := dead o]> (sd_objs s) ++ [Sobj n true id true]) /\ sd_sched s2 = sd_sched s.
Proof.
  intros I Ee Hn Hi Hl. destruct (proj1 (iv_map _ I n i) Hn) as (o' & Hi' & Ha & Hname). assert (o' = o) as -> by congruence.
  pose proof (iv_e _ I) as E. rewrite Ee in E. destruct E as (E1 & E2 & E3). pose proof (iv_x _ I) as X. rewrite Ee in X. cbn in X. destruct X as [X1 X2].
  pose proof (lookup_lt_Some _ _ _ Hi) as Hlt.
  set (nw := Sobj n true (Z.of_nat (length (sd_objs s)) + 1) true).
  assert (Ec : sd_create s n true = Sdst (sd_cont s) (ESafe (add_listener (ext n) false (length (sd_objs s)) e)) (sd_objs s ++ [nw]) (<[n := length (sd_objs s)]> (sd_map s)) (sd_sched s) (sd_threw s)).
  { unfold sd_create. rewrite Ee. cbn [em_on]. unfold add_listener at 2. cbn [e_last log]. rewrite E1. rewrite u32_small by lia. done. }
  assert (P : pr <$> e_ls (add_listener (ext n) false (length (sd_objs s)) e) = regs 0 (sd_objs s ++ [nw])).
  { rewrite regs_app by done. unfold add_listener. cbn [e_ls log]. rewrite fmap_app. f_equal. exact X1. }
  assert (Q : Forall idok (e_ls (add_listener (ext n) false (length (sd_objs s)) e))).
  { unfold add_listener. cbn [e_ls log]. rewrite E1. rewrite u32_small by lia. apply Forall_app. split; [done|]. constructor; [done|constructor]. }
  assert (Hi2 : (sd_objs s ++ [nw]) !! i = Some o) by (by apply lookup_app_l_Some).
  destruct (erase_regs _ 0 _ i o P Q Hi2 Ha) as (ls' & Er & Ep & Es). cbn [Nat.add] in Er.
  assert (Ei : <[i := dead o]> (sd_objs s ++ [nw]) = <[i := dead o]> (sd_objs s) ++ [nw]) by (by apply insert_app_l).
  cbn zeta. rewrite Ec. unfold sd_destroy. cbn [sd_objs]. rewrite Hi2. cbn [sd_cont sd_ext em_remove]. unfold remove_listener. rewrite (E3 i o Hi), Er. cbn [sd_map sd_objs sd_sched sd_threw].
  assert (Ed : Sobj (so_name o) (so_exec o) (Z.of_nat i + 1) false = dead o) by (unfold dead; by rewrite (E3 i o Hi)). rewrite Ed, Ei. split_and!; [|done|by eexists|done].
  constructor; cbn [sd_ext sd_objs sd_map sd_threw].
  - cbn [XR]. cbn [log set_ls e_ls]. rewrite Ei in Ep. split; [exact Ep|]. apply Forall_forall. intros l Hll. apply Es in Hll. unfold add_listener in Hll. cbn [log e_ls] in Hll.
    apply elem_of_app in Hll as [Hll|Hll]; [by apply (proj1 (Forall_forall _ _) X2)|]. by apply elem_of_list_singleton in Hll as ->.
  - intros m j. rewrite lookup_insert_Some. setoid_rewrite snoc_lookup. rewrite insert_length. rewrite (iv_map _ I). split.
    + intros [[<- <-]|[Hne (p & H1 & H2 & H3)]]; [exists nw; split_and!; [by right|done|done]|]. exists p. split_and!; [|done|done]. left.
      rewrite list_lookup_insert_ne; [done|]. intros ->. congruence.
    + intros (p & [H1|[-> ->]] & H2 & H3); cbn in *; [|by left]. right. apply list_lookup_insert_Some in H1 as [(<- & <- & _)|[Hne Hp]]; [done|].
      split; [|by exists p]. intros <-. apply Hne. eapply (sinv_uniq s I i j o p); eauto; congruence.
  - cbn [log set_ls e_last e_ls add_listener]. rewrite E1, u32_small by lia. rewrite app_length, insert_length. cbn. split_and!; [lia| |].
    + apply Forall_forall. intros l Hll. apply Es in Hll. by apply (proj1 (Forall_forall _ _) Q) in Hll.
    + intros j p H. apply snoc_lookup in H as [H|[-> ->]]; [|by rewrite insert_length].
      apply list_lookup_insert_Some in H as [(<- & <- & _)|[Hne Hp]]; [cbn; by apply E3|by apply E3].
  - apply I.
Qed.
Lemma sinv_ext s e : sinv s -> XR e (regs 0 (sd_objs s)) -> (match sd_ext s, e with ESafe a, ESafe b => e_last b = e_last a /\ e_ls b = e_ls a | EMulti _, EMulti _ => True | _, _ => False end) ->
  sinv (Sdst (sd_cont s) e (sd_objs s) (sd_map s) (sd_sched s) (sd_threw s)).
Proof.
  intros I X H. pose proof (iv_e _ I) as E. constructor; cbn; [done|apply I| |apply I]. destruct (sd_ext s) as [a| |], e as [b| |]; try done. destruct H as [-> ->]. exact E.
Qed.

(** ** The relation with the specification *)
Record srel (s : sdst) (a : xspec) : Prop := {
  sr_sched : xs_sched a = sd_sched s;
  sr_subs : forall n, n ∈ xs_subs a <-> exists i o, sd_map s !! n = Some i /\ sd_objs s !! i = Some o /\ so_exec o = false;
  sr_exec : forall n, sd_sched s = Some n <-> exists i o, sd_map s !! n = Some i /\ sd_objs s !! i = Some o /\ so_exec o = true
}.
Lemma emit_safe_same ev e : Forall (fun l => l_once l = false) (e_ls e) -> (em_emit ev (ESafe e)).1 = ESafe e.
Proof.
  intros Ho. cbn. f_equal. assert (Ef : List.filter (fun l => negb (bool_decide (l_sub l = ev) && l_once l)) (e_ls e) = e_ls e).
  { induction Ho as [|l ls Hl Ho IH]; [done|]. cbn. rewrite Hl, andb_false_r. cbn. by f_equal. }
  rewrite Ef. by destruct e.
Qed.
Lemma emit_step s a n : sinv s -> srel s a ->
  let r := sd_emit s n in
  sinv r.1 /\ srel r.1 a /\ length (sd_objs r.1) = length (sd_objs s) /\ sd_map r.1 = sd_map s /\ sd_sched r.1 = sd_sched s /\ (match sd_ext s, sd_ext r.1 with ESafe _, ESafe _ => True | EMulti _, EMulti _ => True | _, _ => False end) /\
  r.2 = (if decide (xs_sched a = Some n) then [OExec] else if decide (n ∈ xs_subs a) then [OSub n] else []).
Proof.
  intros I R. cbn zeta. unfold sd_emit. pose proof (xr_emit (ext n) (sd_ext s) _ (iv_x _ I)) as [X E].
  pose proof (iv_e _ I) as Ie.
  assert (M : match sd_ext s, (em_emit (ext n) (sd_ext s)).1 with ESafe x, ESafe y => e_last y = e_last x /\ e_ls y = e_ls x | EMulti _, EMulti _ => True | _, _ => False end).
  { pose proof (iv_x _ I) as X0. destruct (sd_ext s) as [em|mu|si]; [|by cbn [em_emit]; destruct (multi_emit (ext n) mu)|done]. rewrite emit_safe_same; [done|apply X0]. }
  destruct (em_emit (ext n) (sd_ext s)) as [e r]. cbn [fst snd] in *. subst r. split_and!; try done.
  - by apply sinv_ext.
  - destruct R. by constructor.
  - cbn. destruct (sd_ext s), e; try done.
  - cbn [default]. destruct (sd_map s !! n) as [i|] eqn:En.
    + destruct (proj1 (iv_map _ I n i) En) as (o & Hi & Ha & Hname). rewrite (regs_reach 0 _ n i o (sinv_uniq s I) Hi Ha Hname). cbn. unfold owner_of. rewrite Hi. destruct o as [m b id al]. cbn in *. subst al m.
      destruct b.
      * rewrite decide_True; [done|]. rewrite (sr_sched _ _ R). apply (sr_exec _ _ R). eauto.
      * rewrite decide_False. 2:{ rewrite (sr_sched _ _ R), (sr_exec _ _ R). intros (j & p & A & B & C). rewrite En in A. injection A as <-. rewrite Hi in B. injection B as <-. done. }
        rewrite decide_True; [done|]. apply (sr_subs _ _ R). eauto.
    + rewrite regs_none. 2:{ intros i o Hi Ha Hne. assert (sd_map s !! n = Some i) by (apply (iv_map _ I); eauto). congruence. }
      rewrite !decide_False; [done| |]; [rewrite (sr_subs _ _ R)|rewrite (sr_sched _ _ R), (sr_exec _ _ R)]; intros (j & p & A & _); congruence.
Qed.
Lemma kind_update (map : gmap string nat) (objs objs1 : list sobj) n nw m b :
  (forall m i, map !! m = Some i -> i < length objs) -> length objs1 = length objs -> (forall i : nat, so_exec <$> objs1 !! i = so_exec <$> objs !! i) ->
  (exists i o, <[n := length objs]> map !! m = Some i /\ (objs1 ++ [nw]) !! i = Some o /\ so_exec o = b) <->
  (m = n /\ so_exec nw = b) \/ (m <> n /\ exists i o, map !! m = Some i /\ objs !! i = Some o /\ so_exec o = b).
Proof.
  intros Hm Hl He. setoid_rewrite lookup_insert_Some. setoid_rewrite snoc_lookup. split.
  - intros (i & o & [[<- <-]|[Hne Hi]] & [Ho|[Hi' ->]] & Hb).
    + apply lookup_lt_Some in Ho. lia.
    + by left.
    + right. split; [done|]. specialize (He i). rewrite Ho in He. destruct (objs !! i) as [p|] eqn:Ep; [|done]. cbn in He. injection He as He. exists i, p. split_and!; [done..|congruence].
    + specialize (Hm m i Hi). lia.
  - intros [[-> Hb]|(Hne & i & o & Hi & Ho & Hb)].
    + exists (length objs), nw. split_and!; [by left|right; by rewrite Hl|done].
    + specialize (He i). rewrite Ho in He. destruct (objs1 !! i) as [p|] eqn:Ep; [|done]. cbn in He. injection He as He. exists i, p. split_and!; [right; by split|by left|congruence].
Qed.
Definition same_kind (a b : emitter) : Prop := match a, b with ESafe _, ESafe _ => True | EMulti _, EMulti _ => True | _, _ => False end.
Lemma map_lt s : sinv s -> forall m i, sd_map s !! m = Some i -> i < length (sd_objs s).
Proof. intros I m i H. apply (iv_map _ I) in H as (o & H & _). by eapply lookup_lt_Some. Qed.
Lemma create_kind s n b : sinv s -> same_kind (sd_ext s) (sd_ext (sd_create s n b)).
Proof. intros I. pose proof (iv_e _ I) as E. unfold sd_create. destruct (sd_ext s); cbn [em_on]; [done| |done]. by destruct (multi_on _ _ _ _ _). Qed.
Lemma destroy_kind s i : same_kind (sd_ext s) (sd_ext s) -> same_kind (sd_ext s) (sd_ext (sd_destroy s i)).
Proof. intros I. unfold sd_destroy. destruct (sd_objs s !! i); [|done]. destruct (sd_ext s) as [e|m|x]; cbn [em_remove]; [|done|done]. by destruct (remove_listener _ _) as [? []]. Qed.
Lemma in_map s a n : sinv s -> srel s a -> (n ∈ xs_subs a \/ xs_sched a = Some n) <-> is_Some (sd_map s !! n).
Proof.
  intros I R. rewrite (sr_sched _ _ R), (sr_exec _ _ R), (sr_subs _ _ R). split.
  - intros [(i & o & -> & _)|(i & o & -> & _)]; done.
  - intros [i Hi]. destruct (proj1 (iv_map _ I n i) Hi) as (o & Ho & _). destruct (so_exec o) eqn:Eo; [right|left]; eauto.
Qed.
Lemma call_step s a c : sinv s -> srel s a -> (Z.of_nat (length (sd_objs s)) < 4294967295)%Z ->
  (forall n, c = XSched n -> n ∈ xs_subs a -> exists e, sd_ext s = ESafe e) ->
  let r := sd_call s c in sinv r.1 /\ srel r.1 (xs_call a c).1 /\ length (sd_objs r.1) <= S (length (sd_objs s)) /\ same_kind (sd_ext s) (sd_ext r.1) /\ r.2 = (xs_call a c).2.
Proof.
  intros I R Hl Hc. cbn zeta. assert (K : same_kind (sd_ext s) (sd_ext s)) by (pose proof (iv_e _ I); by destruct (sd_ext s)).
  destruct c as [n|n|n|]; cbn [sd_call xs_call].
  - cbn [fst snd]. destruct (sd_map s !! n) as [i|] eqn:En.
    + rewrite decide_True by (rewrite (in_map s a n I R); by eexists). split_and!; [done|done|lia|done|done].
    + rewrite decide_False by (rewrite (in_map s a n I R), En; by intros [? ?]).
      destruct (create_fresh s n false I En Hl) as (I' & Em & (id & Eo) & Es). split_and!; [done| |rewrite Eo, app_length; cbn; lia|by apply create_kind|done].
      constructor; cbn [xs_sched xs_subs]; [rewrite Es; apply R| |]; intros m; rewrite Em, Eo, (kind_update _ _ (sd_objs s)) by (done || by apply map_lt); cbn [so_exec].
      * rewrite elem_of_app, elem_of_list_singleton, (sr_subs _ _ R). split; [intros [H| ->]; [|by left]|intros [[-> _]|[_ H]]; [by right|by left]].
        right. split; [|done]. intros ->. destruct H as (i & _ & H & _). congruence.
      * rewrite Es, (sr_exec _ _ R). split; [intros H; right; split; [|done]; intros ->; destruct H as (i & _ & H & _); congruence|intros [[_ H]|[_ H]]; done].
  - cbn [fst snd]. rewrite (sr_sched _ _ R). destruct (sd_sched s) as [q|] eqn:Eq; [split_and!; [done|done|cbn; lia|done|done]|]. cbn [fst snd].
    assert (Hnoexec : forall m i o, sd_map s !! m = Some i -> sd_objs s !! i = Some o -> so_exec o = false).
    { intros m i o A B. destruct (so_exec o) eqn:Eo; [|done]. assert (sd_sched s = Some m) by (apply (sr_exec _ _ R); eauto). congruence. }
    assert (Main : forall s2 objs1 nw, sinv s2 -> sd_map s2 = <[n := length (sd_objs s)]> (sd_map s) -> sd_objs s2 = objs1 ++ [nw] -> so_exec nw = true -> length objs1 = length (sd_objs s) ->
       (forall i : nat, so_exec <$> objs1 !! i = so_exec <$> sd_objs s !! i) -> same_kind (sd_ext s) (sd_ext s2) ->
       let s3 := Sdst (sd_cont s2) (sd_ext s2) (sd_objs s2) (sd_map s2) (Some n) (sd_threw s2) in
       sinv s3 /\ srel s3 (XSpec (filter (fun m => m <> n) (xs_subs a)) (Some n)) /\ length (sd_objs s3) <= S (length (sd_objs s)) /\ same_kind (sd_ext s) (sd_ext s3) /\ @nil owner = []).
    { intros s2 objs1 nw I2 Em Eo En El Ex Ek. cbn zeta. split_and!; [|  |cbn [sd_objs]; rewrite Eo, app_length; cbn; lia|done|done].
      - destruct I2. by constructor.
      - constructor; cbn [xs_sched xs_subs sd_sched sd_map sd_objs]; [done| |]; intros m; rewrite Em, Eo, (kind_update _ (sd_objs s) objs1) by (done || by apply map_lt); rewrite En.
        + rewrite elem_of_list_filter, (sr_subs _ _ R). split; [intros [A B]; by right|intros [[_ H]|[A B]]; [done|by split]].
        + split; [intros [= <-]; by left|intros [[-> _]|[_ (i & o & A & B & C)]]; [done|]]. rewrite (Hnoexec m i o A B) in C. done. }
    destruct (sd_map s !! n) as [i|] eqn:En.
    + destruct (proj1 (iv_map _ I n i) En) as (o & Ho & _).
      assert (He : exists e, sd_ext s = ESafe e) by (apply (Hc n eq_refl); apply (sr_subs _ _ R); exists i, o; split_and!; [done|done|by apply (Hnoexec n i)]). destruct He as [e Ee]. destruct (sched_taken s n i o e I Ee En Ho Hl) as (I2 & Em & (id & Eo) & Es).
      eapply (Main _ _ _ I2 Em Eo); [done|by rewrite insert_length| |].
      * intros j. destruct (decide (i = j)) as [<-|Hj]; [rewrite list_lookup_insert by (by eapply lookup_lt_Some); by rewrite Ho|by rewrite list_lookup_insert_ne].
      * rewrite Ee. pose proof (create_kind s n true I) as K1. rewrite Ee in K1. pose proof (destroy_kind (sd_create s n true) i) as K2. destruct (sd_ext (sd_create s n true)); [|done..]. by apply K2.
    + destruct (create_fresh s n true I En Hl) as (I2 & Em & (id & Eo) & Es). eapply (Main _ _ _ I2 Em Eo); [done..|by apply create_kind].
  - destruct (emit_step s a n I R) as (A & B & C & _ & _ & D & E). split_and!; [done|done|rewrite C; lia|done|done].
  - cbn [fst snd]. rewrite (sr_sched _ _ R). destruct (sd_sched s) as [n|] eqn:Es; [|split_and!; [done|done|cbn; lia|done|done]].
    destruct (emit_step s a n I R) as (A & B & C & _ & _ & D & E). split_and!; [done|done|rewrite C; lia|done|]. rewrite E. by rewrite decide_True by (rewrite (sr_sched _ _ R); done).
Qed.
Lemma calls_spec cs : forall s a seen, sinv s -> srel s a -> (Z.of_nat (length (sd_objs s) + length cs) < 4294967296)%Z -> (forall n, n ∈ xs_subs a -> n ∈ seen) ->
  ((exists e, sd_ext s = ESafe e) \/ fresh_sched seen cs) -> (sd_calls s cs).2 = xs_calls a cs /\ sd_threw (sd_calls s cs).1 = false.
Proof.
  induction cs as [|c cs IH]; intros s a seen I R Hl Hs Hf; [split; [done|apply I]|]. cbn [sd_calls xs_calls].
  destruct (call_step s a c I R) as (I' & R' & Hl' & K & E).
  { cbn in Hl. lia. }
  { intros n -> Hn. destruct Hf as [He|[Hf _]]; [done|]. by destruct Hf; apply Hs. }
  destruct (sd_call s c) as [s' r]. cbn [fst snd] in *. subst r.
  specialize (IH s' (xs_call a c).1 (match c with XGet n => n :: seen | _ => seen end) I' R'). destruct (sd_calls s' cs) as [s'' l]. cbn [fst snd] in *.
  destruct IH as [-> ->]; [cbn in Hl; lia| | |done].
  - destruct c as [n|n|n|]; cbn [xs_call fst]; try done.
    + intros m Hm. case_decide; [right; by apply Hs|]. cbn in Hm. apply elem_of_app in Hm as [Hm|Hm]; [right; by apply Hs|]. apply elem_of_list_singleton in Hm as ->. constructor.
    + destruct (xs_sched a); [done|]. cbn. intros m Hm. apply elem_of_list_filter in Hm as [_ Hm]. by apply Hs.
  - destruct Hf as [[e He]|Hf]; [left; rewrite He in K; by destruct (sd_ext s'); eauto|]. right. destruct c; cbn in Hf; try done. by destruct Hf.
Qed.
Lemma rel_new c k : k <> KSingle -> sinv (sd_new c k) /\ srel (sd_new c k) (XSpec [] None).
Proof.
  intros Hk. split; constructor; cbn; try done.
  - by apply xr_new.
  - intros n i. rewrite lookup_empty. split; [done|]. intros (o & H & _). done.
  - destruct k; cbn; [|done|done]. split_and!; [done|constructor|]. intros i o H. done.
  - intros n. rewrite elem_of_nil. split; [done|]. intros (i & o & H & _). by rewrite lookup_empty in H.
  - intros n. split; [done|]. intros (i & o & H & _). by rewrite lookup_empty in H.
Qed.

(** C180: with the safe emitter (the default), for every history of calls, every event reaches the subscriber of its name and nothing else, and every function handed to the scheduler
    reaches its executor, once; no object that was destroyed is reached, and no destructor throws. With the multi-listener emitter the same holds when getScheduler is not given a name that has a subscriber. *)
Theorem C180_reached c k cs : k = KSafe \/ (k = KMulti /\ fresh_sched [] cs) -> (Z.of_nat (length cs) < 4294967296)%Z ->
  (sd_calls (sd_new c k) cs).2 = xs_calls (XSpec [] None) cs /\ sd_threw (sd_calls (sd_new c k) cs).1 = false.
Proof.
  intros Hk Hl. destruct (rel_new c k) as [I R]; [by destruct Hk as [->|[-> _]]|]. apply (calls_spec cs _ _ [] I R); [done|intros n H; by apply elem_of_nil in H|].
  destruct Hk as [->|[_ H]]; [left; by eexists|by right].
Qed.
Print Assumptions C180_reached.
Lemma xs_sched_stays cs a n : xs_sched a = Some n -> forall i, cs !! i = Some XTask -> xs_calls a cs !! i = Some [OExec].
Proof.
  revert a; induction cs as [|c cs IH]; intros a Ha i Hi; [done|]. destruct i as [|i]; cbn in *.
  - injection Hi as ->. cbn. by rewrite Ha.
  - apply IH; [|done]. destruct c as [m|m|m|]; cbn; try done; [by case_decide|by rewrite Ha].
Qed.
(** In particular: once getScheduler has returned, every function handed to the scheduler is run, whatever is created later. *)
Theorem C180_tasks_run c k cs1 n cs2 i : k = KSafe \/ (k = KMulti /\ fresh_sched [] (cs1 ++ XSched n :: cs2)) -> (Z.of_nat (length (cs1 ++ XSched n :: cs2)) < 4294967296)%Z ->
  cs2 !! i = Some XTask -> (sd_calls (sd_new c k) (cs1 ++ XSched n :: cs2)).2 !! (length cs1 + S i) = Some [OExec].
Proof.
  intros Hk Hl Hi. destruct (C180_reached c k _ Hk Hl) as [-> _]. generalize (XSpec [] None) as a. clear -Hi. induction cs1 as [|x cs1 IH]; intros a; cbn [app length Nat.add xs_calls].
  - cbn. destruct (xs_sched a) eqn:Ea; cbn; by eapply xs_sched_stays.
  - apply IH.
Qed.
Print Assumptions C180_tasks_run.
Example C180_case :
  (sd_calls (sd_new true KSafe) [XEvent "a"; XGet "a"; XGet "b"; XEvent "a"; XTask; XSched "a"; XEvent "a"; XTask; XGet "c"; XSched "d"; XEvent "b"; XEvent "c"; XTask]).2
  = [[]; []; []; [OSub "a"]; []; []; [OExec]; [OExec]; []; []; [OSub "b"]; [OSub "c"]; [OExec]] /\
  fresh_sched [] [XGet "a"; XSched "s"; XTask; XGet "s"; XEvent "a"; XTask] /\
  (sd_calls (sd_new true KMulti) [XGet "a"; XSched "s"; XTask; XGet "s"; XEvent "a"; XTask]).2 = [[]; []; [OExec]; []; [OSub "a"]; [OExec]].
Proof. split_and!; [reflexivity| |reflexivity]. cbn. split; [|done]. rewrite elem_of_list_singleton. done. Qed.

(** C181: with the other emitter types that the constructor accepts the functions handed to the scheduler can be lost, all of them and silently.
    Single-listener emitter: a subscriber, of whatever name, created before the scheduler. Multi-listener emitter: getScheduler with a name that has a subscriber already:
    the executor is not registered because the name is in use, and then the registration is removed with the subscriber. *)
Theorem C181_single_refuted c n m j : n <> m -> (sd_calls (sd_new c KSingle) (XGet n :: XSched m :: replicate j XTask)).2 = replicate (2 + j) [].
Proof.
  intros Hne. set (s := (sd_calls (sd_new c KSingle) [XGet n; XSched m]).1).
  assert (E : forall cs, (sd_calls (sd_new c KSingle) (XGet n :: XSched m :: cs)).2 = [] :: [] :: (sd_calls s cs).2).
  { intros cs. unfold s. cbn [sd_calls]. destruct (sd_call (sd_new c KSingle) (XGet n)) as [s1 r1] eqn:E1. assert (r1 = []) as -> by (cbn in E1; by injection E1).
    destruct (sd_call s1 (XSched m)) as [s2 r2] eqn:E2. assert (r2 = []) as -> by (cbn in E2; destruct (sd_sched s1); by injection E2). cbn [fst snd]. by destruct (sd_calls s2 cs). }
  rewrite E. cbn [Nat.add replicate]. do 2 f_equal.
  assert (T : sd_call s XTask = (s, [])).
  { unfold s, sd_new. cbn [sd_calls sd_call sd_map]. rewrite lookup_empty. unfold sd_create. cbn [sd_ext emitter_new em_on single_on single_new s_reg sd_cont sd_objs length sd_map sd_sched sd_threw fst snd].
    rewrite lookup_insert_ne by done. rewrite lookup_empty. cbn [sd_ext emitter_new em_on single_on single_new s_reg sd_cont sd_objs length sd_map sd_sched sd_threw fst snd].
    unfold sd_emit. cbn [sd_ext em_emit]. unfold single_emit. cbn [s_sub]. rewrite bool_decide_eq_false_2; [done|]. intros H. by apply ext_inj in H. }
  induction j as [|j IH]; [done|]. cbn [replicate sd_calls]. rewrite T. destruct (sd_calls s (replicate j XTask)). cbn in *. by rewrite IH.
Qed.
Print Assumptions C181_single_refuted.
Theorem C181_multi_refuted c n j : (sd_calls (sd_new c KMulti) (XGet n :: XSched n :: replicate j XTask)).2 = replicate (2 + j) [].
Proof.
  set (s := (sd_calls (sd_new c KMulti) [XGet n; XSched n]).1).
  assert (E : forall cs, (sd_calls (sd_new c KMulti) (XGet n :: XSched n :: cs)).2 = [] :: [] :: (sd_calls s cs).2).
  { intros cs. unfold s. cbn [sd_calls]. destruct (sd_call (sd_new c KMulti) (XGet n)) as [s1 r1] eqn:E1. assert (r1 = []) as -> by (cbn in E1; by injection E1).
    destruct (sd_call s1 (XSched n)) as [s2 r2] eqn:E2. assert (r2 = []) as -> by (cbn in E2; destruct (sd_sched s1); by injection E2). cbn [fst snd]. by destruct (sd_calls s2 cs). }
  rewrite E. cbn [Nat.add replicate]. do 2 f_equal.
  assert (S : sd_sched s = Some n /\ exists m, sd_ext s = EMulti m /\ default [] (m_subs m !! ext n) = []).
  { set (M := (multi_on c (ext n) (ext n) 0 multi_new).1).
    assert (M1 : multi_on c (ext n) (ext n) 0 multi_new = (M, 0)) by (unfold M, multi_on; cbn [m_names multi_new]; by rewrite lookup_empty).
    assert (M2 : m_names M !! ext n = Some 0 /\ m_ls M = [Some 0] /\ m_subs M = {[ext n := [0]]}).
    { unfold M, multi_on. cbn [m_names multi_new]. rewrite lookup_empty. cbn [fst m_names m_ls m_subs multi_new length app]. rewrite lookup_empty. split_and!; [apply lookup_insert|done|]. cbn [default]. by rewrite insert_empty. }
    destruct M2 as (M2 & M3 & M4).
    assert (S1 : (sd_call (sd_new c KMulti) (XGet n)).1 = Sdst c (EMulti M) [Sobj n false 0 true] (<[n := 0]> ∅) None false).
    { unfold sd_new. cbn [sd_call sd_map fst]. rewrite lookup_empty. unfold sd_create. cbn [sd_ext emitter_new em_on sd_cont sd_objs length sd_map sd_sched sd_threw app]. by rewrite M1. }
    assert (N1 : forall cb, multi_on c (ext n) (ext n) cb M = (M, 0)) by (intros cb; unfold multi_on; by rewrite M2).
    assert (S2 : s = (sd_call (Sdst c (EMulti M) [Sobj n false 0 true] (<[n := 0]> ∅) None false) (XSched n)).1).
    { unfold s. cbn [sd_calls]. destruct (sd_call (sd_new c KMulti) (XGet n)) as [s1 r1]. cbn [fst] in S1. subst s1. by destruct (sd_call _ (XSched n)). }
    rewrite S2. cbn [sd_call sd_sched sd_map fst]. rewrite lookup_insert. unfold sd_create. cbn [sd_ext em_on sd_cont sd_objs length sd_map sd_sched sd_threw app]. rewrite N1.
    unfold sd_destroy. cbn [sd_objs]. cbn [lookup list_lookup so_id sd_cont sd_ext em_remove sd_objs sd_map sd_sched sd_threw]. split; [done|]. eexists. split; [reflexivity|].
    change (Z.to_nat 0) with 0. unfold multi_remove. rewrite M3. cbn [length]. change (Nat.ltb 0 1) with true. cbv iota. cbn [m_subs]. rewrite M4, map_to_list_singleton. cbn [List.find snd fst].
    rewrite bool_decide_eq_true_2 by constructor. change (UnsafeEmitters_Model.erase_first 0 [0]) with (@nil nat). cbn [m_subs]. by rewrite delete_singleton, lookup_empty. }
  clear E. generalize dependent s. induction j as [|j IH]; intros s (Hs & m & Hm & Hd); [done|]. cbn [replicate sd_calls sd_call]. rewrite Hs. unfold sd_emit. rewrite Hm. cbn [em_emit].
  unfold multi_emit. rewrite Hd. cbn [call_all rev default fmap list_fmap].
  set (s' := Sdst _ _ _ _ _ _). specialize (IH s'). destruct (sd_calls s' (replicate j XTask)) as [s2 l]. cbn [snd] in *. f_equal. apply IH. split; [done|]. eexists. split; [reflexivity|]. cbn [m_subs]. by rewrite lookup_insert.
Qed.
Print Assumptions C181_multi_refuted.
