(** * C37 - C40: configuration environments. *)
From Coq Require Import Ascii.
From stdpp Require Import prelude strings gmap.
From Verif Require Import Config_Model.
Local Open Scope string_scope.
Local Open Scope list_scope.

(** ** Specification: the latest of the writes that satisfy [p]. *)
Fixpoint latest {A} (p : A -> bool) (ws : list A) : option A :=
  match ws with
  | [] => None
  | w :: ws' => match latest p ws' with Some x => Some x | None => if p w then Some w else None end
  end.
(** Written with the type of [d]; to the same (root, key); to the same key, whatever the root. *)
Definition same_type (d : pval) (w : string * string * pval) : bool := bool_decide (type_of w.2 = type_of d).
Definition same_place (key root : string) (w : string * string * pval) : bool := bool_decide (w.1.1 = key /\ w.1.2 = root).
Definition same_key (key : string) (w : string * string * pval) : bool := bool_decide (w.1.1 = key).
(** What get must return: the latest value and true, or the default and false. *)
Definition answer (o : option (string * string * pval)) (d : pval) : pval * bool := match o with Some w => (w.2, true) | None => (d, false) end.

Lemma latest_snoc {A} (p : A -> bool) ws w : latest p (ws ++ [w]) = if p w then Some w else latest p ws.
Proof. induction ws as [|x ws IH]; cbn; [done|]. rewrite IH. by destruct (p w). Qed.

Lemma cenv_get_set e key root v key' root' d :
  cenv_get (cenv_set e key root v) key' root' d =
  if decide (type_of v = type_of d /\ full_key key root = full_key key' root') then (v, true) else cenv_get e key' root' d.
Proof.
  destruct v, d; cbn; unfold set_property, get_property; (rewrite decide_False by (intros [? _]; done); done) ||
  (destruct (decide (full_key key root = full_key key' root')) as [E|E];
   [rewrite decide_True by done; rewrite E, lookup_insert; done | rewrite decide_False by (intros [_ ?]; done); rewrite lookup_insert_ne by done; done]).
Qed.
Lemma menv_get_set e key root v key' root' d :
  menv_get (menv_set e key root v) key' root' d =
  if decide (type_of v = type_of d /\ key = key') then (v, true) else menv_get e key' root' d.
Proof.
  destruct v, d; cbn; (rewrite decide_False by (intros [? _]; done); done) ||
  (destruct (decide (key = key')) as [E|E];
   [rewrite decide_True by done; rewrite E, lookup_insert; done | rewrite decide_False by (intros [_ ?]; done); rewrite lookup_insert_ne by done; done]).
Qed.

(** ** C37 *)
Definition same_path (key root : string) (w : string * string * pval) : bool := bool_decide (full_key w.1.1 w.1.2 = full_key key root).
(** For every history: get returns the latest value of its type written to the same path root/key, or the default and false. *)
Theorem C37_latest_on_path ws key root d :
  cenv_get (cenv_run cenv_new ws) key root d = answer (latest (fun w => same_type d w && same_path key root w) ws) d.
Proof.
  induction ws as [|w ws IH] using rev_ind; [by destruct d|].
  unfold cenv_run. rewrite fold_left_app. cbn [fold_left]. fold (cenv_run cenv_new ws). rewrite cenv_get_set, latest_snoc, IH.
  unfold same_type, same_path. destruct (decide _) as [[H1 H2]|H].
  - by rewrite !bool_decide_true.
  - destruct (bool_decide (type_of w.2 = type_of d)) eqn:E1; [|done]. destruct (bool_decide (full_key w.1.1 w.1.2 = full_key key root)) eqn:E2; [|done].
    apply bool_decide_eq_true in E1, E2. tauto.
Qed.
(** Paths do not collide when keys contain no slash. *)
Fixpoint no_slash (s : string) : Prop := match s with EmptyString => True | String a s' => a <> "/"%char /\ no_slash s' end.
Lemma no_slash_app s t : no_slash (s +:+ t) <-> no_slash s /\ no_slash t.
Proof. induction s as [|a s IH]; [cbn; tauto|]. change (String a s +:+ t) with (String a (s +:+ t)). cbn [no_slash]. rewrite IH. tauto. Qed.
Lemma last_slash r1 k1 r2 k2 : no_slash k1 -> no_slash k2 -> r1 +:+ "/" +:+ k1 = r2 +:+ "/" +:+ k2 -> r1 = r2 /\ k1 = k2.
Proof.
  intros H1 H2. revert r2. induction r1 as [|a r1 IH]; intros [|b r2] H; cbn in H.
  - injection H as ->. done.
  - injection H as <- H. exfalso. rewrite H in H1. apply no_slash_app in H1 as [_ H1]. cbn in H1. destruct H1 as [H1 _]. done.
  - injection H as -> H. exfalso. rewrite <- H in H2. apply no_slash_app in H2 as [_ H2]. cbn in H2. destruct H2 as [H2 _]. done.
  - injection H as <- H. destruct (IH r2 H) as [-> ->]. done.
Qed.
Lemma full_key_inj k1 r1 k2 r2 : no_slash k1 -> no_slash k2 -> full_key k1 r1 = full_key k2 r2 -> r1 = r2 /\ k1 = k2.
Proof.
  intros H1 H2. unfold full_key. destruct (decide (r1 = "")) as [->|Hr1], (decide (r2 = "")) as [->|Hr2].
  - done.
  - intros ->. apply no_slash_app in H1 as [_ H1]. cbn in H1. destruct H1 as [H1 _]. done.
  - intros <-. apply no_slash_app in H2 as [_ H2]. cbn in H2. destruct H2 as [H2 _]. done.
  - by apply last_slash.
Qed.
Theorem C37_environment ws key root d :
  no_slash key -> Forall (fun w => no_slash w.1.1) ws ->
  cenv_get (cenv_run cenv_new ws) key root d = answer (latest (fun w => same_type d w && same_place key root w) ws) d.
Proof.
  intros Hk HF. rewrite C37_latest_on_path. f_equal. induction HF as [|w ws Hw HF IH]; cbn; [done|]. rewrite IH.
  assert (same_path key root w = same_place key root w) as ->; [|done]. unfold same_path, same_place. apply bool_decide_ext. split.
  - intros H. apply full_key_inj in H as [? ?]; done.
  - intros [-> ->]. done.
Qed.
(** With a slash in a key, writing one (root, key) does change another. *)
Theorem C37_collision_refuted :
  cenv_get (cenv_run cenv_new [("c", "a/b", PInt 1); ("b/c", "a", PInt 2)]) "c" "a/b" (PInt 0) = (PInt 2, true).
Proof. vm_compute. done. Qed.
Example C37_example :
  let ws := [("k", "", PInt 1); ("k", "r", PInt 2); ("k", "", PStr "x"); ("k", "", PInt 3)] in
  Forall (fun w => no_slash w.1.1) ws /\ cenv_get (cenv_run cenv_new ws) "k" "" (PInt 0) = (PInt 3, true)
  /\ cenv_get (cenv_run cenv_new ws) "k" "r" (PInt 0) = (PInt 2, true) /\ cenv_get (cenv_run cenv_new ws) "k" "r" (PStr "d") = (PStr "d", false).
Proof. split; [|vm_compute; done]. repeat constructor; done. Qed.

(** ** C38: merging. *)
Section Merge.
Context {T : Type}.
(** There is a clash: a key of [o], under the prefix, is already in [m]. *)
Definition clash (m o : gmap string T) (prefix : string) : Prop := exists k, is_Some (o !! k) /\ is_Some (m !! full_key k prefix).
(** The merge the user wants: existing values stay, new ones are added. *)
Definition merged (m o r : gmap string T) (prefix : string) : Prop :=
  (forall p v, m !! p = Some v -> r !! p = Some v) /\
  (forall k v, o !! k = Some v -> m !! full_key k prefix = None -> r !! full_key k prefix = Some v) /\
  (forall p, m !! p = None -> (forall k, is_Some (o !! k) -> full_key k prefix <> p) -> r !! p = None).

Lemma full_key_prefix_inj k1 k2 prefix : full_key k1 prefix = full_key k2 prefix -> k1 = k2.
Proof. unfold full_key. destruct (decide (prefix = "")); [done|]. intros H. apply (inj (String.append prefix)) in H. by injection H. Qed.
Lemma copy_entries_spec (l : list (string * T)) (m : gmap string T) prefix : NoDup (l.*1) ->
  let '(r, ok) := copy_entries m prefix l in
  (forall p v, m !! p = Some v -> r !! p = Some v) /\
  (forall k v, (k, v) ∈ l -> m !! full_key k prefix = None -> r !! full_key k prefix = Some v) /\
  (forall p, m !! p = None -> (forall k v, (k, v) ∈ l -> full_key k prefix <> p) -> r !! p = None) /\
  (ok = true <-> forall k v, (k, v) ∈ l -> m !! full_key k prefix = None).
Proof.
  revert m. induction l as [|[k0 v0] l IH]; intros m Hn; cbn [copy_entries].
  - split; [done|]. split; [intros k v H; by apply elem_of_nil in H|]. split; [done|]. split; [intros _ k v H; by apply elem_of_nil in H|done].
  - cbn in Hn. apply NoDup_cons in Hn as [Hk0 Hn].
    assert (forall k v, (k, v) ∈ l -> full_key k prefix <> full_key k0 prefix) as Hne.
    { intros k v Hin E. apply full_key_prefix_inj in E as ->. apply Hk0. apply elem_of_list_fmap. by exists (k0, v). }
    destruct (m !! full_key k0 prefix) as [old|] eqn:E.
    + specialize (IH m Hn). destruct (copy_entries m prefix l) as [r ok]. destruct IH as (H1 & H2 & H3 & H4). split; [done|]. split; [|split].
      * intros k v Hin Hm. apply elem_of_cons in Hin as [Hin|Hin]; [injection Hin as -> ->; congruence|by apply H2].
      * intros p Hp Hk. apply H3; [done|]. intros k v Hin. apply (Hk k v). by right.
      * split; [done|]. intros H. specialize (H k0 v0). rewrite E in H. discriminate H. left.
    + specialize (IH (<[full_key k0 prefix := v0]> m) Hn). destruct (copy_entries _ prefix l) as [r ok]. destruct IH as (H1 & H2 & H3 & H4). split; [|split; [|split]].
      * intros p v Hp. apply H1. rewrite lookup_insert_ne; [done|]. intros <-. congruence.
      * intros k v Hin Hm. apply elem_of_cons in Hin as [Hin|Hin].
        -- injection Hin as -> ->. apply H1. by rewrite lookup_insert.
        -- apply H2; [done|]. rewrite lookup_insert_ne; [done|]. intros Eq. by apply (Hne k v).
      * intros p Hp Hk. apply H3.
        -- rewrite lookup_insert_ne; [done|]. intros <-. apply (Hk k0 v0); [left|done].
        -- intros k v Hin. apply (Hk k v). by right.
      * rewrite H4. split.
        -- intros H k v Hin. apply elem_of_cons in Hin as [Hin|Hin]; [by injection Hin as -> ->|].
           specialize (H k v Hin). rewrite lookup_insert_ne in H; [done|]. intros Eq. by apply (Hne k v).
        -- intros H k v Hin. rewrite lookup_insert_ne; [|intros Eq; by apply (Hne k v)]. apply (H k v). by right.
Qed.
Lemma copy_props_spec (m o : gmap string T) prefix : merged m o (copy_props m o prefix).1 prefix /\ ((copy_props m o prefix).2 = true <-> ~ clash m o prefix).
Proof.
  unfold copy_props. pose proof (copy_entries_spec (map_to_list o) m prefix (NoDup_fst_map_to_list o)) as H.
  destruct (copy_entries m prefix (map_to_list o)) as [r ok]. destruct H as (H1 & H2 & H3 & H4). cbn. split; [split; [done|split]|].
  - intros k v Ho. apply H2. by apply elem_of_map_to_list.
  - intros p Hp Hk. apply H3; [done|]. intros k v Hin. apply elem_of_map_to_list in Hin. apply Hk. by exists v.
  - rewrite H4. split.
    + intros H (k & [v Hv] & [w Hw]). apply elem_of_map_to_list in Hv. specialize (H k v Hv). congruence.
    + intros H k v Hin. apply elem_of_map_to_list in Hin. destruct (m !! full_key k prefix) as [w|] eqn:E; [|done]. exfalso. apply H. exists k. by split; eexists.
Qed.
End Merge.
Definition env_clash (e o : cenv) (root : string) : Prop :=
  clash (ce_str e) (ce_str o) root \/ clash (ce_bool e) (ce_bool o) root \/ clash (ce_int e) (ce_int o) root \/ clash (ce_float e) (ce_float o) root.
Definition env_merged (e o r : cenv) (root : string) : Prop :=
  merged (ce_str e) (ce_str o) (ce_str r) root /\ merged (ce_bool e) (ce_bool o) (ce_bool r) root /\
  merged (ce_int e) (ce_int o) (ce_int r) root /\ merged (ce_float e) (ce_float o) (ce_float r) root.
Ltac copies e o root :=
  unfold cenv_copy;
  pose proof (copy_props_spec (ce_str e) (ce_str o) root) as [Hs Rs]; destruct (copy_props (ce_str e) (ce_str o) root) as [s r1]; cbn [fst snd] in *;
  pose proof (copy_props_spec (ce_bool e) (ce_bool o) root) as [Hb Rb]; destruct (copy_props (ce_bool e) (ce_bool o) root) as [b r2]; cbn [fst snd] in *;
  pose proof (copy_props_spec (ce_int e) (ce_int o) root) as [Hi Ri]; destruct (copy_props (ce_int e) (ce_int o) root) as [i r3]; cbn [fst snd] in *;
  pose proof (copy_props_spec (ce_float e) (ce_float o) root) as [Hf Rf]; destruct (copy_props (ce_float e) (ce_float o) root) as [f r4]; cbn [fst snd] in *.
(** copyFrom returns true exactly when there is no clash, in any of the four types. *)
Theorem C38_result e o root : (cenv_copy e o root).2 = true <-> ~ env_clash e o root.
Proof. copies e o root. unfold env_clash. destruct r1, r2, r3, r4; cbn; intuition congruence. Qed.
(** It never changes an existing property. *)
Theorem C38_keeps e o root key r d : (cenv_get e key r d).2 = true -> cenv_get (cenv_copy e o root).1 key r d = cenv_get e key r d.
Proof.
  copies e o root. destruct Hs as [Hs _], Hb as [Hb _], Hi as [Hi _], Hf as [Hf _].
  destruct r1, r2, r3, d; cbn; unfold get_property;
  match goal with |- context [?m !! full_key key r] => destruct (m !! full_key key r) eqn:E end; cbn; try done; intros _;
  try (rewrite (Hs _ _ E); done); try (rewrite (Hb _ _ E); done); try (rewrite (Hi _ _ E); done); try (rewrite (Hf _ _ E); done);
  try (match goal with |- context [?m !! full_key key r] => destruct (m !! full_key key r) eqn:E' end; cbn;
       first [apply Hs in E | apply Hb in E | apply Hi in E | apply Hf in E | idtac]; congruence).
Qed.
(** Without a clash the result is the merge, for all four types. *)
Theorem C96_merge e o root : ~ env_clash e o root -> env_merged e o (cenv_copy e o root).1 root.
Proof.
  intros H. pose proof (proj2 (C38_result e o root) H) as Hr. revert Hr. copies e o root.
  destruct r1, r2, r3, r4; cbn; intros Hr; try discriminate Hr. done.
Qed.
(** With a clash among the strings, the new properties of the other types are not added. *)
Theorem C96_skips_other_types_refuted :
  let e := cenv_set cenv_new "name" "" (PStr "x") in
  let o := cenv_set (cenv_set cenv_new "name" "" (PStr "y")) "size" "" (PInt 5) in
  let '(r, ok) := cenv_copy e o "" in ok = false /\ cenv_get r "size" "" (PInt 0) = (PInt 0, false).
Proof. vm_compute. done. Qed.
Example C38_example :
  let e := cenv_set cenv_new "name" "" (PStr "x") in
  let o := cenv_set (cenv_set cenv_new "name" "" (PStr "y")) "size" "" (PInt 5) in
  let '(r, ok) := cenv_copy e o "sub" in ok = true /\ cenv_get r "size" "sub" (PInt 0) = (PInt 5, true) /\ cenv_get r "name" "" (PStr "") = (PStr "x", true)
  /\ cenv_get r "name" "sub" (PStr "") = (PStr "y", true).
Proof. vm_compute. done. Qed.

(** ** C39: dynamic properties. *)
(** The first value written to a name is the one that stays: get returns it, at its own type only. *)
Definition first_of (name : string) (ws : list (string * pval)) : option pval :=
  match List.find (fun w => bool_decide (w.1 = name)) ws with Some w => Some w.2 | None => None end.
Theorem C39_first_write_wins ws name ty :
  dyn_get (dyn_run ∅ ws) name ty = match first_of name ws with Some v => if decide (type_of v = ty) then Some v else None | None => None end.
Proof.
  assert (dyn_run ∅ ws !! name = first_of name ws) as E; [|unfold dyn_get; by rewrite E].
  assert (forall d : dyn, dyn_run d ws !! name = match d !! name with Some v => Some v | None => first_of name ws end) as H; [|rewrite H, lookup_empty; done].
  induction ws as [|[n v] ws IH]; intros d; cbn; [by destruct (d !! name)|]. unfold dyn_run in IH. rewrite IH. unfold dyn_set, first_of. cbn.
  destruct (d !! n) as [v'|] eqn:En; cbn.
  - case_bool_decide as E; [subst n; by rewrite En|]. done.
  - case_bool_decide as E; [subst n; by rewrite lookup_insert, En|]. by rewrite lookup_insert_ne.
Qed.
(** A write at another type is refused and changes nothing. *)
Theorem C39_type_mismatch_refused d name v v' : d !! name = Some v' -> type_of v <> type_of v' -> dyn_set d name v = (d, false).
Proof. intros H _. unfold dyn_set. by rewrite H. Qed.
(** A name never written is not found; a stored value is only found at its type. *)
Theorem C39_get_own_type d name ty v : dyn_get d name ty = Some v -> d !! name = Some v /\ type_of v = ty.
Proof. unfold dyn_get. destruct (d !! name) as [w|]; [|done]. destruct (decide (type_of w = ty)); [|done]. by injection 1 as ->. Qed.
(** copyFrom: what was there stays; under a name that was free the other's value appears, at its type; nothing else appears. *)
Lemma dyn_get_none d name : (forall ty, dyn_get d name ty = None) <-> d !! name = None.
Proof. unfold dyn_get. split; [|by intros ->]. intros H. destruct (d !! name) as [v|]; [|done]. specialize (H (type_of v)). by rewrite decide_True in H. Qed.
Theorem C39_copy_keeps d o prefix name ty v : dyn_get d name ty = Some v -> dyn_get (dyn_copy d o prefix) name ty = Some v.
Proof.
  intros H. apply C39_get_own_type in H as [H <-]. destruct (copy_props_spec d o prefix) as [(Hk & _) _]. unfold dyn_get, dyn_copy. rewrite (Hk _ _ H). by rewrite decide_True.
Qed.
Theorem C39_copy_adds d o prefix name ty : (forall ty', dyn_get d (full_key name prefix) ty' = None) ->
  dyn_get (dyn_copy d o prefix) (full_key name prefix) ty = dyn_get o name ty.
Proof.
  intros H. apply dyn_get_none in H. destruct (copy_props_spec d o prefix) as [(_ & Ha & Hn) _]. unfold dyn_get, dyn_copy.
  destruct (o !! name) as [v|] eqn:E; [by rewrite (Ha _ _ E H)|]. rewrite Hn; [done|done|]. intros k [v Hk] Eq. apply full_key_prefix_inj in Eq as ->. congruence.
Qed.
Theorem C39_copy_nothing_else d o prefix p ty : (forall ty', dyn_get d p ty' = None) -> (forall k, full_key k prefix = p -> forall ty', dyn_get o k ty' = None) ->
  dyn_get (dyn_copy d o prefix) p ty = None.
Proof.
  intros H Ho. apply dyn_get_none in H. destruct (copy_props_spec d o prefix) as [(_ & _ & Hn) _]. unfold dyn_get, dyn_copy.
  rewrite Hn; [done|done|]. intros k [v Hk] Eq. pose proof (proj1 (dyn_get_none _ _) (Ho k Eq)). congruence.
Qed.
Example C39_example : let d : dyn := <["a/x" := PInt 1]> ∅ in let o : dyn := <["x" := PInt 2]> (<["y" := PStr "s"]> ∅) in
  dyn_get (dyn_copy d o "a") "a/x" TInt = Some (PInt 1) /\ dyn_get (dyn_copy d o "a") "a/y" TStr = Some (PStr "s") /\ dyn_get (dyn_copy d o "a") "y" TStr = None.
Proof. vm_compute. done. Qed.
(** Writing again at the same type does not overwrite, and reports failure. *)
Theorem C39_overwrite_refuted :
  let '(d, ok) := dyn_set ∅ "k" (PInt 1) in let '(d', ok') := dyn_set d "k" (PInt 2) in
  ok = true /\ ok' = false /\ dyn_get d' "k" TInt = Some (PInt 1).
Proof. vm_compute. done. Qed.

(** ** C40: MemEnv. *)
Theorem C40_mem_env ws key root d :
  menv_get (menv_run menv_new ws) key root d = answer (latest (fun w => same_type d w && same_key key w) ws) d.
Proof.
  induction ws as [|w ws IH] using rev_ind; [by destruct d|].
  unfold menv_run. rewrite fold_left_app. cbn [fold_left]. fold (menv_run menv_new ws). rewrite menv_get_set, latest_snoc, IH.
  unfold same_type, same_key. destruct (decide _) as [[H1 H2]|H].
  - by rewrite !bool_decide_true.
  - destruct (bool_decide (type_of w.2 = type_of d)) eqn:E1; [|done]. destruct (bool_decide (w.1.1 = key)) eqn:E2; [|done].
    apply bool_decide_eq_true in E1, E2. tauto.
Qed.
(** The root is ignored: writing under one root changes what is read under another. *)
Theorem C40_root_ignored_refuted :
  menv_get (menv_run menv_new [("k", "r1", PInt 1); ("k", "r2", PInt 2)]) "k" "r1" (PInt 0) = (PInt 2, true).
Proof. vm_compute. done. Qed.
