(** * C194, C195: a machine and a listener made from the same file. *)
From stdpp Require Import prelude gmap strings.
From Coq Require Import Lia.
From Verif Require Import StateMachine_Model StateMachine_Spec StateMachine_Proofs StateMachine_Props SmPair_Model.
Local Open Scope string_scope.
Local Open Scope list_scope.

(** ** Specification: how often the machine told observer [o] that it is in state [q], how often that it has just entered it. *)
Definition told (c : config) (o : nat) (q : string) (ns : list note) : nat := length (List.filter (fun n => Nat.eqb (n_obs n) o && String.eqb (n_state n) (cf_id c +:+ ":" +:+ q)) ns).
Definition entered (c : config) (o : nat) (q : string) (ns : list note) : nat := length (List.filter (fun n => Nat.eqb (n_obs n) o && String.eqb (n_state n) (cf_id c +:+ ":" +:+ q) && n_changed n) ns).
(** How often the listener has run action [a]. *)
Definition ran (a : nat) (l : listener) : nat := occ a (concat (l_log l)).
Definition is_add (x : lcall) : Prop := match x with AddAction _ _ | AddOneOff _ _ | AddPeriodic _ _ => True | _ => False end.

Lemma same_key id q q' : id <> "" -> complete_name id q = id +:+ ":" +:+ q' <-> q = q'.
Proof.
  intros Hid. unfold complete_name. rewrite decide_False by done. split; [|by intros ->]. clear Hid. intros H.
  induction id as [|x id IH]; [|]. { injection H as H. done. } injection H as H. by apply IH.
Qed.
(** What the listener holds of action [a] for each name. *)
Definition holds (a : nat) (l : listener) (k : string) : nat * nat * nat := (occ a (default [] (l_acts l !! k)), occ a (default [] (l_once l !! k)), occ a (default [] (l_per l !! k))).
Definition none (a : nat) (l : listener) : Prop := forall k, holds a l k = (0, 0, 0).
Lemma occ_nil a : occ a [] = 0. Proof. done. Qed.
Lemma push_holds a k b m k' : b <> a -> occ a (default [] (push k b m !! k')) = occ a (default [] (m !! k')).
Proof. intros Hb. rewrite occ_push. rewrite decide_False by tauto. lia. Qed.
Lemma add_other a l x : is_add x -> registers x <> Some a -> (forall k, holds a (lstep l x) k = holds a l k) /\ l_log (lstep l x) = l_log l /\ l_id (lstep l x) = l_id l.
Proof. intros Hx Hr. destruct x as [q b|q b|q b|q| |q ch]; try done; cbn in Hr; (split; [|done]); intros k; unfold holds; cbn [lstep l_acts l_once l_per]; rewrite push_holds by congruence; done. Qed.
Lemma adds_other a h : forall l, Forall is_add h -> Forall (fun x => registers x <> Some a) h -> (forall k, holds a (lrun l h) k = holds a l k) /\ l_log (lrun l h) = l_log l /\ l_id (lrun l h) = l_id l.
Proof.
  induction h as [|x h IH]; intros l H1 H2; [done|]. inversion_clear H1. inversion_clear H2. destruct (add_other a l x) as (A1 & A2 & A3); [done..|].
  destruct (IH (lstep l x)) as (B1 & B2 & B3); [done..|]. change (lrun l (x :: h)) with (lrun (lstep l x) h). rewrite B2, B3, A2, A3. split; [|done]. intros k. by rewrite B1, A1.
Qed.
(** The state after the additions: the action is held once, under its own name. *)
Definition held_as (kind : nat) : nat * nat * nat := match kind with 0 => (1, 0, 0) | 1 => (0, 1, 0) | _ => (0, 0, 1) end.
Definition add_of (kind : nat) (q : string) (a : nat) : lcall := match kind with 0 => AddAction q a | 1 => AddOneOff q a | _ => AddPeriodic q a end.
Lemma added id kind q a p r : id <> "" -> Forall is_add (p ++ r) -> Forall (fun x => registers x <> Some a) (p ++ r) ->
  let l := lrun (listener_new id) (p ++ add_of kind q a :: r) in
  (forall k, holds a l k = if decide (k = id +:+ ":" +:+ q) then held_as kind else (0, 0, 0)) /\ l_log l = [] /\ l_id l = id.
Proof.
  intros Hid [H1 H2]%Forall_app [H3 H4]%Forall_app. intros l. unfold l, lrun. rewrite fold_left_app. cbn [fold_left]. fold (lrun (listener_new id) p). set (l1 := lrun (listener_new id) p).
  destruct (adds_other a p (listener_new id) H1 H3) as (A1 & A2 & A3). fold l1 in A1, A2, A3. fold (lrun (lstep l1 (add_of kind q a)) r).
  destruct (adds_other a r (lstep l1 (add_of kind q a)) H2 H4) as (B1 & B2 & B3). rewrite B2, B3. split; [|destruct kind as [|[]]; cbn; by rewrite A2, A3].
  intros k. rewrite B1. pose proof (A1 k) as Hk. assert (Hn : holds a (listener_new id) k = (0, 0, 0)) by (unfold holds; cbn; by rewrite lookup_empty). rewrite Hn in Hk. unfold holds in Hk.
  assert (E1 : occ a (default [] (l_acts l1 !! k)) = 0) by congruence. assert (E2 : occ a (default [] (l_once l1 !! k)) = 0) by congruence. assert (E3 : occ a (default [] (l_per l1 !! k)) = 0) by congruence.
  assert (Ek : complete_name (l_id l1) q = id +:+ ":" +:+ q). { rewrite A3. cbn [l_id listener_new]. unfold complete_name. by rewrite decide_False. }
  destruct kind as [|[|]]; unfold holds; cbn [add_of held_as lstep l_acts l_once l_per]; rewrite occ_push, Ek, E1, E2, E3; cbn [Nat.add]; destruct (decide (k = id +:+ ":" +:+ q)) as [->|Hne].
  all: try (rewrite decide_True by done; done). all: rewrite decide_False by (intros [? ?]; congruence); done.
Qed.
Lemma ran_snoc a l e lg : l_log l = lg ++ [e] -> ran a l = occ a (concat lg) + occ a e.
Proof. intros H. unfold ran. rewrite H, concat_app, occ_app. cbn. rewrite app_nil_r. done. Qed.
(** Notifications: entry and periodic actions are not used up. *)
Lemma notes_run a K ns : forall l, (forall k, (holds a l k).1.2 = 0) ->
  (forall k, occ a (default [] (l_acts l !! k)) = if decide (k = K) then occ a (default [] (l_acts l !! K)) else 0) ->
  (forall k, occ a (default [] (l_per l !! k)) = if decide (k = K) then occ a (default [] (l_per l !! K)) else 0) ->
  ran a (lrun l (as_lcall <$> ns)) = ran a l + occ a (default [] (l_acts l !! K)) * length (List.filter (fun n => String.eqb (n_state n) K && n_changed n) ns)
    + occ a (default [] (l_per l !! K)) * length (List.filter (fun n => String.eqb (n_state n) K) ns).
Proof.
  induction ns as [|n ns IH]; intros l H1 H2 H3; [cbn; lia|].
  change (lrun l (as_lcall <$> n :: ns)) with (lrun (lstep l (as_lcall n)) (as_lcall <$> ns)). rewrite IH.
  - rewrite (ran_snoc a (lstep l (as_lcall n)) ((if n_changed n then default [] (l_once l !! n_state n) ++ default [] (l_acts l !! n_state n) else []) ++ default [] (l_per l !! n_state n)) (l_log l)) by done.
    fold (ran a l). cbn [lstep as_lcall l_acts l_per List.filter]. pose proof (H1 (n_state n)) as E1. cbn in E1. pose proof (H2 (n_state n)) as E2. pose proof (H3 (n_state n)) as E3.
    rewrite occ_app. destruct (String.eqb_spec (n_state n) K) as [E|E].
    + rewrite decide_True in E2, E3 by done. destruct (n_changed n); cbn [andb length]; rewrite ?occ_app, ?occ_nil, ?E1, ?E2, ?E3; unfold ran; nia.
    + rewrite decide_False in E2, E3 by done. destruct (n_changed n); cbn [andb length]; rewrite ?occ_app, ?occ_nil, ?E1, ?E2, ?E3; unfold ran; nia.
  - intros k. cbn [lstep as_lcall holds fst snd l_once]. destruct (n_changed n); [|apply H1]. destruct (decide (k = n_state n)) as [->|Hne]; [by rewrite lookup_delete|rewrite lookup_delete_ne by done; apply H1].
  - intros k. apply H2.
  - intros k. apply H3.
Qed.
Lemma filter_both {A} (p q : A -> bool) l : List.filter q (List.filter p l) = List.filter (fun x => p x && q x) l.
Proof. induction l as [|x l IH]; [done|]. cbn. destruct (p x); cbn; rewrite IH; done. Qed.
Lemma filter_same {A} (p q : A -> bool) l : (forall x, p x = q x) -> List.filter p l = List.filter q l.
Proof. intros H. induction l as [|x l IH]; [done|]. cbn. rewrite H, IH. done. Qed.
(** An entry action runs exactly as often as the machine has told its observer that it entered that state. *)
Theorem C194_entry_actions load path re user n o q a p r : cf_id (load path) <> "" -> Forall is_add (p ++ r) -> Forall (fun x => registers x <> Some a) (p ++ r) ->
  let ns := s_notes (steps n (load path) re (from_json_machine load path user)) in
  ran a (heard (from_json_listener load path) (p ++ AddAction q a :: r) o ns) = entered (load path) o q ns.
Proof.
  intros named H1 H2 ns. clearbody ns. destruct (added (cf_id (load path)) 0 q a p r named H1 H2) as (A1 & A2 & A3). cbn [add_of held_as] in A1, A2, A3.
  unfold heard, lrun. rewrite fold_left_app. fold (lrun (from_json_listener load path) (p ++ AddAction q a :: r)). unfold from_json_listener in *. set (l := lrun _ (p ++ _)) in *.
  set (K := cf_id (load path) +:+ ":" +:+ q) in *. fold (lrun l (as_lcall <$> List.filter (fun m => Nat.eqb (n_obs m) o) ns)).
  rewrite (notes_run a K).
  - pose proof (A1 K) as E. rewrite decide_True in E by done. unfold holds in E. assert (E1 : occ a (default [] (l_acts l !! K)) = 1) by congruence. assert (E3 : occ a (default [] (l_per l !! K)) = 0) by congruence.
    rewrite E1, E3. unfold ran. rewrite A2. unfold entered. rewrite !filter_both. rewrite occ_nil. cbn [concat]. rewrite (filter_same _ (fun x => Nat.eqb (n_obs x) o && String.eqb (n_state x) K && n_changed x)) by (intros x; by rewrite andb_assoc). fold K. cbn. lia.
  - intros k. rewrite A1. by destruct (decide (k = K)).
  - intros k. pose proof (A1 k) as E. unfold holds in E. destruct (decide (k = K)) as [->|]; [done|congruence].
  - intros k. pose proof (A1 k) as E. unfold holds in E. destruct (decide (k = K)) as [->|]; [done|congruence].
Qed.
(** A periodic action runs exactly as often as it was told that it is there. *)
Theorem C194_periodic_actions load path re user n o q a p r : cf_id (load path) <> "" -> Forall is_add (p ++ r) -> Forall (fun x => registers x <> Some a) (p ++ r) ->
  let ns := s_notes (steps n (load path) re (from_json_machine load path user)) in
  ran a (heard (from_json_listener load path) (p ++ AddPeriodic q a :: r) o ns) = told (load path) o q ns.
Proof.
  intros named H1 H2 ns. clearbody ns. destruct (added (cf_id (load path)) 2 q a p r named H1 H2) as (A1 & A2 & A3). cbn [add_of held_as] in A1, A2, A3.
  unfold heard, lrun. rewrite fold_left_app. fold (lrun (from_json_listener load path) (p ++ AddPeriodic q a :: r)). unfold from_json_listener in *. set (l := lrun _ (p ++ _)) in *.
  set (K := cf_id (load path) +:+ ":" +:+ q) in *. fold (lrun l (as_lcall <$> List.filter (fun m => Nat.eqb (n_obs m) o) ns)).
  rewrite (notes_run a K).
  - pose proof (A1 K) as E. rewrite decide_True in E by done. unfold holds in E. assert (E1 : occ a (default [] (l_acts l !! K)) = 0) by congruence. assert (E3 : occ a (default [] (l_per l !! K)) = 1) by congruence.
    rewrite E1, E3. unfold ran. rewrite A2. unfold told. rewrite !filter_both. fold K. change (occ a (concat [])) with 0. lia.
  - intros k. rewrite A1. by destruct (decide (k = K)).
  - intros k. pose proof (A1 k) as E. unfold holds in E. destruct (decide (k = K)) as [->|]; [done|congruence].
  - intros k. pose proof (A1 k) as E. unfold holds in E. destruct (decide (k = K)) as [->|]; [done|congruence].
Qed.
(** A one-off action runs once as soon as the machine has told that it entered the state, and never again. *)
Lemma once_run a K ns : forall l, (forall k, occ a (default [] (l_acts l !! k)) = 0) -> (forall k, occ a (default [] (l_per l !! k)) = 0) ->
  (forall k, k <> K -> occ a (default [] (l_once l !! k)) = 0) ->
  ran a (lrun l (as_lcall <$> ns)) = ran a l + occ a (default [] (l_once l !! K)) * Nat.min 1 (length (List.filter (fun n => String.eqb (n_state n) K && n_changed n) ns)).
Proof.
  induction ns as [|n ns IH]; intros l H1 H2 H3; [cbn; lia|].
  change (lrun l (as_lcall <$> n :: ns)) with (lrun (lstep l (as_lcall n)) (as_lcall <$> ns)). rewrite IH.
  - rewrite (ran_snoc a (lstep l (as_lcall n)) ((if n_changed n then default [] (l_once l !! n_state n) ++ default [] (l_acts l !! n_state n) else []) ++ default [] (l_per l !! n_state n)) (l_log l)) by done.
    fold (ran a l). cbn [lstep as_lcall l_once List.filter]. rewrite occ_app, H2. destruct (String.eqb_spec (n_state n) K) as [E|E].
    + destruct (n_changed n); cbn [andb length]; rewrite ?occ_app, ?H1, ?occ_nil, ?E, ?lookup_delete; cbn [default]; rewrite ?occ_nil; nia.
    + destruct (n_changed n); cbn [andb length]; rewrite ?occ_app, ?H1, ?(H3 (n_state n)), ?occ_nil by done; [rewrite lookup_delete_ne by done|]; nia.
  - apply H1.
  - apply H2.
  - intros k Hk. cbn [lstep as_lcall l_once]. destruct (n_changed n); [|by apply H3]. destruct (decide (k = n_state n)) as [->|Hne]; [by rewrite lookup_delete|rewrite lookup_delete_ne by done; by apply H3].
Qed.
Theorem C194_one_off_actions load path re user n o q a p r : cf_id (load path) <> "" -> Forall is_add (p ++ r) -> Forall (fun x => registers x <> Some a) (p ++ r) ->
  let ns := s_notes (steps n (load path) re (from_json_machine load path user)) in
  ran a (heard (from_json_listener load path) (p ++ AddOneOff q a :: r) o ns) = Nat.min 1 (entered (load path) o q ns).
Proof.
  intros named H1 H2 ns. clearbody ns. destruct (added (cf_id (load path)) 1 q a p r named H1 H2) as (A1 & A2 & A3). cbn [add_of held_as] in A1, A2, A3.
  unfold heard, lrun. rewrite fold_left_app. fold (lrun (from_json_listener load path) (p ++ AddOneOff q a :: r)). unfold from_json_listener in *. set (l := lrun _ (p ++ _)) in *.
  set (K := cf_id (load path) +:+ ":" +:+ q) in *. fold (lrun l (as_lcall <$> List.filter (fun m => Nat.eqb (n_obs m) o) ns)).
  rewrite (once_run a K).
  - pose proof (A1 K) as E. rewrite decide_True in E by done. unfold holds in E. assert (E1 : occ a (default [] (l_once l !! K)) = 1) by congruence.
    rewrite E1. unfold ran. rewrite A2. unfold entered. rewrite !filter_both. rewrite occ_nil. cbn [concat]. rewrite (filter_same _ (fun x => Nat.eqb (n_obs x) o && String.eqb (n_state x) K && n_changed x)) by (intros x; by rewrite andb_assoc). fold K.
    change (occ a []) with 0. lia.
  - intros k. pose proof (A1 k) as E. unfold holds in E. destruct (decide (k = K)); congruence.
  - intros k. pose proof (A1 k) as E. unfold holds in E. destruct (decide (k = K)); congruence.
  - intros k Hk. pose proof (A1 k) as E. unfold holds in E. rewrite decide_False in E by done. congruence.
Qed.
(** ** C195 (refuted): the identifier may be empty. *)
Lemma shown_notes c re n s : (forall x, x ∈ s_notes s -> exists q, n_state x = cf_id c +:+ ":" +:+ q) -> forall x, x ∈ s_notes (steps n c re s) -> exists q, n_state x = cf_id c +:+ ":" +:+ q.
Proof.
  revert s. induction n as [|n IH]; intros s H; [done|]. cbn [steps]. apply IH. unfold step. destruct (s_ub s); [done|]. destruct (s_stack s) as [|[[|y cs]|[|o os] ch] st]; try done.
  - destruct y; cbn [exec s_notes]; try done; unfold update, enqueue.
    all: repeat match goal with |- context[match ?y with _ => _ end] => destruct y end; cbn [s_notes]; done.
  - cbn [s_notes]. intros x [Hx|Hx%elem_of_list_singleton]%elem_of_app; [by apply H|]. subst x. cbn. by eexists.
Qed.
Definition colon_first (q : string) : Prop := exists q', q = ":" +:+ q'.
Definition add_state (x : lcall) : option string := match x with AddAction q _ | AddOneOff q _ | AddPeriodic q _ => Some q | _ => None end.
Lemma deaf ns : forall l, (forall k q, k = ":" +:+ q -> l_acts l !! k = None /\ l_once l !! k = None /\ l_per l !! k = None) ->
  (forall x, x ∈ ns -> exists q, n_state x = ":" +:+ q) -> concat (l_log (lrun l (as_lcall <$> ns))) = concat (l_log l).
Proof.
  induction ns as [|n ns IH]; intros l H Hn; [done|]. change (lrun l (as_lcall <$> n :: ns)) with (lrun (lstep l (as_lcall n)) (as_lcall <$> ns)). rewrite IH.
  - destruct (Hn n) as [q Hq]; [left|]. destruct (H _ q Hq) as (E1 & E2 & E3). cbn [lstep as_lcall l_log]. rewrite E1, E2, E3, concat_app. destruct (n_changed n); cbn; by rewrite app_nil_r.
  - intros k q Hk. destruct (H k q Hk) as (E1 & E2 & E3). cbn [lstep as_lcall l_acts l_once l_per]. split; [done|]. split; [|done]. destruct (n_changed n); [|done]. by rewrite lookup_delete_None; right.
  - intros x Hx. apply Hn. by right.
Qed.
(** With an empty identifier the listener made from the machine's own file never runs any action, whatever happens (its states not beginning with a colon). *)
Theorem C195_empty_id_refuted load path re user n o adds : cf_id (load path) = "" -> Forall is_add adds -> (forall x q, x ∈ adds -> add_state x = Some q -> ~ colon_first q) ->
  let ns := s_notes (steps n (load path) re (from_json_machine load path user)) in concat (l_log (heard (from_json_listener load path) adds o ns)) = [].
Proof.
  intros Hid Ha Hc ns. unfold heard, from_json_listener, lrun. rewrite fold_left_app. fold (lrun (listener_new (cf_id (load path))) adds). rewrite Hid. set (l := lrun _ adds).
  assert (L : l_log l = [] /\ l_id l = "" /\ forall k q, k = ":" +:+ q -> l_acts l !! k = None /\ l_once l !! k = None /\ l_per l !! k = None).
  { unfold l. clear -Ha Hc. induction adds as [|x adds IH] using rev_ind; [cbn; split_and!; try done; intros; by rewrite !lookup_empty|].
    apply Forall_app in Ha as [Ha Hx]. inversion_clear Hx as [|? ? Hx' _]. destruct IH as (I1 & I2 & I3); [done|intros y q Hy; apply Hc, elem_of_app; by left|].
    rewrite lrun_snoc. set (l := lrun _ adds) in *. assert (Hq : forall q, add_state x = Some q -> ~ colon_first q) by (intros q; apply Hc, elem_of_app; right; left).
    destruct x as [q b|q b|q b|q| |q ch]; try done; cbn [lstep l_log l_id l_acts l_once l_per]; (split; [done|]); (split; [done|]); intros k q' Hk; destruct (I3 k q' Hk) as (E1 & E2 & E3).
    all: assert (Hkq : complete_name (l_id l) q <> k) by (rewrite I2; unfold complete_name; rewrite decide_True by done; intros Hk'; apply (Hq q eq_refl); exists q'; congruence).
    all: unfold push; rewrite ?lookup_insert_ne by done; done. }
  destruct L as (L1 & L2 & L3). fold (lrun l (as_lcall <$> List.filter (fun m => Nat.eqb (n_obs m) o) ns)). rewrite deaf; [by rewrite L1|done|].
  intros x Hx. apply elem_of_list_In, filter_In in Hx as [Hx _]. apply elem_of_list_In in Hx. destruct (shown_notes (load path) re n (from_json_machine load path user) ltac:(intros y Hy; by apply elem_of_nil in Hy) x Hx) as [q Hq].
  rewrite Hid in Hq. by exists q.
Qed.
(** Two observers, one of them a listener; the machine goes a, b, a. *)
Definition two_file (id : string) : string -> config := fun _ => Config id [CState "a" [CTrans "b" "go"]; CState "b" [CTrans "a" "go"]].
Definition two_calls : list call := [Register 1; Register 2; Start; EnqueueAndUpdate "go"; Update; EnqueueAndUpdate "go"].
Example C194_case : let ns := s_notes (steps 60 (two_file "m" "f") quiet (from_json_machine (two_file "m") "f" two_calls)) in
  entered (two_file "m" "f") 2 "a" ns = 2 /\ told (two_file "m" "f") 2 "b" ns = 2 /\ entered (two_file "m" "f") 2 "b" ns = 1.
Proof. by vm_compute. Qed.
Example C195_case : let ns := s_notes (steps 60 (two_file "" "f") quiet (from_json_machine (two_file "") "f" two_calls)) in
  entered (two_file "" "f") 2 "a" ns = 2 /\ concat (l_log (heard (from_json_listener (two_file "") "f") [AddAction "a" 5] 2 ns)) = [].
Proof. by vm_compute. Qed.
Print Assumptions C194_entry_actions.
Print Assumptions C194_periodic_actions.
Print Assumptions C194_one_off_actions.
Print Assumptions C195_empty_id_refuted.
