(** * C46, C70: environments shared through ZeroMQ. *)
From stdpp Require Import prelude strings gmap.
From Verif Require Import Config_Model Config_Props ZmqEnv_Model.

(** What a program reads from environment j. *)
Definition z_get (s : znet) (j : nat) (key root : string) (d : pval) : pval * bool :=
  match zn_env s !! j with Some e => cenv_get (z_cfg e) key root d | None => (d, false) end.
Definition cfg (s : znet) (j : nat) : option cenv := z_cfg <$> zn_env s !! j.
Definition idof (e : zenv) : string * Z := (z_key e, z_sid e).
Definition is_poll (j i : nat) (a : zact) : Prop := match a with ZPoll j' i' => j' = j /\ i' = i | _ => False end.
Global Instance is_poll_dec j i a : Decision (is_poll j i a).
Proof. destruct a; cbn; apply _. Defined.
Definition polls (j i : nat) (acts : list zact) : nat := length (filter (is_poll j i) acts).

Section Z.
Context (conn : nat -> nat -> bool) (envs : list zenv).
Notation step := (z_step conn).
Notation run := (z_run conn).
Record ZInv (s : znet) : Prop := {
  zi_id : forall i, idof <$> zn_env s !! i = idof <$> envs !! i;
  zi_ch : forall i j m, m ∈ zn_ch s i j -> exists e, envs !! i = Some e /\ zm_key m = z_key e /\ zm_sid m = z_sid e
}.
Lemma set_cfg_lookup l i c k : set_cfg l i c !! k = if decide (k = i) then (fun e => ZEnv (z_key e) (z_sid e) c) <$> l !! k else l !! k.
Proof. unfold set_cfg. case_decide; subst; [by rewrite list_lookup_alter|by rewrite list_lookup_alter_ne]. Qed.
Lemma set_cfg_id l i c k : idof <$> set_cfg l i c !! k = idof <$> l !! k.
Proof. rewrite set_cfg_lookup. case_decide; [|done]. by destruct (l !! k). Qed.
Lemma zi_publish s i : ZInv s -> ZInv (z_publish conn s i).
Proof.
  intros [I1 I2]. unfold z_publish. destruct (zn_env s !! i) as [e|] eqn:E; [|done]. constructor; cbn [zn_env zn_ch]; [done|].
  intros a b m. case_decide as Ha; [|apply I2]. subst a. destruct (conn i b); [|apply I2]. rewrite elem_of_app. intros [H|H%elem_of_list_singleton]; [by apply I2 in H|]. subst m. cbn.
  specialize (I1 i). rewrite E in I1. destruct (envs !! i) as [e'|]; [|done]. cbn in I1. injection I1 as H1 H2. exists e'. by rewrite H1, H2.
Qed.
Lemma zi_step s a : ZInv s -> ZInv (step s a).
Proof.
  intros I. pose proof I as [I1 I2]. destruct a as [i key root v|i file root|j i|i j]; cbn [z_step].
  - destruct (zn_env s !! i); [|done]. apply zi_publish. constructor; cbn [zn_env zn_ch]; [|done]. intros k. by rewrite set_cfg_id.
  - destruct (zn_env s !! i) as [e|]; [|done]. destruct (cenv_copy _ _ _) as [c ok].
    assert (ZInv (ZNet (set_cfg (zn_env s) i c) (zn_ch s))) by (constructor; cbn [zn_env zn_ch]; [intros k; by rewrite set_cfg_id|done]).
    destruct ok; [by apply zi_publish|done].
  - destruct (zn_env s !! j) as [e|] eqn:E; [|done]. destruct (zn_ch s i j) as [|m rest] eqn:Ec; [done|]. constructor; cbn [zn_env zn_ch].
    + intros k. case_decide; [by rewrite set_cfg_id|done].
    + intros a b x. case_decide as Hx; [|apply I2]. destruct Hx as [-> ->]. intros H. apply (I2 i j). rewrite Ec. by right.
  - constructor; cbn [zn_env zn_ch]; [done|]. intros a b x. case_decide as Hx; [|apply I2]. destruct Hx as [-> ->]. intros H. apply (I2 i j). destruct (zn_ch s i j); [done|]. by right.
Qed.
Lemma zi_new : ZInv (z_new envs).
Proof. constructor; cbn; [done|]. intros i j m H. by apply elem_of_nil in H. Qed.
Lemma zi_run s acts : ZInv s -> ZInv (run s acts).
Proof. revert s. induction acts as [|a acts IH]; intros s H; [done|]. apply IH. by apply zi_step. Qed.

(** A message waits for the polls of those before it. *)
Lemma ch_step_other s a i j : (forall i' j', a = ZPoll j' i' -> (i', j') <> (i, j)) -> (a <> ZLose i j) -> exists new, zn_ch (step s a) i j = zn_ch s i j ++ new.
Proof.
  assert (Hp : forall s k, exists new, zn_ch (z_publish conn s k) i j = zn_ch s i j ++ new).
  { intros s0 k. unfold z_publish. destruct (zn_env s0 !! k); [|exists []; by rewrite app_nil_r]. cbn [zn_ch]. case_decide; [|exists []; by rewrite app_nil_r].
    destruct (conn k j); [eexists; done|exists []; by rewrite app_nil_r]. }
  intros H1 H2. destruct a as [k key root v|k file root|j' i'|i' j']; cbn [z_step].
  - destruct (zn_env s !! k) as [e|]; [|exists []; by rewrite app_nil_r]. destruct (Hp (ZNet (set_cfg (zn_env s) k (cenv_set (z_cfg e) key root v)) (zn_ch s)) k) as [new Hn]. exists new. exact Hn.
  - destruct (zn_env s !! k) as [e|]; [|exists []; by rewrite app_nil_r]. destruct (cenv_copy _ _ _) as [c ok]. destruct ok; [|exists []; by rewrite app_nil_r].
    destruct (Hp (ZNet (set_cfg (zn_env s) k c) (zn_ch s)) k) as [new Hn]. exists new. exact Hn.
  - exists []. rewrite app_nil_r. destruct (zn_env s !! j'); [|done]. destruct (zn_ch s i' j') eqn:E; [done|]. cbn [zn_ch]. rewrite decide_False; [done|]. intros [<- <-]. by apply (H1 i j).
  - exists []. rewrite app_nil_r. cbn [zn_ch]. rewrite decide_False; [done|]. intros [<- <-]. done.
Qed.
Lemma ch_run s acts i j pre rest : ZInv s -> is_Some (envs !! j) -> zn_ch s i j = pre ++ rest -> ZLose i j ∉ acts -> polls j i acts = length pre ->
  exists new, zn_ch (run s acts) i j = rest ++ new.
Proof.
  revert s pre rest. induction acts as [|a acts IH]; intros s pre rest I Hj Hc Hl Hp.
  - destruct pre; [|done]. exists []. rewrite app_nil_r. exact Hc.
  - cbn [fold_left]. change (run s (a :: acts)) with (run (step s a) acts). assert (Hl' : ZLose i j ∉ acts) by (intros H; apply Hl; by right).
    unfold polls in Hp. rewrite filter_cons in Hp. case_decide as Ha.
    + destruct a as [| |j' i'|]; try done. destruct Ha as [-> ->]. destruct pre as [|m pre]; [done|]. cbn in Hp. injection Hp as Hp.
      apply (IH (step s (ZPoll j i)) pre rest); [by apply zi_step|done| |done|exact Hp].
      cbn [z_step]. pose proof (zi_id s I j) as Hi. destruct Hj as [e He]. rewrite He in Hi. destruct (zn_env s !! j); [|done]. rewrite Hc. cbn [app zn_ch]. by rewrite decide_True.
    + destruct (ch_step_other s a i j) as [new Hn].
      * intros i' j' -> Hij. injection Hij as -> ->. by apply Ha.
      * intros ->. apply Hl. left.
      * destruct (IH (step s a) pre (rest ++ new)) as [new' Hn']; [by apply zi_step|done|by rewrite Hn, Hc, app_assoc|done|exact Hp|].
        exists (new ++ new'). by rewrite Hn', app_assoc.
Qed.
End Z.

(** ** C46 *)
(** After the poll of j that receives the message of i's set, j has exactly i's configuration at the time of the set; whatever happened before and between. *)
Theorem C46_whole_configuration conn envs before after i j ei ej key root v :
  envs !! i = Some ei -> envs !! j = Some ej -> z_key ei = z_key ej -> z_sid ei <> z_sid ej -> conn i j = true ->
  let s1 := z_run conn (z_new envs) before in let s2 := z_step conn s1 (ZSet i key root v) in
  ZLose i j ∉ after -> polls j i after = length (zn_ch s1 i j) ->
  cfg (z_run conn s2 (after ++ [ZPoll j i])) j = cfg s2 i.
Proof.
  intros Hi Hj Hk Hs Hcon s1 s2 Hl Hp. pose proof (zi_run conn envs (z_new envs) before (zi_new envs)) as I1. fold s1 in I1.
  pose proof (zi_step conn envs s1 (ZSet i key root v) I1) as I2. change (z_step conn s1 (ZSet i key root v)) with s2 in I2.
  pose proof (zi_id envs s1 I1 i) as Hid. rewrite Hi in Hid. destruct (zn_env s1 !! i) as [e|] eqn:E; [|done].
  assert (Hcfg : cfg s2 i = Some (cenv_set (z_cfg e) key root v)).
  { unfold cfg, s2. cbn [z_step]. rewrite E. unfold z_publish. cbn [zn_env]. rewrite set_cfg_lookup, decide_True by done. rewrite E. cbn [fmap option_fmap option_map zn_env]. rewrite set_cfg_lookup, decide_True by done. rewrite E. done. }
  assert (Hch : zn_ch s2 i j = zn_ch s1 i j ++ [ZMsg (z_key ei) (cenv_set (z_cfg e) key root v) (z_sid ei)]).
  { unfold s2. cbn [z_step]. rewrite E. unfold z_publish. cbn [zn_env]. rewrite set_cfg_lookup, decide_True by done. rewrite E. cbn [fmap option_fmap option_map zn_ch z_cfg z_key z_sid]. rewrite decide_True by done. rewrite Hcon.
    cbn in Hid. injection Hid as H1 H2. by rewrite H1, H2. }
  destruct (ch_run conn envs s2 after i j _ _ I2 (mk_is_Some _ _ Hj) Hch Hl Hp) as [new Hn].
  pose proof (zi_run conn envs s2 after I2) as I3. set (s3 := z_run conn s2 after) in *.
  replace (z_run conn s2 (after ++ [ZPoll j i])) with (z_step conn s3 (ZPoll j i)) by (unfold s3, z_run; by rewrite fold_left_app).
  rewrite Hcfg. unfold cfg. cbn [z_step]. pose proof (zi_id envs s3 I3 j) as Hjd. rewrite Hj in Hjd. destruct (zn_env s3 !! j) as [e3|] eqn:E3; [|done]. rewrite Hn. cbn [app zn_env zm_key zm_sid zm_cfg].
  cbn in Hjd. injection Hjd as H1 H2. rewrite decide_True by (rewrite H1, H2; done). rewrite set_cfg_lookup, decide_True by done. by rewrite E3.
Qed.
(** so the property that i set reads the same in j, *)
Theorem C46_update_reaches conn envs before after i j ei ej key root v d :
  envs !! i = Some ei -> envs !! j = Some ej -> z_key ei = z_key ej -> z_sid ei <> z_sid ej -> conn i j = true ->
  let s1 := z_run conn (z_new envs) before in
  ZLose i j ∉ after -> polls j i after = length (zn_ch s1 i j) -> type_of d = type_of v ->
  z_get (z_run conn s1 (ZSet i key root v :: after ++ [ZPoll j i])) j key root d = (v, true).
Proof.
  intros Hi Hj Hk Hs Hcon s1 Hl Hp Ht. pose proof (C46_whole_configuration conn envs before after i j ei ej key root v Hi Hj Hk Hs Hcon Hl Hp) as H. cbn zeta in H. fold s1 in H.
  pose proof (zi_run conn envs (z_new envs) before (zi_new envs)) as I1. fold s1 in I1.
  pose proof (zi_id envs s1 I1 i) as Hid. rewrite Hi in Hid. destruct (zn_env s1 !! i) as [e|] eqn:E; [|done].
  assert (Hcfg : cfg (z_step conn s1 (ZSet i key root v)) i = Some (cenv_set (z_cfg e) key root v)).
  { unfold cfg. cbn [z_step]. rewrite E. unfold z_publish. cbn [zn_env]. rewrite set_cfg_lookup, decide_True by done. rewrite E. cbn [fmap option_fmap option_map zn_env]. rewrite set_cfg_lookup, decide_True by done. by rewrite E. }
  rewrite Hcfg in H. change (z_run conn s1 (ZSet i key root v :: after ++ [ZPoll j i])) with (z_run conn (z_step conn s1 (ZSet i key root v)) (after ++ [ZPoll j i])).
  unfold z_get. unfold cfg in H. destruct (zn_env (z_run conn (z_step conn s1 (ZSet i key root v)) (after ++ [ZPoll j i])) !! j) as [e'|]; [|done]. cbn in H. injection H as H. rewrite H.
  rewrite cenv_get_set. by rewrite decide_True.
Qed.
(** an environment ignores its own updates, *)
Theorem C46_own_updates_ignored conn envs acts j : zn_env (z_run conn (z_new envs) (acts ++ [ZPoll j j])) = zn_env (z_run conn (z_new envs) acts).
Proof.
  pose proof (zi_run conn envs (z_new envs) acts (zi_new envs)) as I. unfold z_run in *. rewrite fold_left_app. cbn [fold_left]. set (s := fold_left _ acts _) in *. cbn [z_step].
  destruct (zn_env s !! j) as [e|] eqn:E; [|done]. destruct (zn_ch s j j) as [|m rest] eqn:Ec; [done|]. cbn [zn_env]. rewrite decide_False; [done|]. intros [_ H].
  destruct (zi_ch envs s I j j m) as (e' & H1 & H2 & H3); [rewrite Ec; left|]. pose proof (zi_id envs s I j) as Hd. rewrite E, H1 in Hd. cbn in Hd. injection Hd as Hd1 Hd2. congruence.
Qed.
(** and everything that environments with another key do: erasing it from the history changes nothing. *)
Definition actor (a : zact) : nat := match a with ZSet i _ _ _ | ZLoad i _ _ | ZLose i _ => i | ZPoll _ i => i end.
Definition concerns (envs : list zenv) (k : string) (a : zact) : Prop := exists e, envs !! actor a = Some e /\ z_key e = k.
Global Instance concerns_dec envs k a : Decision (concerns envs k a).
Proof. unfold concerns. destruct (envs !! actor a) as [e|]; [|right; by intros (? & ? & _)]. destruct (decide (z_key e = k)); [left; eauto|right; intros (? & [= <-] & ?); done]. Defined.
Theorem C46_other_keys_ignored conn envs acts k j e : envs !! j = Some e -> z_key e = k ->
  cfg (z_run conn (z_new envs) acts) j = cfg (z_run conn (z_new envs) (filter (concerns envs k) acts)) j.
Proof.
  intros Hj Hk.
  set (R := fun s s' : znet => (forall i e, envs !! i = Some e -> z_key e = k -> zn_env s !! i = zn_env s' !! i /\ forall j, zn_ch s i j = zn_ch s' i j)).
  assert (HR : R (z_run conn (z_new envs) acts) (z_run conn (z_new envs) (filter (concerns envs k) acts))).
  2:{ unfold cfg. by destruct (HR j e Hj Hk) as [-> _]. }
  clear j e Hj Hk. induction acts as [|a acts IH] using rev_ind; [by intros i e|].
  pose proof (zi_run conn envs (z_new envs) acts (zi_new envs)) as I. pose proof (zi_run conn envs (z_new envs) (filter (concerns envs k) acts) (zi_new envs)) as I'.
  rewrite filter_app, filter_cons, filter_nil. unfold z_run in *. rewrite !fold_left_app. set (s := fold_left _ acts _) in *. set (s' := fold_left _ (filter _ acts) _) in *.
  assert (Hset : forall i c (l l' : list zenv) ii, l !! ii = l' !! ii -> (ii = i -> True) -> set_cfg l i c !! ii = set_cfg l' i c !! ii) by (intros; rewrite !set_cfg_lookup; case_decide; congruence).
  case_decide as Ha.
  - destruct Ha as (ea & Hea & Hka). cbn [fold_left]. intros i e He Hke. destruct (IH i e He Hke) as [H1 H2]. destruct (IH _ ea Hea Hka) as [A1 A2].
    destruct a as [x key root v|x file root|y x|x y]; cbn [actor] in *; cbn [z_step].
    + rewrite <-A1. destruct (zn_env s !! x) as [ex|] eqn:Ex; [|done]. unfold z_publish. cbn [zn_env]. rewrite !set_cfg_lookup, !decide_True by done. rewrite <-A1, Ex. cbn [fmap option_fmap option_map zn_env zn_ch].
      split; [by apply Hset|]. intros b. case_decide; [|done]. subst x. destruct (conn i b); by rewrite H2.
    + rewrite <-A1. destruct (zn_env s !! x) as [ex|] eqn:Ex; [|done]. destruct (cenv_copy _ _ _) as [c ok]. destruct ok.
      * unfold z_publish. cbn [zn_env]. rewrite !set_cfg_lookup, !decide_True by done. rewrite <-A1, Ex. cbn [fmap option_fmap option_map zn_env zn_ch].
        split; [by apply Hset|]. intros b. case_decide; [|done]. subst x. destruct (conn i b); by rewrite H2.
      * cbn [zn_env zn_ch]. split; [by apply Hset|done].
    + (* the receiver y may have another key: then its own configuration is not compared, and does not change *)
      pose proof (zi_id envs s I y) as Y1. pose proof (zi_id envs s' I' y) as Y2. destruct (envs !! y) as [ey|] eqn:Ey.
      2:{ destruct (zn_env s !! y); [done|]. destruct (zn_env s' !! y); done. }
      destruct (zn_env s !! y) as [e1|] eqn:E1; [|done]. destruct (zn_env s' !! y) as [e2|] eqn:E2; [|done]. cbn in Y1, Y2. injection Y1 as Y1a Y1b. injection Y2 as Y2a Y2b.
      rewrite <-A2. destruct (zn_ch s x y) as [|m rest] eqn:Ec; [done|]. cbn [zn_env zn_ch]. rewrite Y1a, Y1b, Y2a, Y2b. split.
      * case_decide; [by apply Hset|done].
      * intros b. case_decide; [done|apply H2].
    + cbn [zn_env zn_ch]. split; [done|]. intros b. case_decide; [by rewrite H2|done].
  - cbn [fold_left]. intros i e He Hke. destruct (IH i e He Hke) as [H1 H2].
    assert (Hne : i <> actor a). { intros ->. apply Ha. by exists e. }
    assert (Hrest : zn_env (z_step conn s a) !! i = zn_env s !! i /\ forall b, zn_ch (z_step conn s a) i b = zn_ch s i b); [|destruct Hrest as [-> Hr]; split; [done|]; intros b; by rewrite Hr].
    destruct a as [x key root v|x file root|y x|x y]; cbn [actor] in *; cbn [z_step].
    + destruct (zn_env s !! x) as [ex|] eqn:Ex; [|done]. unfold z_publish. cbn [zn_env]. rewrite !set_cfg_lookup, !decide_True by done. rewrite Ex. cbn [fmap option_fmap option_map zn_env zn_ch].
      rewrite set_cfg_lookup, decide_False by done. split; [done|]. intros b. by rewrite decide_False.
    + destruct (zn_env s !! x) as [ex|] eqn:Ex; [|done]. destruct (cenv_copy _ _ _) as [c ok]. destruct ok.
      * unfold z_publish. cbn [zn_env]. rewrite !set_cfg_lookup, !decide_True by done. rewrite Ex. cbn [fmap option_fmap option_map zn_env zn_ch].
        rewrite set_cfg_lookup, decide_False by done. split; [done|]. intros b. by rewrite decide_False.
      * cbn [zn_env zn_ch]. by rewrite set_cfg_lookup, decide_False.
    + destruct (zn_env s !! y) as [ey|] eqn:Ey; [|done]. destruct (zn_ch s x y) as [|m rest] eqn:Ec; [done|]. cbn [zn_env zn_ch]. split.
      * case_decide as Hm; [|done]. destruct Hm as [Hm _]. rewrite set_cfg_lookup. case_decide as Hi; [|done]. subst y. exfalso. apply Ha.
        destruct (zi_ch envs s I x i m) as (ex & X1 & X2 & X3); [rewrite Ec; left|]. exists ex. split; [exact X1|]. pose proof (zi_id envs s I i) as Hd. rewrite Ey, He in Hd. cbn in Hd. injection Hd as Hd1 Hd2. congruence.
      * intros b. by rewrite decide_False by (by intros [? _]).
    + cbn [zn_env zn_ch]. split; [done|]. intros b. by rewrite decide_False by (by intros [? _]).
Qed.
(** The hypothesis on the source ids is needed: two environments created in the same millisecond ignore each other for ever. *)
Theorem C46_same_millisecond_refuted conn envs acts i j ei ej : envs !! i = Some ei -> envs !! j = Some ej -> z_sid ei = z_sid ej ->
  zn_env (z_run conn (z_new envs) (acts ++ [ZPoll j i])) = zn_env (z_run conn (z_new envs) acts).
Proof.
  intros Hi Hj He. pose proof (zi_run conn envs (z_new envs) acts (zi_new envs)) as I. unfold z_run in *. rewrite fold_left_app. cbn [fold_left]. set (s := fold_left _ acts _) in *. cbn [z_step].
  destruct (zn_env s !! j) as [e|] eqn:E; [|done]. destruct (zn_ch s i j) as [|m rest] eqn:Ec; [done|]. cbn [zn_env]. rewrite decide_False; [done|]. intros [_ H].
  destruct (zi_ch envs s I i j m) as (e' & H1 & H2 & H3); [rewrite Ec; left|]. pose proof (zi_id envs s I j) as Hd. rewrite E, Hj in Hd. cbn in Hd. injection Hd as Hd1 Hd2. congruence.
Qed.

(** ** C70: all environments come to the same configuration. *)
(** The setProperty calls of a history, whichever environment they are made on. *)
Definition sets (acts : list zact) : list (string * string * pval) := omap (fun a => match a with ZSet _ key root v => Some (key, root, v) | _ => None end) acts.
(** A turn of environment w: only w sets properties, any number of them, the others (and w) poll whenever they want. *)
Definition turn_of (w : nat) (acts : list zact) : Prop := Forall (fun a => match a with ZSet i _ _ _ => i = w | ZPoll _ _ => True | _ => False end) acts.
Definition all_received (n : nat) (s : znet) : Prop := forall i j, i < n -> j < n -> zn_ch s i j = [].
(** Environments taking turns: before another one sets properties, everybody has received what was sent. *)
Fixpoint taking_turns (conn : nat -> nat -> bool) (n : nat) (s : znet) (turns : list (nat * list zact)) : Prop :=
  match turns with
  | [] => True
  | (w, acts) :: rest => w < n /\ turn_of w acts /\ all_received n (z_run conn s acts) /\ taking_turns conn n (z_run conn s acts) rest
  end.
Definition acts_of (turns : list (nat * list zact)) : list zact := concat (snd <$> turns).
(** A group of environments: one key, different source ids (creation times), connected to one another, starting with equal contents. *)
Record group (conn : nat -> nat -> bool) (envs : list zenv) (k : string) (c0 : cenv) : Prop := {
  gr_all : forall i e, envs !! i = Some e -> z_key e = k /\ z_cfg e = c0;
  gr_sid : forall i j ei ej, envs !! i = Some ei -> envs !! j = Some ej -> z_sid ei = z_sid ej -> i = j;
  gr_conn : forall i j, i < length envs -> j < length envs -> i <> j -> conn i j = true
}.
Record PInv (conn : nat -> nat -> bool) (envs : list zenv) (w : nat) (c : cenv) (s : znet) : Prop := {
  pi_inv : ZInv envs s;
  pi_w : cfg s w = Some c;
  pi_quiet : forall a b, a < length envs -> b < length envs -> a <> w -> zn_ch s a b = [];
  pi_last : forall j e, j <> w -> zn_env s !! j = Some e -> default (z_cfg e) (zm_cfg <$> last (zn_ch s w j)) = c
}.
Lemma pi_step conn envs k c0 w c s a : group conn envs k c0 -> PInv conn envs w c s -> match a with ZSet i _ _ _ => i = w | ZPoll _ _ => True | _ => False end ->
  PInv conn envs w (match a with ZSet _ key root v => cenv_set c key root v | _ => c end) (z_step conn s a).
Proof.
  intros [G1 G2 G3] [I P2 P3 P4] Ha. pose proof (zi_step conn envs s a I) as I'. assert (Hdom : forall i, is_Some (zn_env s !! i) <-> is_Some (envs !! i)).
  { intros i. pose proof (zi_id envs s I i) as H. destruct (zn_env s !! i), (envs !! i); try done; split; intros [? ?]; done. }
  assert (Hlt : forall i e, zn_env s !! i = Some e -> i < length envs). { intros i e H. apply lookup_lt_is_Some. apply Hdom. by eexists. }
  destruct a as [i key root v| |y x|]; [|done| |done].
  - subst i. assert (Hw : exists e, zn_env s !! w = Some e /\ z_cfg e = c). { unfold cfg in P2. destruct (zn_env s !! w) as [e|]; [|done]. injection P2 as P2. by exists e. }
    destruct Hw as (e & E & Hc). constructor; [exact I'|..]; cbn [z_step]; rewrite E; unfold z_publish; cbn [zn_env]; rewrite !set_cfg_lookup, !decide_True by done; rewrite E; cbn [fmap option_fmap option_map zn_env zn_ch z_cfg].
    + unfold cfg. cbn [zn_env]. rewrite set_cfg_lookup, decide_True by done. rewrite E. cbn. by rewrite Hc.
    + intros a b Ha' Hb Hne. rewrite decide_False by done. by apply P3.
    + intros j e' Hj. rewrite set_cfg_lookup, decide_False by done. intros He'. rewrite decide_True by done. rewrite (G3 w j) by eauto. rewrite last_snoc. cbn. by rewrite Hc.
  - cbn [z_step] in *. destruct (zn_env s !! y) as [e|] eqn:E; [|by constructor]. destruct (zn_ch s x y) as [|m rest] eqn:Ec; [by constructor|].
    assert (Hx : x = w). { destruct (decide (x = w)); [done|]. exfalso. destruct (zi_ch envs s I x y m) as (ex & X1 & _); [rewrite Ec; left|]. rewrite (P3 x y) in Ec; [done|by eapply lookup_lt_Some|by eauto|done]. }
    subst x. destruct (zi_ch envs s I w y m) as (ew & X1 & X2 & X3); [rewrite Ec; left|].
    pose proof (zi_id envs s I y) as Hy. rewrite E in Hy. destruct (envs !! y) as [ey|] eqn:Ey; [|done]. cbn in Hy. injection Hy as Hy1 Hy2.
    constructor; [exact I'|..]; cbn [zn_env zn_ch].
    + unfold cfg. cbn [zn_env]. case_decide as Hm; [|done]. rewrite set_cfg_lookup. case_decide; [|done]. subst y. exfalso. apply (proj2 Hm). rewrite X1 in Ey. injection Ey as <-. congruence.
    + intros a b Ha' Hb Hne. rewrite decide_False by (by intros [? _]). by apply P3.
    + intros j e' Hj. destruct (decide (j = y)) as [->|Hjy].
      * rewrite (decide_True (P := w = w /\ y = y)) by done. specialize (P4 y e Hj E). rewrite Ec in P4. rewrite decide_True.
        2:{ destruct (G1 w ew X1), (G1 y ey Ey). split; [congruence|]. intros Hsid. apply Hj. symmetry. apply (G2 w y ew ey); congruence. }
        rewrite set_cfg_lookup, decide_True by done. rewrite E. cbn. intros [= <-]. cbn [z_cfg]. destruct rest as [|m' rest]; [by cbn in P4|]. rewrite last_cons_cons in P4. destruct (last (m' :: rest)) eqn:El; [exact P4|]. by apply last_None in El.
      * rewrite (decide_False (P := w = w /\ j = y)) by (by intros [_ ?]). case_decide; [rewrite set_cfg_lookup, decide_False by done|]; by apply P4.
Qed.
Lemma pi_run conn envs k c0 w c s acts : group conn envs k c0 -> PInv conn envs w c s -> turn_of w acts -> PInv conn envs w (cenv_run c (sets acts)) (z_run conn s acts).
Proof.
  intros G. revert c s. induction acts as [|a acts IH]; intros c s P Ht; [exact P|]. apply Forall_cons in Ht as [Ha Ht]. pose proof (pi_step conn envs k c0 w c s a G P Ha) as P'.
  apply IH in P'; [|done]. destruct a as [i key root v| |y x|]; try done.
Qed.
(** When environments take turns, all of them end with the configuration that a single ConfigurationEnvironment has after the same calls in the same order. *)
Theorem C70_turns conn envs k c0 turns j : group conn envs k c0 -> taking_turns conn (length envs) (z_new envs) turns -> j < length envs ->
  cfg (z_run conn (z_new envs) (acts_of turns)) j = Some (cenv_run c0 (sets (acts_of turns))).
Proof.
  intros G.
  assert (Hgen : forall s c, ZInv envs s -> all_received (length envs) s -> (forall j, j < length envs -> cfg s j = Some c) -> taking_turns conn (length envs) s turns ->
    forall j, j < length envs -> cfg (z_run conn s (acts_of turns)) j = Some (cenv_run c (sets (acts_of turns)))).
  2:{ intros Ht Hj. apply Hgen; [by apply zi_new|done| |done|done]. intros i Hi. unfold cfg. cbn [zn_env]. apply lookup_lt_is_Some in Hi as [e He]. unfold z_new. cbn [zn_env]. rewrite He. cbn. f_equal. by apply (gr_all _ _ _ _ G i e). }
  clear j. induction turns as [|[w acts] turns IH]; intros s c I Hr Hc Ht j Hj; [by apply Hc|]. cbn [taking_turns] in Ht. destruct Ht as (Hw & Hto & Hr' & Ht).
  assert (P : PInv conn envs w c s).
  { constructor; [done|by apply Hc|intros; by apply Hr|]. intros i e Hi He. assert (i < length envs). { apply lookup_lt_is_Some. pose proof (zi_id envs s I i) as H. rewrite He in H. destruct (envs !! i); [by eexists|done]. }
    rewrite Hr by done. cbn. specialize (Hc i ltac:(done)). unfold cfg in Hc. rewrite He in Hc. by injection Hc. }
  apply (pi_run conn envs k c0 w c s acts G) in P; [|done].
  assert (Hs : forall l1 l2, sets (l1 ++ l2) = sets l1 ++ sets l2) by (intros; apply omap_app).
  change (acts_of ((w, acts) :: turns)) with (acts ++ acts_of turns). unfold z_run. rewrite fold_left_app, Hs. fold (z_run conn s acts). unfold cenv_run. rewrite fold_left_app. fold (cenv_run c (sets acts)).
  apply IH; [apply P|done| |done|done]. intros i Hi. destruct (decide (i = w)) as [->|Hne]; [apply P|].
  destruct P as [Q1 Q2 Q3 Q4]. assert (exists e, zn_env (z_run conn s acts) !! i = Some e) as [e He]. { pose proof (zi_id envs _ Q1 i) as H. apply lookup_lt_is_Some in Hi as [e' He']. rewrite He' in H. destruct (zn_env (z_run conn s acts) !! i); [by eexists|done]. }
  specialize (Q4 i e Hne He). rewrite (Hr' w i) in Q4 by done. cbn in Q4. unfold cfg. rewrite He. cbn. by f_equal.
Qed.
(** Without turns they do not: two environments set one property each at the same time; once everything is received each has lost its own and has the other's. *)
Definition two_envs (k : string) (a b : Z) : list zenv := [ZEnv k a cenv_new; ZEnv k b cenv_new].
Theorem C70_refuted : exists acts, let s := z_run (fun _ _ => true) (z_new (two_envs "k" 1 2)) acts in
  all_received 2 s /\ z_get s 0 "x" "" (PInt 0) = (PInt 0, false) /\ z_get s 1 "x" "" (PInt 0) = (PInt 7, true) /\ z_get s 0 "y" "" (PInt 0) = (PInt 8, true) /\ z_get s 1 "y" "" (PInt 0) = (PInt 0, false).
Proof.
  exists [ZSet 0 "x" "" (PInt 7); ZSet 1 "y" "" (PInt 8); ZPoll 0 1; ZPoll 1 0; ZPoll 0 0; ZPoll 1 1]. cbn zeta. split; [|by vm_compute].
  intros i j Hi Hj. destruct i as [|[|]]; [| |lia]; (destruct j as [|[|]]; [| |lia]); by vm_compute.
Qed.
(** Nor when a file cannot be merged completely: loadFile then changes the environment and sends nothing. *)
Theorem C70_load_refuted : exists acts, let s := z_run (fun _ _ => true) (z_new (two_envs "k" 1 2)) acts in
  all_received 2 s /\ z_get s 0 "z" "" (PStr "d") = (PStr "new", true) /\ z_get s 1 "z" "" (PStr "d") = (PStr "d", false).
Proof.
  exists [ZSet 0 "x" "" (PStr "a"); ZPoll 1 0; ZPoll 0 0; ZLoad 0 (cenv_set (cenv_set cenv_new "x" "" (PStr "b")) "z" "" (PStr "new")) ""; ZPoll 1 0]. cbn zeta. split; [|by vm_compute].
  intros i j Hi Hj. destruct i as [|[|]]; [| |lia]; (destruct j as [|[|]]; [| |lia]); by vm_compute.
Qed.
(** Concrete cases that meet the hypotheses. *)
Definition demo_turns : list (nat * list zact) :=
  [(0, [ZSet 0 "x" "r" (PInt 1); ZPoll 1 0; ZSet 0 "x" "r" (PInt 2); ZSet 0 "n" "" (PStr "s"); ZPoll 1 0; ZPoll 0 0; ZPoll 1 0; ZPoll 0 0; ZPoll 0 0]); (1, [ZSet 1 "b" "" (PBool true); ZPoll 0 1; ZPoll 1 1])].
Example C70_case : group (fun _ _ => true) (two_envs "k" 1 2) "k" cenv_new /\ taking_turns (fun _ _ => true) 2 (z_new (two_envs "k" 1 2)) demo_turns.
Proof.
  split.
  - constructor; [|intros [|[|?]] [|[|?]] ei ej; cbn; by intros [= <-] [= <-]|done]. intros [|[|i]] e; cbn; try (intros [= <-]; done).
  - cbn [taking_turns demo_turns]. split_and!; try lia; try (by repeat constructor); intros i j Hi Hj; (destruct i as [|[|]]; [| |lia]); (destruct j as [|[|]]; [| |lia]); by vm_compute.
Qed.
Example C46_case : let before := [ZSet 0 "x" "" (PInt 1); ZSet 1 "q" "" (PInt 5)] in let after := [ZPoll 0 1; ZSet 0 "x" "" (PInt 3); ZPoll 1 0] in
  polls 1 0 after = length (zn_ch (z_run (fun _ _ => true) (z_new (two_envs "k" 1 2)) before) 0 1) /\ ZLose 0 1 ∉ after.
Proof. split; [by vm_compute|]. intros H. repeat (apply elem_of_cons in H as [H|H]; [done|]). by apply elem_of_nil in H. Qed.
Print Assumptions C46_update_reaches.
Print Assumptions C46_whole_configuration.
Print Assumptions C46_own_updates_ignored.
Print Assumptions C46_other_keys_ignored.
Print Assumptions C46_same_millisecond_refuted.
Print Assumptions C70_turns.
Print Assumptions C70_refuted.
Print Assumptions C70_load_refuted.
