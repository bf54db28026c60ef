(** * C71-C74: the ZeroMQ channels. *)
From stdpp Require Import prelude gmap.
From Verif Require Import ZmqChannel_Model.

(** ** C72: dispatch of received messages. *)
(** Specification, from the history alone: the messages that arrived, and how many frames the poller has taken. *)
Definition two_frames (a : ract) : Prop := match a with RArrive fs => exists t c, fs = [t; c] | _ => True end.
Definition arrived (acts : list ract) : list (frame * frame) := omap (fun a => match a with RArrive [t; c] => Some (t, c) | _ => None end) acts.
Definition taken_step (x : nat * nat) (a : ract) : nat * nat :=          (* frames waiting, frames taken *)
  match a with RArrive fs => (x.1 + length fs, x.2) | RRecv => match x.1 with O => x | S n => (n, S x.2) end | _ => x end.
Definition taken (acts : list ract) : nat := (fold_left taken_step acts (0, 0)).2.
Definition handled (acts : list ract) : list (frame * frame) := take (taken acts / 2) (arrived acts).
Definition of_topic (t : frame) (l : list (frame * frame)) : list frame := omap (fun m => if decide (m.1 = t) then Some m.2 else None) l.
Definition forwarded (t : frame) (s : zrecv) : list (nat * frame) := omap (fun x => if decide (x.1.1 = t) then Some (x.1.2, x.2) else None) (r_out s).

Definition flat (l : list (frame * frame)) : list frame := l ≫= fun m => [m.1; m.2].
Lemma flat_app l1 l2 : flat (l1 ++ l2) = flat l1 ++ flat l2.
Proof. apply bind_app. Qed.
Lemma flat_len l : length (flat l) = 2 * length l.
Proof. induction l; cbn; [done|]. unfold flat in *. rewrite IHl. lia. Qed.
(** Frames and messages: the poller has taken an even number of frames iff it waits for a topic. *)
Record RInv (acts : list ract) (s : zrecv) : Prop := {
  rv_cnt : fold_left taken_step acts (0, 0) = (length (r_in s), taken acts);
  rv_in : r_in s = drop (taken acts) (flat (arrived acts));
  rv_le : taken acts + length (r_in s) = length (flat (arrived acts));
  rv_topic : r_topic s = if Nat.even (taken acts) then None else flat (arrived acts) !! (taken acts - 1)
}.
Lemma arrived_app a b : arrived (a ++ b) = arrived a ++ arrived b.
Proof. apply omap_app. Qed.
Lemma rv_step acts a : Forall two_frames (acts ++ [a]) -> RInv acts (r_run acts) -> RInv (acts ++ [a]) (r_run (acts ++ [a])).
Proof.
  intros Hf [V1 V2 V3 V4]. unfold r_run. rewrite fold_left_app. cbn [fold_left]. fold (r_run acts). set (s := r_run acts) in *.
  apply Forall_app in Hf as [_ Ha%List.Forall_inv].
  assert (Hcnt : fold_left taken_step (acts ++ [a]) (0, 0) = taken_step (length (r_in s), taken acts) a) by (rewrite fold_left_app; cbn [fold_left]; by rewrite V1).
  assert (Ht : taken (acts ++ [a]) = (taken_step (length (r_in s), taken acts) a).2) by (unfold taken at 1; by rewrite Hcnt).
  destruct a as [t p|t|fs|].
  - assert (E : arrived (acts ++ [RReg t p]) = arrived acts) by (rewrite arrived_app; apply app_nil_r). cbn [taken_step snd] in Ht. cbn [r_step]. case_decide; (constructor; cbn [r_in r_topic]; rewrite ?Hcnt, ?Ht, ?E; done).
  - assert (E : arrived (acts ++ [RUnreg t]) = arrived acts) by (rewrite arrived_app; apply app_nil_r). cbn [taken_step snd] in Ht. cbn [r_step]. constructor; cbn [r_in r_topic]; rewrite ?Hcnt, ?Ht, ?E; done.
  - destruct Ha as (t & c & ->). assert (E : arrived (acts ++ [RArrive [t; c]]) = arrived acts ++ [(t, c)]) by apply arrived_app. cbn [taken_step snd fst] in Ht. cbn [r_step].
    constructor; cbn [r_in r_topic]; rewrite ?Hcnt, ?Ht, ?E, ?flat_app, ?app_length; cbn [taken_step fst snd length flat mbind list_bind app].
    + done.
    + rewrite drop_app_le by lia. by rewrite <-V2.
    + lia.
    + destruct (Nat.even (taken acts)) eqn:Ee; [done|]. rewrite lookup_app_l; [done|]. assert (taken acts <> 0) by (intros H0; rewrite H0 in Ee; done). lia.
  - assert (E : arrived (acts ++ [RRecv]) = arrived acts) by (rewrite arrived_app; apply app_nil_r). cbn [r_step].
    destruct (r_in s) as [|f rest] eqn:Ei.
    + cbn [taken_step fst snd length] in *. constructor; rewrite ?Hcnt, ?Ht, ?E, ?Ei; try done.
    + cbn [taken_step fst snd length] in *. assert (Hf : flat (arrived acts) !! taken acts = Some f) by (rewrite <-(Nat.add_0_r (taken acts)), <-lookup_drop, <-V2; done).
      assert (Hd : rest = drop (S (taken acts)) (flat (arrived acts))) by (rewrite <-Nat.add_1_r, <-drop_drop, <-V2; done).
      assert (Hs : S (taken acts) - 1 = taken acts) by lia.
      destruct (r_topic s) as [t|] eqn:Et; constructor; cbn [r_in r_topic]; rewrite ?Hcnt, ?Ht, ?E; try done; try lia; rewrite Nat.even_succ, <-Nat.negb_even.
      * destruct (Nat.even (taken acts)); [done|]. done.
      * destruct (Nat.even (taken acts)) eqn:Ee; [cbn [negb]; rewrite ?Hs; by rewrite Hf|]. symmetry in V4. apply lookup_ge_None in V4. assert (taken acts <> 0) by (intros H0; rewrite H0 in Ee; done). lia.
Qed.
Lemma rv_run acts : Forall two_frames acts -> RInv acts (r_run acts).
Proof. induction acts as [|a acts IH] using rev_ind; intros H; [by constructor|]. apply rv_step; [done|]. apply IH. by apply Forall_app in H as [H _]. Qed.
Lemma flat_even l k : flat l !! (2 * k) = fst <$> l !! k.
Proof. revert k. induction l as [|m l IH]; intros k; [done|]. destruct k as [|k]; [done|]. replace (2 * S k) with (S (S (2 * k))) by lia. cbn [flat mbind list_bind app lookup list_lookup]. apply IH. Qed.
Lemma flat_odd l k : flat l !! (2 * k + 1) = snd <$> l !! k.
Proof. revert k. induction l as [|m l IH]; intros k; [done|]. destruct k as [|k]; [done|]. replace (2 * S k + 1) with (S (S (2 * k + 1))) by lia. cbn [flat mbind list_bind app lookup list_lookup]. apply IH. Qed.
(** One step of the poller: either it finishes the next message, or no message is finished. *)
Lemma recv_cases acts : Forall two_frames acts ->
  (exists t c, handled (acts ++ [RRecv]) = handled acts ++ [(t, c)] /\ r_topic (r_run acts) = Some t /\ head (r_in (r_run acts)) = Some c) \/
  (handled (acts ++ [RRecv]) = handled acts /\ (r_topic (r_run acts) = None \/ r_in (r_run acts) = [])).
Proof.
  intros H. destruct (rv_run acts H) as [V1 V2 V3 V4]. set (s := r_run acts) in *.
  assert (E : arrived (acts ++ [RRecv]) = arrived acts) by (rewrite arrived_app; apply app_nil_r).
  assert (Ht : taken (acts ++ [RRecv]) = match r_in s with [] => taken acts | _ => S (taken acts) end). { unfold taken at 1. rewrite fold_left_app. cbn [fold_left]. rewrite V1. unfold taken_step. cbn [fst snd]. by destruct (r_in s). }
  unfold handled. rewrite E, Ht. destruct (r_in s) as [|f rest] eqn:Ei; [right; auto|].
  assert (Hf : flat (arrived acts) !! taken acts = Some f) by (rewrite <-(Nat.add_0_r (taken acts)), <-lookup_drop, <-V2; done).
  destruct (Nat.even (taken acts)) eqn:Ee.
  - right. split; [|auto]. f_equal. apply Nat.even_spec in Ee as [k ->]. replace (S (2 * k)) with (k * 2 + 1) by lia. rewrite Nat.div_add_l by lia. rewrite (Nat.mul_comm 2 k), Nat.div_mul by lia. cbn. lia.
  - left. assert (Nat.odd (taken acts) = true) as Ho by (unfold Nat.odd; by rewrite Ee). apply Nat.odd_spec in Ho as [k Hk]. rewrite Hk in *. rewrite flat_odd in Hf.
    replace (2 * k + 1 - 1) with (2 * k) in V4 by lia. rewrite flat_even in V4. destruct (arrived acts !! k) as [[t c]|] eqn:El; [|done]. cbn in Hf, V4. injection Hf as <-. exists t, c.
    split; [|done]. replace (S (2 * k + 1)) with (S k * 2) by lia. rewrite Nat.div_mul by lia. replace ((2 * k + 1) / 2) with k; [by apply take_S_r|]. rewrite (Nat.mul_comm 2 k), Nat.div_add_l by lia. cbn. lia.
Qed.
Lemma handled_other acts a : a <> RRecv -> two_frames a -> Forall two_frames acts -> handled (acts ++ [a]) = handled acts.
Proof.
  intros Hn Ha H. destruct (rv_run acts H) as [V1 V2 V3 V4]. rewrite flat_len in V3. assert (Ht : taken (acts ++ [a]) = taken acts). { unfold taken at 1. rewrite fold_left_app. cbn [fold_left]. rewrite V1. by destruct a. }
  unfold handled. rewrite Ht, arrived_app. apply take_app_le. apply Nat.div_le_upper_bound; lia.
Qed.
Lemma handled_mono acts a : Forall two_frames (acts ++ [a]) -> exists new, handled (acts ++ [a]) = handled acts ++ new.
Proof.
  intros H. pose proof H as [H1 H2%List.Forall_inv]%Forall_app. destruct a; try (exists []; rewrite app_nil_r; by apply handled_other).
  destruct (recv_cases acts H1) as [(t & c & -> & _)|[-> _]]; [by eexists|exists []; by rewrite app_nil_r].
Qed.
(** A topic registered for the first time and not unregistered since: exactly the messages of this topic handled after the registration go to its publisher, in the order they arrived, once each. *)
Theorem C72_dispatch before after t p : Forall two_frames (before ++ RReg t p :: after) -> (forall p', RReg t p' ∉ before) -> RUnreg t ∉ after ->
  forwarded t (r_run (before ++ RReg t p :: after)) = (fun c => (p, c)) <$> of_topic t (drop (length (handled before)) (handled (before ++ RReg t p :: after))).
Proof.
  intros Hf Hb Hu.
  assert (Hk : forall acts, (forall p', RReg t p' ∉ acts) -> t ∉ r_known (r_run acts) /\ r_fun (r_run acts) !! t = None /\ forwarded t (r_run acts) = []).
  { clear. induction acts as [|a acts IH] using rev_ind; intros H; [split_and!; [set_solver|done|done]|]. destruct IH as (I1 & I2 & I3); [intros p' H'; apply (H p'), elem_of_app; by left|].
    assert (Ha : forall p', a <> RReg t p') by (intros p' ->; apply (H p'), elem_of_app; right; left).
    unfold r_run. rewrite fold_left_app. cbn [fold_left]. fold (r_run acts). set (s := r_run acts) in *. destruct a as [t' p'|t'|fs|]; cbn [r_step].
    - assert (t' <> t) by (intros ->; by apply (Ha p')). case_decide; [done|]. cbn [r_known r_fun r_out]. split_and!; [set_solver|by rewrite lookup_insert_ne|done].
    - cbn [r_known r_fun r_out]. split_and!; [done| |done]. rewrite lookup_delete_None. by right.
    - done.
    - destruct (r_in s); [done|]. destruct (r_topic s) as [t0|] eqn:Et; [|done]. cbn [r_known r_fun]. split_and!; [done|done|]. destruct (r_fun s !! t0) eqn:E0; [|done].
      unfold forwarded in *. cbn [r_out]. rewrite omap_app, I3. cbn. rewrite decide_False; [done|]. intros ->. congruence. }
  destruct (Hk before Hb) as (K1 & K2 & K3). clear Hk. revert Hf Hu. induction after as [|a after IH] using rev_ind; intros Hf Hu.
  - assert (Hfb : Forall two_frames before) by (apply Forall_app in Hf; tauto).
    assert (Hh : handled (before ++ [RReg t p]) = handled before) by (by apply handled_other). rewrite Hh.
    assert (forwarded t (r_run (before ++ [RReg t p])) = []) as ->. { unfold r_run. rewrite fold_left_app. cbn [fold_left r_step]. fold (r_run before). by rewrite decide_False. }
    by rewrite drop_ge by lia.
  - replace (before ++ RReg t p :: after ++ [a]) with ((before ++ RReg t p :: after) ++ [a]) in * by (by rewrite <-app_assoc). set (l := before ++ RReg t p :: after) in *.
    pose proof Hf as [Hf1 Hf2%List.Forall_inv]%Forall_app. specialize (IH Hf1 ltac:(intros H; apply Hu, elem_of_app; by left)).
    assert (Hreg : t ∈ r_known (r_run l) /\ r_fun (r_run l) !! t = Some p).
    { assert (Hu' : RUnreg t ∉ after) by (intros H; apply Hu, elem_of_app; by left). unfold l. clear -K1 Hu'. induction after as [|x after IH] using rev_ind.
      - unfold r_run. rewrite fold_left_app. cbn [fold_left r_step]. fold (r_run before). rewrite decide_False by done. cbn [r_known r_fun]. split; [set_solver|by rewrite lookup_insert].
      - destruct IH as [I1 I2]; [intros H; apply Hu', elem_of_app; by left|]. rewrite app_comm_cons, app_assoc. unfold r_run. rewrite fold_left_app. cbn [fold_left]. fold (r_run (before ++ RReg t p :: after)). set (s := r_run (before ++ RReg t p :: after)) in *.
        destruct x as [t' p'|t'|fs|]; cbn [r_step].
        + case_decide as Hd; [done|]. cbn [r_known r_fun]. split; [set_solver|]. rewrite lookup_insert_ne; [done|]. by intros ->.
        + cbn [r_known r_fun]. split; [done|]. rewrite lookup_delete_ne; [done|]. intros ->. apply Hu', elem_of_app. right. left.
        + done.
        + destruct (r_in s); [done|]. by destruct (r_topic s). }
    destruct Hreg as [R1 R2]. assert (Hle : length (handled before) <= length (handled l)).
    { unfold l in *. clear -Hf1. induction after as [|x after IH] using rev_ind.
      - destruct (handled_mono before (RReg t p)) as [new ->]; [done|]. rewrite app_length. lia.
      - rewrite app_comm_cons, app_assoc in *. destruct (handled_mono (before ++ RReg t p :: after) x) as [new ->]; [done|]. rewrite app_length. specialize (IH ltac:(by apply Forall_app in Hf1 as [? _])). lia. }
    assert (a = RRecv \/ a <> RRecv) as [->|Hn] by (destruct a; auto; by right).
    2:{ rewrite handled_other by done. rewrite <-IH. unfold r_run. rewrite fold_left_app. cbn [fold_left]. fold (r_run l). set (s := r_run l) in *. destruct a as [t' p'|t'|fs|]; cbn [r_step]; [by case_decide|done|done|done]. }
    unfold r_run. rewrite fold_left_app. cbn [fold_left]. fold (r_run l). destruct (recv_cases l Hf1) as [(t0 & c & Hh & Ht & Hc)|[Hh Ht]]; rewrite Hh; set (s := r_run l) in *; cbn [r_step].
    + destruct (r_in s) as [|f rest]; [done|]. cbn in Hc. injection Hc as ->. rewrite Ht. rewrite drop_app_le by done. unfold of_topic, forwarded in *. rewrite omap_app, fmap_app. cbn [r_out]. destruct (decide (t0 = t)) as [->|Hne].
      * rewrite R2, omap_app, IH. cbn. by rewrite !decide_True.
      * replace (omap (fun m : frame * frame => if decide (m.1 = t) then Some m.2 else None) [(t0, c)]) with (@nil frame) by (cbn; by rewrite decide_False). rewrite fmap_nil, app_nil_r, <-IH. destruct (r_fun s !! t0); [|done]. rewrite omap_app. cbn. rewrite decide_False by done. by rewrite app_nil_r.
    + rewrite <-IH. destruct Ht as [Ht|Ht].
      * destruct (r_in s); [done|]. by rewrite Ht.
      * by rewrite Ht.
Qed.
(** A topic that is unregistered gets nothing more, *)
Theorem C72_unregistered_gets_nothing before after t : (forall p', RReg t p' ∉ after) -> forwarded t (r_run (before ++ RUnreg t :: after)) = forwarded t (r_run before).
Proof.
  intros Ha. assert (H : r_fun (r_run (before ++ RUnreg t :: after)) !! t = None /\ forwarded t (r_run (before ++ RUnreg t :: after)) = forwarded t (r_run before)); [|tauto].
  induction after as [|x after IH] using rev_ind.
  - unfold r_run. rewrite fold_left_app. cbn [fold_left r_step r_fun]. split; [by rewrite lookup_delete|done].
  - destruct IH as [I1 I2]; [intros p' H; apply (Ha p'), elem_of_app; by left|]. rewrite app_comm_cons, app_assoc. unfold r_run at 1 2. rewrite fold_left_app. cbn [fold_left]. fold (r_run (before ++ RUnreg t :: after)). set (s := r_run (before ++ _)) in *.
    destruct x as [t' p'|t'|fs|]; cbn [r_step].
    + case_decide as Hd; [done|]. cbn [r_fun r_out]. assert (t' <> t) by (intros ->; apply (Ha p'), elem_of_app; right; left). split; [by rewrite lookup_insert_ne|done].
    + split; [cbn [r_fun]; rewrite lookup_delete_None; by right|done].
    + done.
    + destruct (r_in s); [done|]. destruct (r_topic s) as [t0|]; [|done]. cbn [r_fun r_out]. split; [done|]. unfold forwarded in *. cbn [r_out]. destruct (r_fun s !! t0) eqn:E; [|done]. rewrite omap_app. cbn. rewrite decide_False by congruence. by rewrite app_nil_r.
Qed.
(** and cannot be registered again: the second registration has no effect, for every history. *)
Theorem C72_register_again_refuted before mid after t p p' : forwarded t (r_run (before ++ RReg t p :: mid ++ RUnreg t :: RReg t p' :: after)) = forwarded t (r_run (before ++ RReg t p :: mid)).
Proof.
  assert (Hk : forall l s, t ∈ r_known s -> t ∈ r_known (fold_left r_step l s)).
  { clear. induction l as [|a l IH]; intros s H; [done|]. apply IH. destruct a as [t0 p0|t0|fs|]; cbn [r_step]; [case_decide; [done|cbn [r_known]; set_solver]|done|done|]. destruct (r_in s); [done|]. by destruct (r_topic s). }
  assert (H0 : t ∈ r_known (r_run (before ++ [RReg t p]))). { unfold r_run. rewrite fold_left_app. cbn [fold_left r_step]. case_decide; [done|]. cbn [r_known]. set_solver. }
  replace (before ++ RReg t p :: mid ++ RUnreg t :: RReg t p' :: after) with ((before ++ RReg t p :: mid) ++ RUnreg t :: RReg t p' :: after) by (by rewrite <-!app_assoc).
  assert (H : forall rest, r_fun (r_run ((before ++ RReg t p :: mid) ++ RUnreg t :: rest)) !! t = None /\ forwarded t (r_run ((before ++ RReg t p :: mid) ++ RUnreg t :: rest)) = forwarded t (r_run (before ++ RReg t p :: mid))).
  2:{ apply H. }
  set (l := before ++ RReg t p :: mid) in *. assert (Hl : t ∈ r_known (r_run l)). { unfold l. replace (before ++ RReg t p :: mid) with ((before ++ [RReg t p]) ++ mid) by (by rewrite <-app_assoc). unfold r_run. rewrite fold_left_app. apply Hk, H0. }
  induction rest as [|x rest IH] using rev_ind.
  - unfold r_run. rewrite fold_left_app. cbn [fold_left r_step r_fun]. split; [by rewrite lookup_delete|done].
  - destruct IH as [I1 I2]. rewrite app_comm_cons, app_assoc. unfold r_run at 1 2. rewrite fold_left_app. cbn [fold_left]. fold (r_run (l ++ RUnreg t :: rest)).
    assert (Hkn : t ∈ r_known (r_run (l ++ RUnreg t :: rest))) by (unfold r_run; rewrite fold_left_app; apply Hk, Hl). set (s := r_run (l ++ _)) in *.
    destruct x as [t' q|t'|fs|]; cbn [r_step].
    + case_decide as Hd; [done|]. cbn [r_fun r_out]. assert (t' <> t) by (intros ->; done). split; [by rewrite lookup_insert_ne|done].
    + split; [cbn [r_fun]; rewrite lookup_delete_None; by right|done].
    + done.
    + destruct (r_in s); [done|]. destruct (r_topic s) as [t0|]; [|done]. cbn [r_fun r_out]. split; [done|]. unfold forwarded in *. cbn [r_out]. destruct (r_fun s !! t0) eqn:E; [|done]. rewrite omap_app. cbn. rewrite decide_False by congruence. by rewrite app_nil_r.
Qed.
(** One message with a single frame (of another program on the same endpoint, say) makes the poller take every later content for a topic and every later topic for a content. *)
Theorem C72_framing_refuted : let acts := [RReg [1%Z] 10; RReg [2%Z] 20; RArrive [[9%Z]]; RArrive [[1%Z]; [2%Z]]; RArrive [[1%Z]; [5%Z]]; RRecv; RRecv; RRecv; RRecv; RRecv] in
  r_in (r_run acts) = [] /\ r_out (r_run acts) = [([2%Z], 20, [1%Z])].
Proof. split; vm_compute; reflexivity. Qed.
Example C72_case : let before := [RArrive [[1]; [7]]; RRecv; RRecv]%Z in let after := [RArrive [[1%Z]; [8%Z]]; RReg [1%Z] 4; RReg [2%Z] 5; RArrive [[2%Z]; [9%Z]]; RRecv; RRecv; RRecv; RRecv] in
  Forall two_frames (before ++ RReg [1]%Z 3 :: after) /\ handled (before ++ RReg [1]%Z 3 :: after) = [([1], [7]); ([1], [8]); ([2], [9])]%Z /\ r_out (r_run (before ++ RReg [1]%Z 3 :: after)) = [([1%Z], 3, [8%Z]); ([2%Z], 5, [9%Z])].
Proof. split; [repeat (apply Forall_cons; split; [try exact I; cbn; eexists; eexists; reflexivity|]); apply Forall_nil; exact I|]. split; vm_compute; reflexivity. Qed.

(** ** C71: what is sent. *)
Section Send.
Context {E : Type} (ser : E -> frame).
(** A program publishing on any number of channels of one socket: channel index, the pool's choice, the event. *)
Definition send_step (x : list frame * list zsend) (a : nat * option nat * E) : list frame * list zsend :=
  let '(i, pick, e) := a in
  match x.2 !! i with Some c => let '(fs, c') := zsend_publish c pick (ser e) in (x.1 ++ fs, <[i := c']> x.2) | None => x end.
Definition send_run (cs : list zsend) (acts : list (nat * option nat * E)) : list frame * list zsend := fold_left send_step acts ([], cs).
(** The events published, with the topic of their channel. *)
Definition published (cs : list zsend) (acts : list (nat * option nat * E)) : list (frame * E) := omap (fun a => (fun c => (zs_topic c, a.2)) <$> cs !! a.1.1) acts.
(** One message per publication, in order: its topic and a content that starts with the serialised event; nothing else for JSON and trivial-copy channels. *)
Definition content_ok (k : zkind) (e : E) (m : frame) : Prop := (exists rest, m = ser e ++ rest) /\ (k <> KBinary -> m = ser e).
Lemma publish_shape c pick e : exists m, zsend_publish c pick (ser e) = ([zs_topic c; m], (zsend_publish c pick (ser e)).2) /\ content_ok (zs_kind c) e m /\
  zs_topic (zsend_publish c pick (ser e)).2 = zs_topic c /\ zs_kind (zsend_publish c pick (ser e)).2 = zs_kind c.
Proof.
  unfold zsend_publish. destruct (pick ≫= _) as [[i b]|].
  - eexists. split; [done|]. split; [|done]. destruct (zs_kind c); (split; [|done]); [exists (drop (length (ser e)) b); done|exists []; by rewrite app_nil_r|exists []; by rewrite app_nil_r].
  - exists (ser e). split; [done|]. split; [|done]. split; [exists []; by rewrite app_nil_r|done].
Qed.
Theorem C73_starts_with_event cs acts : exists msgs, (send_run cs acts).1 = flat msgs /\
  Forall2 (fun x m => m.1 = x.1 /\ exists rest, m.2 = ser x.2 ++ rest) (published cs acts) msgs.
Proof.
  assert (H : (forall i, (fun c => (zs_topic c, zs_kind c)) <$> (send_run cs acts).2 !! i = (fun c => (zs_topic c, zs_kind c)) <$> cs !! i) /\
    exists msgs, (send_run cs acts).1 = flat msgs /\ Forall2 (fun x m => m.1 = x.1 /\ exists rest, m.2 = ser x.2 ++ rest) (published cs acts) msgs); [|apply H].
  induction acts as [|[[i pick] e] acts IH] using rev_ind; [split; [done|]; exists []; split; [done|constructor]|]. destruct IH as (I1 & msgs & I2 & I3). unfold send_run in *. rewrite fold_left_app. cbn [fold_left]. set (x := fold_left _ acts _) in *.
  unfold published. rewrite omap_app. fold (published cs acts). cbn [omap list_omap fst snd]. unfold send_step. pose proof (I1 i) as Hi. destruct (x.2 !! i) as [c|] eqn:Ex; destruct (cs !! i) as [c0|] eqn:E0; try done.
  - cbn in Hi. injection Hi as Ht Hk. destruct (publish_shape c pick e) as (m & Hm & [Hc _] & Ht' & Hk'). rewrite Hm. cbn [fst snd]. split.
    + intros j. destruct (decide (j = i)) as [->|Hne]; [|by rewrite list_lookup_insert_ne]. rewrite list_lookup_insert by (by eapply lookup_lt_Some). rewrite E0. cbn. by rewrite Ht', Hk', Ht, Hk.
    + exists (msgs ++ [(zs_topic c, m)]). rewrite flat_app, I2. split; [done|]. apply Forall2_app; [done|]. constructor; [|done]. cbn. split; [done|]. exact Hc.
  - cbn [fmap option_fmap option_map]. rewrite app_nil_r. split; [done|]. by exists msgs.
Qed.
(** JSON and trivial-copy channels send exactly the serialised event. *)
Theorem C71_exact_content cs acts : Forall (fun c => zs_kind c <> KBinary) cs -> (send_run cs acts).1 = flat ((fun x => (x.1, ser x.2)) <$> published cs acts).
Proof.
  intros HF.
  assert (H : (forall i, (fun c => (zs_topic c, zs_kind c)) <$> (send_run cs acts).2 !! i = (fun c => (zs_topic c, zs_kind c)) <$> cs !! i) /\ (send_run cs acts).1 = flat ((fun x => (x.1, ser x.2)) <$> published cs acts)); [|apply H].
  induction acts as [|[[i pick] e] acts IH] using rev_ind; [done|]. destruct IH as (I1 & I2). unfold send_run in *. rewrite fold_left_app. cbn [fold_left]. set (x := fold_left _ acts _) in *.
  unfold published. rewrite omap_app, fmap_app. fold (published cs acts). rewrite flat_app. cbn [omap list_omap fst snd]. unfold send_step. pose proof (I1 i) as Hi. destruct (x.2 !! i) as [c|] eqn:Ex; destruct (cs !! i) as [c0|] eqn:E0; try done.
  - cbn in Hi. injection Hi as Ht Hk. destruct (publish_shape c pick e) as (m & Hm & [_ Hc] & Ht' & Hk'). rewrite Hm. cbn [fst snd]. split.
    + intros j. destruct (decide (j = i)) as [->|Hne]; [|by rewrite list_lookup_insert_ne]. rewrite list_lookup_insert by (by eapply lookup_lt_Some). rewrite E0. cbn. by rewrite Ht', Hk', Ht, Hk.
    + rewrite I2. rewrite Hc; [|rewrite Hk; by apply (Forall_lookup_1 _ _ _ _ HF E0)]. cbn. by rewrite Ht.
  - split; [done|]. rewrite I2. symmetry. apply app_nil_r.
Qed.
(** On a binary channel used by one thread with one buffer, every message is as long as the longest event ever sent: old bytes are sent again. *)
Theorem C73_binary_length topic es e : let c0 := zsend_new KBinary topic 0 in
  exists m, (send_run [c0] ((fun e => (0, Some 0, e)) <$> (es ++ [e]))).1 = (send_run [c0] ((fun e => (0, Some 0, e)) <$> es)).1 ++ [topic; m] /\ length m = foldr (fun e n => Nat.max (length (ser e)) n) 0 (es ++ [e]).
Proof.
  intros c0. set (lm := fun es => foldr (fun e n => Nat.max (length (ser e)) n) 0 es).
  assert (Hlm : forall es e, lm (es ++ [e]) = Nat.max (lm es) (length (ser e))). { clear. intros es e. unfold lm. induction es as [|x es IH]; cbn; [lia|]. rewrite IH. lia. }
  assert (H : exists b, (send_run [c0] ((fun e => (0, Some 0, e)) <$> es)).2 = [ZSend KBinary topic [b]] /\ length b = lm es).
  { induction es as [|x es IH] using rev_ind; [by exists []|]. destruct IH as (b & H1 & H2). rewrite fmap_app. unfold send_run in *. rewrite fold_left_app. cbn [fmap list_fmap fold_left]. set (y := fold_left _ _ _) in *.
    unfold send_step. rewrite H1. cbn. exists (buf_write b (ser x)). split; [done|]. unfold buf_write. rewrite app_length, drop_length, Hlm. lia. }
  destruct H as (b & H1 & H2). exists (buf_write b (ser e)). rewrite fmap_app. unfold send_run in *. rewrite fold_left_app. cbn [fmap list_fmap fold_left]. set (y := fold_left _ _ _) in *. unfold send_step. rewrite H1. cbn. split; [done|].
  change (length (buf_write b (ser e)) = lm (es ++ [e])). unfold buf_write. rewrite app_length, drop_length, Hlm. lia.
Qed.

(** From end to end: the events published on a topic, over any number of channels on the socket, arrive in order, once each, at the publisher registered for the topic, as values, for every
    serialisation that can be read back without looking at what follows (cereal's portable binary; the trivial copy). *)
Theorem C71_end_to_end cs sends racts t p (dec : frame -> option E) :
  (forall e rest, dec (ser e ++ rest) = Some e) ->
  Forall two_frames (RReg t p :: racts) -> flat (arrived racts) = (send_run cs sends).1 -> taken racts = length (flat (arrived racts)) -> RUnreg t ∉ racts ->
  (fun x => (x.1, dec x.2)) <$> forwarded t (r_run (RReg t p :: racts)) = (fun e => (p, Some e)) <$> omap (fun x => if decide (x.1 = t) then Some x.2 else None) (published cs sends).
Proof.
  intros Hdec Hf Harr Htk Hu. pose proof (C72_dispatch [] racts t p Hf ltac:(intros p' H; by apply elem_of_nil in H) Hu) as Hd. cbn [app] in Hd. rewrite Hd.
  assert (Hh : handled (RReg t p :: racts) = arrived racts).
  { unfold handled. replace (taken (RReg t p :: racts)) with (taken racts) by done. rewrite Htk, flat_len. replace (arrived (RReg t p :: racts)) with (arrived racts) by done. apply take_ge. rewrite Nat.mul_comm, Nat.div_mul by lia. done. }
  rewrite Hh. replace (handled []) with (@nil (frame * frame)) by done. cbn [length]. rewrite drop_0.
  destruct (C73_starts_with_event cs sends) as (msgs & H1 & H2). rewrite <-Harr in H1.
  assert (arrived racts = msgs) as ->.
  { clear -H1. revert H1. generalize (arrived racts) as l. intros l. revert msgs. induction l as [|[a b] l IH]; intros [|[a' b'] msgs] H; try done. cbn in H. injection H as -> -> H. f_equal. by apply IH. }
  clear -Hdec H2. induction H2 as [|x m l l' [Hm1 [rest Hm2]] H2 IH]; [done|]. unfold of_topic in *. cbn [omap list_omap]. rewrite Hm1. case_decide; [|exact IH]. cbn [fmap list_fmap]. unfold fmap in IH. cbn [list_fmap fst snd]. rewrite Hm2, Hdec. f_equal. exact IH.
Qed.
(** With JSON and trivial-copy channels the serialisation only has to be read back as it is. *)
Theorem C71_end_to_end_exact cs sends racts t p (dec : frame -> option E) :
  Forall (fun c => zs_kind c <> KBinary) cs -> (forall e, dec (ser e) = Some e) ->
  Forall two_frames (RReg t p :: racts) -> flat (arrived racts) = (send_run cs sends).1 -> taken racts = length (flat (arrived racts)) -> RUnreg t ∉ racts ->
  (fun x => (x.1, dec x.2)) <$> forwarded t (r_run (RReg t p :: racts)) = (fun e => (p, Some e)) <$> omap (fun x => if decide (x.1 = t) then Some x.2 else None) (published cs sends).
Proof.
  intros Hk Hdec Hf Harr Htk Hu. pose proof (C72_dispatch [] racts t p Hf ltac:(intros p' H; by apply elem_of_nil in H) Hu) as Hd. cbn [app] in Hd. rewrite Hd.
  assert (Hh : handled (RReg t p :: racts) = arrived racts).
  { unfold handled. replace (taken (RReg t p :: racts)) with (taken racts) by done. rewrite Htk, flat_len. replace (arrived (RReg t p :: racts)) with (arrived racts) by done. apply take_ge. rewrite Nat.mul_comm, Nat.div_mul by lia. done. }
  rewrite Hh. replace (handled []) with (@nil (frame * frame)) by done. cbn [length]. rewrite drop_0.
  rewrite (C71_exact_content cs sends Hk) in Harr.
  assert (arrived racts = (fun x => (x.1, ser x.2)) <$> published cs sends) as ->.
  { revert Harr. generalize (arrived racts) as l. generalize ((fun x : frame * E => (x.1, ser x.2)) <$> published cs sends) as msgs. clear. intros msgs l. revert msgs. induction l as [|[a b] l IH]; intros [|[a' b'] msgs] H; try done. cbn in H. injection H as -> -> H. f_equal. by apply IH. }
  generalize (published cs sends) as l. clear -Hdec. induction l as [|x l IH]; [done|]. unfold of_topic in *. cbn [fmap list_fmap omap list_omap fst snd]. case_decide; [|exact IH]. cbn [fmap list_fmap fst snd]. rewrite Hdec. f_equal. exact IH.
Qed.
End Send.
(** The claim that a message is the serialised event and nothing else is false on binary channels: 2 bytes after 3 are sent as 3. *)
Theorem C73_stale_bytes_refuted : (send_run (fun e : frame => e) [zsend_new KBinary [7]%Z 0] [(0, Some 0, [1; 2; 3]%Z); (0, Some 0, [4; 5]%Z)]).1 = [[7]; [1; 2; 3]; [7]; [4; 5; 3]]%Z.
Proof. vm_compute. reflexivity. Qed.
Example C71_case :
  let ser := fun n : nat => [Z.of_nat n] in let dec := fun m : frame => match m with z :: _ => Some (Z.to_nat z) | [] => None end in
  let cs := [zsend_new KBinary [7]%Z 2; zsend_new KJson [8]%Z 0] in let sends := [(0, Some 1, 5); (1, None, 6); (0, Some 0, 9)] in
  let racts := [RArrive [[7]; [5]]; RRecv; RArrive [[8]; [6]]; RRecv; RRecv; RArrive [[7]; [9]]; RRecv; RRecv; RRecv]%Z in
  (forall e rest, dec (ser e ++ rest) = Some e) /\ flat (arrived racts) = (send_run ser cs sends).1 /\ taken racts = length (flat (arrived racts)) /\ published cs sends = [([7]%Z, 5); ([8]%Z, 6); ([7]%Z, 9)].
Proof. cbn zeta. split; [intros e rest; cbn; by rewrite Nat2Z.id|]. split; [vm_compute; reflexivity|]. split; vm_compute; reflexivity. Qed.

(** ** The provider of channels: one channel per kind and topic, whatever the calls. *)
Definition zp_calls (l : list (zkind * frame * nat)) : list (nat * nat) * zprov := fold_left (fun x a => let '(r, p) := zp_get x.2 a.1.1 a.1.2 a.2 in (x.1 ++ [r], p)) l ([], zp_new).
Lemma kind_code_inj k k' : kind_code k = kind_code k' -> k = k'.
Proof. by destruct k, k'. Qed.
(** Two calls give the same channel iff kind and topic are the same ... *)
Definition zp_ok (l : list (zkind * frame * nat)) (out : list (nat * nat)) (p : zprov) : Prop :=
  length out = length l /\ (forall i a r, l !! i = Some a -> out !! i = Some r -> zp_map p !! (kind_code a.1.1, a.1.2) = Some r) /\
  (forall k x, zp_map p !! k = Some x -> x.1 < zp_made p) /\ (forall k k' x x', zp_map p !! k = Some x -> zp_map p !! k' = Some x' -> x.1 = x'.1 -> k = k').
Lemma zp_inv l : zp_ok l (zp_calls l).1 (zp_calls l).2.
Proof.
  induction l as [|a l IH] using rev_ind; [split_and!; done|]. destruct IH as (I1 & I2 & I3 & I4). unfold zp_calls in *. rewrite fold_left_app. cbn [fold_left]. set (x := fold_left _ l _) in *.
  unfold zp_get. destruct (zp_map x.2 !! (kind_code a.1.1, a.1.2)) as [r|] eqn:E; cbn [fst snd].
  - split_and!; [rewrite !app_length; cbn; lia| |done|done]. intros i b r' Hb Hr. apply lookup_app_Some in Hb as [Hb|[Hge Hb]].
    + rewrite lookup_app_l in Hr by (rewrite I1; by eapply lookup_lt_Some). by eapply I2.
    + rewrite lookup_app_r in Hr by lia. rewrite I1 in Hr. apply list_lookup_singleton_Some in Hb as [Hb <-]. apply list_lookup_singleton_Some in Hr as [_ <-]. done.
  - unfold zp_ok. cbn [zp_map zp_made]. split_and!; [rewrite !app_length; cbn; lia| | |].
    + intros i b r' Hb Hr. apply lookup_app_Some in Hb as [Hb|[Hge Hb]].
      * rewrite lookup_app_l in Hr by (rewrite I1; by eapply lookup_lt_Some). rewrite lookup_insert_ne; [by eapply I2|]. intros Heq. rewrite Heq in E. rewrite (I2 _ _ _ Hb Hr) in E. done.
      * rewrite lookup_app_r in Hr by lia. rewrite I1 in Hr. apply list_lookup_singleton_Some in Hb as [Hb <-]. apply list_lookup_singleton_Some in Hr as [_ <-]. by rewrite lookup_insert.
    + intros k y Hk. apply lookup_insert_Some in Hk as [[_ <-]|[_ Hk]]; cbn; [lia|]. apply I3 in Hk. lia.
    + intros k k' y y' Hk Hk'. apply lookup_insert_Some in Hk as [[<- <-]|[Hn Hk]]; apply lookup_insert_Some in Hk' as [[<- <-]|[Hn' Hk']]; cbn; intros He; [done|apply I3 in Hk'; lia|apply I3 in Hk; lia|by eapply I4].
Qed.
Theorem C74_one_channel_per_topic l i j a b ra rb : l !! i = Some a -> l !! j = Some b -> (zp_calls l).1 !! i = Some ra -> (zp_calls l).1 !! j = Some rb ->
  (ra.1 = rb.1 <-> a.1.1 = b.1.1 /\ a.1.2 = b.1.2).
Proof.
  intros Ha Hb Hra Hrb. destruct (zp_inv l) as (I1 & I2 & I3 & I4). pose proof (I2 _ _ _ Ha Hra) as Ma. pose proof (I2 _ _ _ Hb Hrb) as Mb. split.
  - intros He. pose proof (I4 _ _ _ _ Ma Mb He) as Hk. injection Hk as H1 H2. by apply kind_code_inj in H1.
  - intros [E1 E2]. rewrite E1, E2 in Ma. congruence.
Qed.
(** ... but a topic asked for with another type gets the channel of the first type. *)
Theorem C99_types_refuted : (zp_calls [(KBinary, [7]%Z, 1); (KBinary, [7]%Z, 2)]).1 = [(0, 1); (0, 1)].
Proof. vm_compute. reflexivity. Qed.
Print Assumptions C72_dispatch.
Print Assumptions C72_unregistered_gets_nothing.
Print Assumptions C72_register_again_refuted.
Print Assumptions C72_framing_refuted.
Print Assumptions C73_starts_with_event.
Print Assumptions C71_exact_content.
Print Assumptions C73_binary_length.
Print Assumptions C71_end_to_end.
Print Assumptions C71_end_to_end_exact.
Print Assumptions C73_stale_bytes_refuted.
Print Assumptions C74_one_channel_per_topic.
Print Assumptions C99_types_refuted.
