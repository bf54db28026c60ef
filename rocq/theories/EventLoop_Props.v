(** * C28, C65, C66: the event loop. *)
From stdpp Require Import prelude strings list_numbers.
From Coq Require Import ZArith Lia ZifyBool.
From Verif Require Import Base MultiRing_Model MultiRing_Spec MultiRing_Proofs MultiRing_Log EventLoop_Model EventLoop_Spec EventLoop_Proofs EventLoop_Calls EventLoop_Every EventLoop_Acct EventLoop_Order EventLoop_Live.
Local Open Scope Z_scope.

Section Any.
  Context (g : elcfg) (progs : list (list Z)) (acts : list elact).
  Let s := el_run g (el_new g progs) acts.
  Let h := el_log s.
  Context (Hk : 1 <= ec_k g <= 30) (Hb : Z.of_nat (length (accepted h)) <= 2^31).
  Lemma cur_bound : m_cursor (el_ring s) < 2^31.
  Proof. pose proof (cursor_accepted g progs acts) as H. cbn in H. fold s in H. fold h in H. lia. Qed.

  (** The loop handles the accepted events one after the other in the order in which they were accepted, each with its own name and data:
      none is lost, duplicated, overwritten or overtaken. *)
  Theorem C28_order : dispatched h `prefix_of` numbered g (accepted h).
  Proof using Hk Hb.
    pose proof (rinv_run g progs acts Hk cur_bound) as R. pose proof (einv_run g progs acts Hk cur_bound) as E. fold s in R, E. destruct (cons0 _ _ _ R) as [c Hc].
    destruct (win g progs _ c Hk R Hc) as (W1 & W2 & W3 & W4). unfold h. rewrite (e_disp _ _ E _ Hc), (e_acc _ _ E). set (n := pos c + 1 + busy (el_h s)).
    destruct (l_vals _ _ (ri_l _ _ _ R)) as [L1 L2].
    assert (Hn : 0 <= n <= m_cursor (el_ring s) + 1).
    { unfold n. destruct (decide (el_h s = HNone)) as [->|Hh]; [cbn; lia|]. destruct (e_h _ _ E Hh) as (sq & nx & avail & lg & F1 & F2). rewrite Hc in F1. injection F1 as ->.
      assert (H0 : m_cons (el_ring s) !! 0%nat = Some (Cons sq (CHandle nx avail) lg)) by (by rewrite Hc).
      destruct (i_cons _ _ _ (ri_m _ _ _ R) 0%nat _ H0) as (_ & _ & _ & F & _). cbn in F. unfold pos in *. cbn [co_pc co_seq] in *. destruct (el_h s); cbn [busy]; lia. }
    exists (drop (Z.to_nat n) (numbered g (granted_events (m_log (el_ring s))))). apply list_eq. intros i. unfold numbered.
    destruct (decide (i < Z.to_nat n)%nat) as [Hi|Hi].
    - rewrite lookup_app_l by (rewrite fmap_length, seqZ_length; lia). rewrite list_lookup_fmap, lookup_seqZ_lt by lia. cbn [fmap option_fmap option_map].
      rewrite list_lookup_imap. specialize (L2 (Z.of_nat i)). rewrite Nat2Z.id in L2. rewrite L2 by lia. cbn. rewrite ?Z.add_0_l. done.
    - rewrite lookup_app_r by (rewrite fmap_length, seqZ_length; lia). rewrite fmap_length, seqZ_length, lookup_drop. f_equal. lia.
  Qed.
  (** A thread's publications are accepted or refused in the order in which it makes them. *)
  Theorem C28_program_order t l : progs !! t = Some l -> published_by t h `prefix_of` l.
  Proof using Hk Hb.
    intros Hl. pose proof (rinv_run g progs acts Hk cur_bound) as R. pose proof (pinv_run g progs acts Hk cur_bound) as P. fold s in R, P.
    pose proof (l_len _ _ (ri_l _ _ _ R)) as Hlen. rewrite fmap_length in Hlen. pose proof (lookup_lt_Some _ _ _ Hl) as Hlt. rewrite <-Hlen in Hlt. apply lookup_lt_is_Some in Hlt as [p Hp].
    specialize (P t p l Hp Hl). fold h in P. assert (Htk : el_claims (published_by t h) = el_claims (take (length (published_by t h)) l)).
    { unfold el_claims at 2. rewrite fmap_take. change ((fun z => Claim false [z]) <$> l) with (el_claims l). rewrite P, take_app_alt by (unfold el_claims; by rewrite fmap_length). done. }
    apply el_claims_inj in Htk. rewrite Htk. exists (drop (length (published_by t h)) l). by rewrite take_drop.
  Qed.
  (** A listener is called only for events of the name of its subscriber, with the data published; it was registered. *)
  Theorem C28_only_own_name q u cb d : VCall q u cb d ∈ h ->
    exists z, 0 <= q /\ accepted h !! Z.to_nat q = Some z /\ d = Some (ev_data g z) /\ sub_names h !! u = Some (ev_name g z) /\ VReg u cb ∈ h.
  Proof using Hk Hb.
    intros H. destruct (k_call _ (cinv_run g progs acts Hk cur_bound) q u cb d H) as (H1 & n & H2 & H3 & H4). change (el_log (el_run g (el_new g progs) acts)) with h in H1, H2, H3, H4.
    destruct C28_order as [k Hkk]. assert (Hz : numbered g (accepted h) !! Z.to_nat q = Some (q, n, d)) by (rewrite Hkk, lookup_app_l; [done|by eapply lookup_lt_Some]).
    unfold numbered in Hz. rewrite list_lookup_imap in Hz. destruct (accepted h !! Z.to_nat q) as [z|]; [|done]. cbn in Hz. injection Hz as E1 E2 E3. subst n d.
    exists z. split; [lia|done].
  Qed.
  (** Calls are made in the order of the events. *)
  Theorem C28_calls_in_order h1 q u cb d h2 q' u' cb' d' : h = h1 ++ VCall q u cb d :: h2 -> VCall q' u' cb' d' ∈ h2 -> q <= q'.
  Proof using Hk Hb.
    intros E H. pose proof (during_run g progs acts Hk cur_bound) as D. fold s in D. fold h in D. apply elem_of_list_split in H as (a & b & ->).
    pose proof (D _ _ _ _ _ _ E) as D1. pose proof (D (h1 ++ VCall q u cb d :: a) q' u' cb' d' b) as D2. rewrite E, <-app_assoc in D2. specialize (D2 eq_refl).
    unfold nd in *. rewrite dispatched_app, app_length in D2. lia.
  Qed.
  (** Every listener registered when the loop takes the event, and not removed while the event is handled, is called; exactly once if it was registered once. *)
  Theorem C28_every_listener h1 q n d h2 h3 u cb : h = h1 ++ VDispatch q n d :: h2 ++ VDone q :: h3 ->
    sub_names h1 !! u = Some n -> is_reg u cb h1 = true -> VUnreg u cb ∉ h2 ->
    (1 <= calls q u cb h2)%nat /\ (unique_listeners h -> calls q u cb h = 1%nat).
  Proof using Hk Hb.
    intros E H1 H2 H3.
    assert (Hge : (1 <= calls q u cb h2)%nat).
    { destruct (done_prefix g (el_new g progs) acts eq_refl (h1 ++ VDispatch q n d :: h2) q h3) as (pre & suf & Ea & Ep); [fold s; fold h; rewrite E; by rewrite <-app_assoc|].
      assert (Hbp : m_cursor (el_ring (el_run g (el_new g progs) pre)) < 2^31).
      { pose proof cur_bound as Hc. unfold s in Hc. rewrite Ea, el_run_app in Hc. pose proof (el_cursor_run g (el_run g (el_new g progs) pre) suf). lia. }
      pose proof (every_run g progs pre Hk Hbp) as V. specialize (V h1 q n d (h2 ++ [VDone q])). rewrite Ep, <-app_assoc in V. specialize (V eq_refl u cb H1 H2).
      destruct V as [V _]; [intros [Hx|Hx%elem_of_list_singleton]%elem_of_app; done|]. rewrite calls_app in V. unfold calls at 2 in V. cbn [List.filter length] in V.
      specialize (V ltac:(apply elem_of_app; right; left)). lia. }
    split; [done|]. intros Hu. pose proof (k_once _ (cinv_run g progs acts Hk cur_bound)) as K. fold s in K. fold h in K. specialize (K Hu q u cb).
    rewrite E in K |- *. rewrite calls_app in *. change (VDispatch q n d :: h2 ++ VDone q :: h3) with ([VDispatch q n d] ++ h2 ++ VDone q :: h3) in *. rewrite !calls_app in *. lia.
  Qed.
  Theorem C28_at_most_once q u cb : unique_listeners h -> (calls q u cb h <= 1)%nat.
  Proof using Hk Hb. intros Hu. by apply (k_once _ (cinv_run g progs acts Hk cur_bound)). Qed.
  (** Whatever the schedule: once the publishers have returned, the loop handles everything that was accepted, within some number of rounds
      in each of which it takes a step (other publications may go on meanwhile). *)
  Theorem C28_all_handled : producers_idle (el_ring s) ->
    exists N, forall rounds, let h' := el_log (el_run g (el_new g progs) (acts ++ concat rounds)) in
      Z.of_nat (length (accepted h')) <= 2^31 -> Forall loop_runs rounds -> Forall no_subscription_change rounds -> (N <= length rounds)%nat ->
      forall q, 0 <= q < Z.of_nat (length (accepted h)) -> VDone q ∈ h' \/ VThrew q ∈ h'.
  Proof using Hk Hb.
    intros Hi. pose proof (rinv_run g progs acts Hk cur_bound) as R. fold s in R. pose proof (cursor_accepted g progs acts) as Hca. cbn in Hca. fold s in Hca. fold h in Hca.
    assert (Hpub : forall j, 0 <= j <= m_cursor (el_ring s) -> m_pub (el_ring s) j = true).
    { intros j Hj. destruct (i_own _ _ _ (ri_m _ _ _ R) j Hj) as [|(t & p & Hp & Ho)]; [done|]. exfalso. specialize (Hi t p Hp). destruct p as [pc [|c todo]]; cbn in Hi; subst pc; done. }
    assert (Hall : forall n : nat, exists N, forall rounds, let h' := el_log (el_run g (el_new g progs) (acts ++ concat rounds)) in
      Z.of_nat (length (accepted h')) <= 2^31 -> Forall loop_runs rounds -> Forall no_subscription_change rounds -> (N <= length rounds)%nat ->
      forall q, 0 <= q < Z.of_nat n -> q <= m_cursor (el_ring s) -> VDone q ∈ h' \/ VThrew q ∈ h').
    { intros n. induction n as [|n [N IH]]; [exists 0%nat; intros; lia|]. destruct (decide (Z.of_nat n <= m_cursor (el_ring s))) as [Hle|Hgt].
      - destruct (live_loop g progs acts (Z.of_nat n) Hk cur_bound) as [N2 HN]; [intros j Hj; apply Hpub; fold s; lia|lia|]. exists (N + N2)%nat. intros rounds h' Hb' Hr Hn Hlen q Hq Hqc.
        destruct (decide (q = Z.of_nat n)) as [->|Hne]; [|apply IH; try done; lia]. apply HN; [| |lia].
        2:{ apply Forall_forall. intros r Hin. rewrite Forall_forall in Hr, Hn. split; [by apply Hr|]. specialize (Hn r Hin). eapply Forall_impl; [exact Hn|]. by intros [] ?. }
        pose proof (cursor_accepted g progs (acts ++ concat rounds)) as Hc2. cbn in Hc2. fold h' in Hc2. lia.
      - exists N. intros rounds h' Hb' Hr Hn Hlen q Hq Hqc. apply IH; try done. lia. }
    destruct (Hall (length (accepted h))) as [N HN]. exists N. intros rounds h' Hb' Hr Hn Hlen q Hq. apply HN; try done. lia.
  Qed.

  (** C65: the discard counter of a publisher object used by one thread only is the number of publications through it that were refused
      (when no refusal is just being counted); in any case it never counts more. *)
  Theorem C65_discards_exact p d : one_user g progs p -> el_disc s !! p = Some d -> none_counting s -> d = refusals g p h.
  Proof using Hk Hb.
    intros Ho Hd Hn. destruct (d_eq _ _ _ (dinv_run g progs acts Hk cur_bound) p d Ho Hd) as [-> _]. fold s. fold h.
    replace (pend p (el_dpc s)) with 0; [lia|]. unfold pend. unfold none_counting in Hn. clear -Hn. induction Hn as [|x l -> _ IH]; [done|]. cbn. exact IH.
  Qed.
  Theorem C65_discards_never_over p d : el_disc s !! p = Some d -> 0 <= d <= refusals g p h.
  Proof using Hk Hb. intros Hd. pose proof (d_le _ _ _ (dinv_run g progs acts Hk cur_bound) p d Hd) as H. fold s in H. fold h in H. unfold pend in H. lia. Qed.

  (** C66: as long as no listener throws, the ring refers only to data of events that are not handled yet (so the data of a handled event is released),
      and the publisher never finds data left behind in its slot. *)
  Theorem C66_released_after_handling : no_throw h ->
    (forall idx, ring_holds s idx -> exists q, ring_index (ec_k g) q = idx /\ 0 <= q < Z.of_nat (length (accepted h)) /\ VDone q ∉ h) /\ (forall q, VWarn q ∉ h).
  Proof using Hk Hb.
    intros Hn. pose proof (rinv_run g progs acts Hk cur_bound) as R. fold s in R. destruct (cons0 _ _ _ R) as [c Hc]. destruct (win g progs _ c Hk R Hc) as (W1 & W2 & W3 & W4).
    destruct (winv_run g progs acts Hk cur_bound Hn) as [A B]. fold s in A, B. split; [|done]. intros idx Hi. destruct (A c idx Hc Hi) as (j & J1 & J2 & _).
    exists j. split; [done|]. pose proof (cursor_accepted g progs acts) as Hca. cbn in Hca. fold s in Hca. fold h in Hca. split; [lia|].
    intros Hd. pose proof (done_pos g progs acts Hk cur_bound c j Hc Hd). lia.
  Qed.
End Any.

(** ** Concrete cases. *)
(** Two publishers "a" and "b", a ring of two slots; two listeners for "a", one for "b". *)
Definition ex_g : elcfg := ElCfg 1 ["a"; "b"]%string (fun z => (Z.to_nat (z / 10), z)).
Definition ex_subs : list elact := [ENewSub "a"; ENewSub "b"; EReg 0 7; EReg 0 9; EReg 1 8].
Definition ex_progs : list (list Z) := [[1; 2; 3]; [11]].
Definition ex_acts : list elact :=
  ex_subs ++ replicate 9 (EProd 0 true) ++ replicate 8 (EProd 1 true) ++ replicate 7 (EProd 0 true) ++ replicate 40 (ELoop false) ++ replicate 40 (EProd 0 true) ++ replicate 40 (ELoop false).
Definition ex_s : elst := el_run ex_g (el_new ex_g ex_progs) ex_acts.
(** Event 2 is refused and counted, the others are delivered in order to the listeners of their name. *)
Example ex_run : el_log ex_s =
  [VNewSub "a"; VNewSub "b"; VReg 0 7; VReg 0 9; VReg 1 8; VAccept 0 1 0; VAccept 1 11 1; VRefuse 0 2;
   VDispatch 0 "a" (Some 1); VCall 0 0 7 (Some 1); VCall 0 0 9 (Some 1); VDone 0; VDispatch 1 "b" (Some 11); VCall 1 1 8 (Some 11); VDone 1;
   VAccept 0 3 2; VDispatch 2 "a" (Some 3); VCall 2 0 7 (Some 3); VCall 2 0 9 (Some 3); VDone 2] /\ el_disc ex_s = [1; 0].
Proof. split; vm_compute; done. Qed.
Example ex_hyps : 1 <= ec_k ex_g <= 30 /\ Z.of_nat (length (accepted (el_log ex_s))) <= 2^31 /\ unique_listeners (el_log ex_s) /\ no_throw (el_log ex_s) /\
  producers_idle (el_ring ex_s) /\ none_counting ex_s /\ one_user ex_g ex_progs 0 /\ dispatched (el_log ex_s) = [(0, "a", Some 1); (1, "b", Some 11); (2, "a", Some 3)]%string.
Proof.
  destruct ex_run as [E _]. rewrite !E. split; [cbn; lia|]. split; [vm_compute; done|]. split; [apply (bool_decide_unpack _); vm_compute; done|].
  split; [intros q Hq; repeat (apply elem_of_cons in Hq as [?|Hq]; [done|]); by apply elem_of_nil in Hq|]. split.
  { assert (Hp : m_prods (el_ring ex_s) = [Prod MIdle []; Prod MIdle []]) by (vm_compute; done). intros t p. rewrite Hp. destruct t as [|[|]]; cbn; [by intros [= <-]|by intros [= <-]|done]. }
  split; [assert (Hp : el_dpc ex_s = [DNone; DNone]) by (vm_compute; done); unfold none_counting; rewrite Hp; by repeat constructor|].
  split; [|done]. intros t u l m z y Ht Hu Hz Hy Ez Ey.
  assert (Hone : forall t l z, ex_progs !! t = Some l -> z ∈ l -> (ec_pub ex_g z).1 = 0%nat -> t = 0%nat).
  { clear. intros t l z Ht Hz Ez. destruct t as [|[|t]]; [reflexivity| |discriminate Ht]. exfalso. injection Ht as <-. apply elem_of_list_singleton in Hz as ->. discriminate Ez. }
  rewrite (Hone t l z Ht Hz Ez), (Hone u m y Hu Hy Ey). reflexivity.
Qed.
(** With two threads using one publisher object a refused publication can go uncounted: the counter is a plain integer, both read 0 and write 1. *)
Definition bad_progs : list (list Z) := [[1; 2; 3]; [4]].
Definition bad_s : elst := el_run ex_g (el_new ex_g bad_progs) (ex_subs ++ replicate 22 (EProd 0 true) ++ replicate 6 (EProd 1 true) ++ [EProd 0 true; EProd 1 true; EProd 0 true; EProd 1 true]).
Theorem C65_discards_refuted : 1 <= ec_k ex_g <= 30 /\ Z.of_nat (length (accepted (el_log bad_s))) <= 2^31 /\ none_counting bad_s /\
  refusals ex_g 0 (el_log bad_s) = 2 /\ el_disc bad_s !! 0%nat = Some 1.
Proof.
  split; [cbn; lia|]. split; [vm_compute; done|]. split; [|split; vm_compute; done].
  assert (Hp : el_dpc bad_s = [DNone; DNone]) by (vm_compute; done). unfold none_counting. rewrite Hp. by repeat constructor.
Qed.
(** A listener that throws: the other listener of the event is not called, and the ring keeps the data although the event is over
    (the publisher that comes to this slot next finds it and warns). *)
Definition throw_s : elst := el_run ex_g (el_new ex_g ex_progs) (ex_subs ++ replicate 18 (EProd 0 true) ++ replicate 7 (ELoop true) ++ replicate 20 (ELoop false) ++ replicate 18 (EProd 0 true)).
Theorem C66_released_refuted : el_log throw_s =
  [VNewSub "a"; VNewSub "b"; VReg 0 7; VReg 0 9; VReg 1 8; VAccept 0 1 0; VAccept 0 2 1; VDispatch 0 "a" (Some 1); VCall 0 0 7 (Some 1); VThrew 0;
   VDispatch 1 "a" (Some 2); VCall 1 0 7 (Some 2); VCall 1 0 9 (Some 2); VDone 1; VAccept 0 3 2; VWarn 2].
Proof. vm_compute. done. Qed.
Theorem C28_throw_skips_listeners : is_reg 0 9 (take 7 (el_log throw_s)) = true /\ VDispatch 0 "a" (Some 1) ∈ el_log throw_s /\ VThrew 0 ∈ el_log throw_s /\ calls 0 0 9 (el_log throw_s) = 0%nat.
Proof. rewrite C66_released_refuted. split; [vm_compute; done|]. split; [do 7 right; left|]. split; [do 9 right; left|]. vm_compute. done. Qed.

Print Assumptions C28_order.
Print Assumptions C28_program_order.
Print Assumptions C28_only_own_name.
Print Assumptions C28_calls_in_order.
Print Assumptions C28_every_listener.
Print Assumptions C28_at_most_once.
Print Assumptions C28_all_handled.
Print Assumptions C65_discards_exact.
Print Assumptions C65_discards_never_over.
Print Assumptions C65_discards_refuted.
Print Assumptions C66_released_after_handling.
Print Assumptions C66_released_refuted.
Print Assumptions C28_throw_skips_listeners.
