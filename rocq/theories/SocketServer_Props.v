(** * C202, C203: a server and its clients that exchange one request and one reply per connection. *)
From stdpp Require Import prelude.
From Coq Require Import Lia.
From Verif Require Import Base Socket_Model Socket_Props SocketOpen_Model SocketServer_Model.

(** ** Vocabulary. *)
(** Nothing happens to connection i but delays, splits and interruptions that the code retries, and its client stays. *)
Definition calm (i : nat) (a : svact) : Prop :=
  match a with DCli j x | DSrv j x => j = i -> harmless x | DGone j => j <> i | DAccept _ => True end.
(** No system call of the server's process fails for good, whatever the clients do. *)
Definition server_lucky (a : svact) : Prop := match a with DSrv _ x => harmless x | DAccept o => exists fd, o = AccOk fd | _ => True end.
(** One round: each side of connection i gets to make a call of each kind. *)
Definition both_talk (i : nat) (round : list svact) : Prop :=
  (exists n, DCli i (SStep n) ∈ round) /\ (exists n, DCli i (RStep n) ∈ round) /\ (exists n, DSrv i (SStep n) ∈ round) /\ (exists n, DSrv i (RStep n) ∈ round).

Lemma recv_any m m' grow fd s a : receiver_act a = true -> sk_step m grow fd s a = sk_step m' grow fd s a.
Proof. by destruct a. Qed.
Lemma drop_any m m' grow grow' fd fd' s : sk_step m grow fd s SDrop = sk_step m' grow' fd' s SDrop.
Proof. done. Qed.
Lemma done_fix m grow fd s a : k_rpc s = RDone -> k_rpc (sk_step m grow fd s a) = RDone /\ k_str (sk_step m grow fd s a) = k_str s.
Proof.
  intros Hd. destruct a; cbn [sk_step]; rewrite ?Hd; try done; destruct (k_spc s); try done; case_decide; try done. by destruct (on_write_error e).
Qed.
Lemma snd_rpc m grow fd s a : receiver_act a = false -> k_rpc (sk_step m grow fd s a) = k_rpc s /\ k_str (sk_step m grow fd s a) = k_str s.
Proof. intros H. destruct a; try done; cbn [sk_step]; destruct (k_spc s); try done; case_decide; try done. by destruct (on_write_error e). Qed.
Lemma rcv_spc m grow fd s a : receiver_act a = true -> k_spc (sk_step m grow fd s a) = k_spc s.
Proof.
  intros H. destruct a; try done; cbn [sk_step]; destruct (k_rpc s); try done; case_decide; try done; case_decide; try done.
  - unfold end_call. by case_decide.
  - destruct (k_pipe s); [|done]. destruct (k_shut s); [|done]. unfold end_call. by case_decide.
  - destruct (on_read_error e); try done. unfold end_call. by case_decide.
Qed.
Lemma end_rpc grow s : k_rpc (end_call grow s) <> RThrew.
Proof. unfold end_call. by case_decide. Qed.
Lemma rcv_nothrow m grow fd s a : fd <> 0 -> harmless a -> k_rpc s <> RThrew -> k_rpc (sk_step m grow fd s a) <> RThrew.
Proof.
  intros Hfd Ha Hs. destruct (receiver_act a) eqn:E; [|by rewrite (proj1 (snd_rpc m grow fd s a E))].
  destruct a; try done; cbn [sk_step]; destruct (k_rpc s) eqn:Er; try (by rewrite Er); rewrite decide_False by done; case_decide.
  - apply end_rpc.
  - destruct (k_pipe s); [|done]. destruct (k_shut s); [apply end_rpc|by rewrite Er].
  - by rewrite Er.
  - cbn in Ha. rewrite Ha. by rewrite Er.
Qed.
Lemma snd_nothrow m grow fd s a : sender_act a = true -> harmless a -> k_spc s <> SThrew -> k_spc (sk_step m grow fd s a) <> SThrew.
Proof. intros E Ha Hs. destruct a; try done; cbn [sk_step]; destruct (k_spc s) eqn:Es; try (by rewrite Es); case_decide; try (by rewrite ?Es); try done. cbn in Ha. rewrite Ha. by rewrite Es. Qed.

Section Server.
  Context (req : nat -> list Z) (reply : list Z -> list Z) (grow : nat -> nat) (sfd cfd : nat -> nat) (cap : nat).
  Context (Hgrow : reserves grow) (Hcap : 2 <= cap) (Hs : forall i, sfd i <> 0) (Hc : forall i, cfd i <> 0).
  Notation step := (sv_step req reply grow sfd cfd cap).
  Notation run := (sv_run req reply grow sfd cfd cap).
  Notation qrun i := (sk_run (req i) grow (sfd i) cap).
  Notation prun m i := (sk_run m grow (cfd i) cap).
  Lemma qrun_snoc i l a : sk_step (req i) grow (sfd i) (qrun i l) a = qrun i (l ++ [a]).
  Proof. unfold sk_run. by rewrite fold_left_app. Qed.
  Lemma prun_snoc m i l a : sk_step m grow (cfd i) (prun m i l) a = prun m i (l ++ [a]).
  Proof. unfold sk_run. by rewrite fold_left_app. Qed.

  (** Any environment. *)
  Definition rep_ok (i : nat) (q : sess) : Prop :=
    match k_rpc (ss_req q) with RDone => exists lb, ss_rep q = prun (reply (k_str (ss_req q))) i lb | _ => exists lb, forall m, ss_rep q = prun m i lb end.
  Definition sess_ok (i : nat) (q : sess) : Prop := (exists la, ss_req q = qrun i la) /\ rep_ok i q.
  Lemma rep_req i q r g : rep_ok i q -> (k_rpc (ss_req q) = RDone -> k_rpc r = RDone /\ k_str r = k_str (ss_req q)) -> rep_ok i (Sess r (ss_rep q) g).
  Proof.
    unfold rep_ok. cbn [ss_req ss_rep]. intros H1 H2. destruct (k_rpc (ss_req q)) eqn:E.
    - destruct H1 as (lb & H1). destruct (k_rpc r); exists lb; auto.
    - destruct (H2 eq_refl) as [-> ->]. done.
    - destruct H1 as (lb & H1). destruct (k_rpc r); exists lb; auto.
  Qed.
  Lemma rep_drop i q : rep_ok i q -> rep_ok i (Sess (ss_req q) (sk_step [] grow 0 (ss_rep q) SDrop) (ss_gone q)).
  Proof.
    unfold rep_ok. cbn [ss_req ss_rep]. destruct (k_rpc (ss_req q)) eqn:E; intros (lb & H1); exists (lb ++ [SDrop]).
    - intros m. rewrite <- prun_snoc, <- H1. done.
    - rewrite <- prun_snoc, <- H1. done.
    - intros m. rewrite <- prun_snoc, <- H1. done.
  Qed.
  Lemma cli_ok i q a : sess_ok i q -> sess_ok i (cli_step req reply grow sfd cfd i q a).
  Proof.
    intros [(la & Ha) Hr]. unfold cli_step. destruct (ss_gone q); [by split; [exists la|]|]. destruct (sender_act a) eqn:Es.
    - split; [exists (la ++ [a]); cbn; by rewrite Ha, qrun_snoc|]. apply rep_req; [done|]. intros Hd. destruct (done_fix (req i) grow (sfd i) (ss_req q) a Hd). done.
    - destruct (receiver_act a) eqn:Er; [|by split; [exists la|]]. destruct (k_spc (ss_req q)); try (by split; [exists la|]).
      split; [by exists la|]. unfold rep_ok in *. cbn [ss_req ss_rep]. destruct (k_rpc (ss_req q)); destruct Hr as (lb & Hr); exists (lb ++ [a]).
      + intros m. rewrite <- prun_snoc, <- Hr. by apply recv_any.
      + rewrite <- prun_snoc, <- Hr. done.
      + intros m. rewrite <- prun_snoc, <- Hr. by apply recv_any.
  Qed.
  Lemma srv_ok i q a : sess_ok i q -> sess_ok i (srv_step req reply grow sfd cfd i q a).
  Proof.
    intros [(la & Ha) Hr]. unfold srv_step. destruct (receiver_act a) eqn:Er.
    - split; [exists (la ++ [a]); cbn; by rewrite Ha, qrun_snoc|]. apply rep_req; [done|]. intros Hd. destruct (done_fix (req i) grow (sfd i) (ss_req q) a Hd). done.
    - destruct (sender_act a) eqn:Es; [|by split; [exists la|]]. destruct (k_rpc (ss_req q)) eqn:E; try (by split; [exists la|]).
      split; [by exists la|]. unfold rep_ok in *. cbn [ss_req ss_rep]. rewrite E in *. destruct Hr as (lb & Hr). exists (lb ++ [a]). rewrite <- prun_snoc, <- Hr. done.
  Qed.
  Definition all_ok (s : svst) : Prop := forall i q, sv_sess s !! i = Some q -> sess_ok i q.
  Lemma die_ok (l : list sess) : (forall i q, l !! i = Some q -> sess_ok i q) -> all_ok (sv_die grow l).
  Proof.
    intros H i q. unfold sv_die. cbn [sv_sess]. rewrite list_lookup_fmap. intros (q0 & Hq & ->)%fmap_Some. destruct (H _ _ Hq) as [H1 H2]. split; [done|]. by apply rep_drop.
  Qed.
  Lemma ins_ok (l : list sess) i q : (forall j p, l !! j = Some p -> sess_ok j p) -> sess_ok i q -> forall j p, <[i:=q]> l !! j = Some p -> sess_ok j p.
  Proof. intros H Hq j p [(<- & <- & _)|[Hne Hp]]%list_lookup_insert_Some; auto. Qed.
  Lemma ok_step s a : all_ok s -> all_ok (step s a).
  Proof.
    intros H. destruct a as [o|i x|i x|i]; cbn [sv_step].
    - destruct (sv_alive s); [|done]. destruct o; try (by apply die_ok). intros i q. cbn [sv_sess]. intros [Hq|[Hl Hq]]%lookup_app_Some; [by apply H|].
      apply list_lookup_singleton_Some in Hq as [_ <-]. split; [by exists []|]. by exists [].
    - destruct (sv_sess s !! i) as [q|] eqn:E; [|done]. unfold all_ok. cbn [sv_sess]. apply ins_ok; [done|]. by apply cli_ok, H.
    - destruct (sv_sess s !! i) as [q|] eqn:E; [|done]. destruct (sv_alive s); [|done]. cbn zeta.
      assert (H' : forall j p, <[i:=srv_step req reply grow sfd cfd i q x]> (sv_sess s) !! j = Some p -> sess_ok j p) by (apply ins_ok; [done|]; by apply srv_ok, H).
      destruct (srv_threw _); [by apply die_ok|done].
    - destruct (sv_sess s !! i) as [q|] eqn:E; [|done]. unfold all_ok. cbn [sv_sess]. apply ins_ok; [done|]. destruct (H _ _ E) as [(la & Ha) Hr].
      split; [exists (la ++ [SDrop]); cbn [ss_req]; by rewrite Ha, qrun_snoc|]. apply rep_req; [done|]. intros Hd. by apply done_fix.
  Qed.
  Lemma ok_run acts : all_ok (run acts).
  Proof. unfold sv_run. induction acts as [|a acts IH] using rev_ind; [by intros i q|]. rewrite fold_left_app. by apply ok_step. Qed.
  (** * C202. Whatever happens (failures, clients and server that end at any moment): what the server has when its recvMessage of connection i has returned is a prefix of that client's request, and what a
      client has when its recvMessage has ended is a prefix of the reply to what the server received on this connection; nothing at all if the server has not received. *)
  Theorem C202_own_bytes acts i q : sv_sess (run acts) !! i = Some q ->
    (k_rpc (ss_req q) <> RReading -> k_str (ss_req q) `prefix_of` req i) /\
    (k_rpc (ss_rep q) <> RReading -> match k_rpc (ss_req q) with RDone => k_str (ss_rep q) `prefix_of` reply (k_str (ss_req q)) | _ => k_str (ss_rep q) = [] end).
  Proof.
    intros Hq. destruct (ok_run acts i q Hq) as [(la & Ha) Hr]. unfold rep_ok in Hr. split.
    - rewrite Ha. intros Hn. by apply C68_always_a_prefix.
    - intros Hn. destruct (k_rpc (ss_req q)) eqn:E; destruct Hr as (lb & Hr).
      + rewrite (Hr []) in Hn |- *. by apply prefix_nil_inv, (C68_always_a_prefix [] grow (cfd i) cap Hgrow Hcap).
      + rewrite Hr in Hn |- *. by apply C68_always_a_prefix.
      + rewrite (Hr []) in Hn |- *. by apply prefix_nil_inv, (C68_always_a_prefix [] grow (cfd i) cap Hgrow Hcap).
  Qed.

  (** The server's process does not end as long as its own calls do not fail, whatever its clients do. *)
  Definition untroubled (s : svst) : Prop := sv_alive s = true /\ forall i q, sv_sess s !! i = Some q -> k_rpc (ss_req q) <> RThrew /\ k_spc (ss_rep q) <> SThrew.
  Lemma threw_false q : srv_threw q = false <-> k_rpc (ss_req q) <> RThrew /\ k_spc (ss_rep q) <> SThrew.
  Proof. unfold srv_threw. destruct (k_rpc (ss_req q)), (k_spc (ss_rep q)); split; try done; by intros []. Qed.
  Lemma untroubled_step s a : untroubled s -> server_lucky a -> untroubled (step s a).
  Proof.
    intros [U1 U2] Ha. destruct a as [o|i x|i x|i]; cbn [sv_step].
    - destruct Ha as (fd & ->). rewrite U1. split; [done|]. intros i q. cbn [sv_sess]. intros [Hq|[Hl Hq]]%lookup_app_Some; [by eapply U2|].
      apply list_lookup_singleton_Some in Hq as [_ <-]. done.
    - destruct (sv_sess s !! i) as [q|] eqn:E; [|done]. split; [done|]. cbn [sv_sess]. intros j p [(<- & <- & _)|[Hne Hp]]%list_lookup_insert_Some; [|by eapply U2].
      destruct (U2 _ _ E) as [H1 H2]. unfold cli_step. destruct (ss_gone q); [done|]. destruct (sender_act x) eqn:Es.
      + cbn [ss_req ss_rep]. assert (receiver_act x = false) by by destruct x. split; [|done]. by rewrite (proj1 (snd_rpc _ _ _ _ _ H)).
      + destruct (receiver_act x) eqn:Er; [|done]. destruct (k_spc (ss_req q)); [done| |done]. cbn [ss_req ss_rep]. split; [done|]. by rewrite rcv_spc.
    - destruct (sv_sess s !! i) as [q|] eqn:E; [|done]. rewrite U1. cbn zeta. destruct (U2 _ _ E) as [H1 H2].
      assert (Hq : k_rpc (ss_req (srv_step req reply grow sfd cfd i q x)) <> RThrew /\ k_spc (ss_rep (srv_step req reply grow sfd cfd i q x)) <> SThrew).
      { unfold srv_step. destruct (receiver_act x) eqn:Er; cbn [ss_req ss_rep]; [split; [by apply rcv_nothrow|done]|].
        destruct (sender_act x) eqn:Es; [|done]. destruct (k_rpc (ss_req q)) eqn:Ed; [by rewrite Ed| |done]. cbn [ss_req ss_rep]. rewrite Ed. split; [done|]. by apply snd_nothrow. }
      rewrite (proj2 (threw_false _) Hq). split; [done|]. cbn [sv_sess]. intros j p [(<- & <- & _)|[Hne Hp]]%list_lookup_insert_Some; [done|by eapply U2].
    - destruct (sv_sess s !! i) as [q|] eqn:E; [|done]. split; [done|]. cbn [sv_sess]. intros j p [(<- & <- & _)|[Hne Hp]]%list_lookup_insert_Some; [|by eapply U2].
      cbn [ss_req ss_rep]. by destruct (U2 _ _ E).
  Qed.
  Theorem C202_server_survives acts : Forall server_lucky acts -> sv_alive (run acts) = true.
  Proof.
    intros Ha. assert (untroubled (run acts)) as [? _]; [|done]. unfold sv_run. revert Ha. induction acts as [|a acts IH] using rev_ind; [intros _; by split|].
    intros [H1 H2]%Forall_app. rewrite fold_left_app. apply Forall_cons in H2 as [H2 _]. apply untroubled_step; auto.
  Qed.

  (** A client whose process has ended sends and receives nothing more. *)
  Lemma rcv_written m fd s a : receiver_act a = true -> k_written (sk_step m grow fd s a) = k_written s.
  Proof.
    intros H. destruct a; try done; cbn [sk_step]; destruct (k_rpc s); try done; case_decide; try done; case_decide; try done.
    - unfold end_call. by case_decide.
    - destruct (k_pipe s); [|done]. destruct (k_shut s); [|done]. unfold end_call. by case_decide.
    - destruct (on_read_error e); try done. unfold end_call. by case_decide.
  Qed.
  Definition client_saw (q : sess) : nat * rcvpc * list Z := (k_written (ss_req q), k_rpc (ss_rep q), k_str (ss_rep q)).
  Lemma gone_step s a i q : sv_sess s !! i = Some q -> ss_gone q = true -> exists q', sv_sess (step s a) !! i = Some q' /\ ss_gone q' = true /\ client_saw q' = client_saw q.
  Proof.
    intros Hq Hg. pose proof (lookup_lt_Some _ _ _ Hq) as Hlt.
    assert (Hdie : forall l p, l !! i = Some p -> ss_gone p = true -> client_saw p = client_saw q -> exists q', sv_sess (sv_die grow l) !! i = Some q' /\ ss_gone q' = true /\ client_saw q' = client_saw q).
    { intros l p Hp Hp1 Hp2. eexists. unfold sv_die. cbn [sv_sess]. rewrite list_lookup_fmap, Hp. split; [done|]. split; [done|]. unfold client_saw in *. cbn [ss_req ss_rep].
      destruct (snd_rpc [] grow 0 (ss_rep p) SDrop eq_refl) as [-> ->]. done. }
    destruct a as [o|j x|j x|j]; cbn [sv_step].
    - destruct (sv_alive s); [|by exists q]. destruct o; try by eapply Hdie. exists q. cbn [sv_sess]. split; [|done]. by apply lookup_app_l_Some.
    - destruct (sv_sess s !! j) as [p|] eqn:E; [|by exists q]. cbn [sv_sess]. destruct (decide (j = i)) as [->|Hne].
      + rewrite Hq in E. injection E as <-. exists q. rewrite list_lookup_insert by done. unfold cli_step. by rewrite Hg.
      + exists q. by rewrite list_lookup_insert_ne.
    - destruct (sv_sess s !! j) as [p|] eqn:E; [|by exists q]. destruct (sv_alive s); [|by exists q]. cbn zeta.
      assert (H : exists q', <[j:=srv_step req reply grow sfd cfd j p x]> (sv_sess s) !! i = Some q' /\ ss_gone q' = true /\ client_saw q' = client_saw q).
      { destruct (decide (j = i)) as [->|Hne]; [|exists q; by rewrite list_lookup_insert_ne]. rewrite Hq in E. injection E as <-. eexists. rewrite list_lookup_insert by done. split; [done|].
        unfold srv_step, client_saw. destruct (receiver_act x) eqn:Er; cbn [ss_req ss_rep ss_gone]; [split; [done|]; by rewrite rcv_written|]. destruct (sender_act x); [|done].
        destruct (k_rpc (ss_req q)); try done. cbn [ss_req ss_rep ss_gone]. split; [done|]. by destruct (snd_rpc (reply (k_str (ss_req q))) grow (cfd i) (ss_rep q) x Er) as [-> ->]. }
      destruct H as (q' & H1 & H2 & H3). destruct (srv_threw _); [by eapply Hdie|by exists q'].
    - destruct (sv_sess s !! j) as [p|] eqn:E; [|by exists q]. cbn [sv_sess]. destruct (decide (j = i)) as [->|Hne].
      + rewrite Hq in E. injection E as <-. eexists. rewrite list_lookup_insert by done. split; [done|]. split; [done|]. unfold client_saw. cbn [ss_req ss_rep]. done.
      + exists q. by rewrite list_lookup_insert_ne.
  Qed.
  Theorem C202_gone acts more i q : sv_sess (run (acts ++ [DGone i])) !! i = Some q ->
    exists q', sv_sess (run (acts ++ [DGone i] ++ more)) !! i = Some q' /\ k_written (ss_req q') = k_written (ss_req q) /\ k_rpc (ss_rep q') = k_rpc (ss_rep q) /\ k_str (ss_rep q') = k_str (ss_rep q).
  Proof.
    intros Hq. assert (Hg : ss_gone q = true).
    { unfold sv_run in Hq. rewrite fold_left_app in Hq. cbn [fold_left sv_step] in Hq. destruct (sv_sess (fold_left step acts sv_new) !! i) as [p|] eqn:E; [|congruence].
      cbn [sv_sess] in Hq. rewrite list_lookup_insert in Hq by (by eapply lookup_lt_Some). by injection Hq as <-. }
    rewrite app_assoc. unfold sv_run. rewrite fold_left_app. change (fold_left step (acts ++ [DGone i]) sv_new) with (run (acts ++ [DGone i])).
    assert (H : exists q', sv_sess (fold_left step more (run (acts ++ [DGone i]))) !! i = Some q' /\ ss_gone q' = true /\ client_saw q' = client_saw q).
    { induction more as [|a more IH] using rev_ind; [by exists q|]. destruct IH as (q1 & H1 & H2 & H3). rewrite fold_left_app. cbn [fold_left].
      destruct (gone_step _ a i q1 H1 H2) as (q' & H4 & H5 & H6). exists q'. split; [done|]. split; [done|]. congruence. }
    destruct H as (q' & H1 & _ & H3). exists q'. split; [done|]. unfold client_saw in H3. by injection H3.
  Qed.
  (** A calm connection of a server that lives. *)
  Record Calm (i : nat) (q : sess) : Prop := {
    ca_here : ss_gone q = false;
    ca_req : exists la, Forall harmless la /\ ss_req q = qrun i la;
    ca_rep : exists lb, Forall harmless lb /\ ss_rep q = prun (reply (req i)) i lb;
    ca_open : k_spc (ss_rep q) = SWriting \/ k_rpc (ss_req q) = RDone
  }.
  Lemma calm_str i q : Calm i q -> k_rpc (ss_req q) = RDone -> k_str (ss_req q) = req i.
  Proof. intros [_ (la & H1 & ->) _ _] H. by apply C43_received_is_sent. Qed.
  Lemma calm_cli i q x : Calm i q -> harmless x -> Calm i (cli_step req reply grow sfd cfd i q x).
  Proof.
    intros K Hx. pose proof K as [K1 (la & K2 & K2') (lb & K3 & K3') K4]. unfold cli_step. rewrite K1. destruct (sender_act x) eqn:Es.
    - constructor; cbn [ss_gone ss_req ss_rep]; [done| |by exists lb|].
      + exists (la ++ [x]). rewrite K2', qrun_snoc. split; [|done]. apply Forall_app. split; [done|]. by constructor.
      + destruct K4 as [K4|K4]; [by left|]. right. by apply done_fix.
    - destruct (receiver_act x) eqn:Er; [|done]. destruct (k_spc (ss_req q)) eqn:Ec; [done| |done].
      constructor; cbn [ss_gone ss_req ss_rep]; [done|by exists la| |].
      + exists (lb ++ [x]). rewrite (recv_any _ (reply (req i))) by done. rewrite K3', prun_snoc. split; [|done]. apply Forall_app. split; [done|]. by constructor.
      + by rewrite rcv_spc.
  Qed.
  Lemma calm_srv i q x : Calm i q -> harmless x -> Calm i (srv_step req reply grow sfd cfd i q x).
  Proof.
    intros K Hx. pose proof K as [K1 (la & K2 & K2') (lb & K3 & K3') K4]. unfold srv_step. destruct (receiver_act x) eqn:Er.
    - constructor; cbn [ss_gone ss_req ss_rep]; [done| |by exists lb|].
      + exists (la ++ [x]). rewrite K2', qrun_snoc. split; [|done]. apply Forall_app. split; [done|]. by constructor.
      + destruct K4 as [K4|K4]; [by left|]. right. by apply done_fix.
    - destruct (sender_act x) eqn:Es; [|done]. destruct (k_rpc (ss_req q)) eqn:Ec; [done| |done].
      constructor; cbn [ss_gone ss_req ss_rep]; [done|by exists la| |by right].
      exists (lb ++ [x]). rewrite (calm_str i q K Ec). rewrite K3', prun_snoc. split; [|done]. apply Forall_app. split; [done|]. by constructor.
  Qed.
  Lemma alive_before s acts : sv_alive (fold_left step acts s) = true -> sv_alive s = true.
  Proof.
    revert s. induction acts as [|a acts IH]; [done|]. intros s H. apply IH in H. destruct a as [o|i x|i x|i]; cbn [sv_step] in H.
    - destruct (sv_alive s) eqn:E; [done|congruence].
    - by destruct (sv_sess s !! i).
    - destruct (sv_sess s !! i); [|done]. destruct (sv_alive s) eqn:E; [done|congruence].
    - by destruct (sv_sess s !! i).
  Qed.
  Lemma calm_step1 i s a q : sv_alive (step s a) = true -> calm i a -> sv_sess s !! i = Some q -> Calm i q ->
    exists q', sv_sess (step s a) !! i = Some q' /\ Calm i q' /\
      q' = match a with DCli j x => if decide (j = i) then cli_step req reply grow sfd cfd i q x else q | DSrv j x => if decide (j = i) then srv_step req reply grow sfd cfd i q x else q | _ => q end.
  Proof.
    intros Hal Ha Hq K. pose proof (lookup_lt_Some _ _ _ Hq) as Hlt. assert (Hs0 : sv_alive s = true) by (by apply (alive_before s [a])).
    destruct a as [o|j x|j x|j]; cbn [sv_step] in Hal |- *.
    - rewrite Hs0 in *. destruct o; try done. exists q. cbn [sv_sess]. split; [|done]. by apply lookup_app_l_Some.
    - destruct (decide (j = i)) as [->|Hne].
      + rewrite Hq. cbn [sv_sess]. exists (cli_step req reply grow sfd cfd i q x). split; [by apply list_lookup_insert|]. split; [|done]. apply calm_cli; auto.
      + exists q. split; [|done]. destruct (sv_sess s !! j); [|done]. cbn [sv_sess]. by rewrite list_lookup_insert_ne.
    - destruct (decide (j = i)) as [->|Hne].
      + rewrite Hq, Hs0 in *. cbn zeta in *. destruct (srv_threw _); [done|]. cbn [sv_sess]. exists (srv_step req reply grow sfd cfd i q x). split; [by apply list_lookup_insert|]. split; [|done]. apply calm_srv; auto.
      + exists q. split; [|done]. destruct (sv_sess s !! j) as [p|]; [|done]. rewrite Hs0 in *. cbn zeta in *. destruct (srv_threw _); [done|]. cbn [sv_sess]. by rewrite list_lookup_insert_ne.
    - exists q. split; [|done]. destruct (sv_sess s !! j); [|done]. cbn [sv_sess]. by rewrite list_lookup_insert_ne.
  Qed.
  Lemma calm_run i acts q : sv_alive (run acts) = true -> Forall (calm i) acts -> sv_sess (run acts) !! i = Some q -> Calm i q.
  Proof.
    unfold sv_run. revert q. induction acts as [|a acts IH] using rev_ind; [by intros q|]. intros q. rewrite fold_left_app. cbn [fold_left]. set (s := fold_left step acts sv_new) in *.
    intros Hal [H1 H2]%Forall_app Hq. apply Forall_cons in H2 as [H2 _]. assert (Hs0 : sv_alive s = true) by (by apply (alive_before s [a])).
    destruct (sv_sess s !! i) as [q0|] eqn:E.
    - destruct (calm_step1 i s a q0 Hal H2 E ltac:(by apply IH)) as (q' & H3 & H4 & _). congruence.
    - destruct a as [o|j x|j x|j]; cbn [sv_step] in Hq, Hal.
      + rewrite Hs0 in *. destruct o; try done. cbn [sv_sess] in Hq. apply lookup_app_Some in Hq as [Hq|[_ Hq]]; [congruence|]. apply list_lookup_singleton_Some in Hq as [_ <-].
        constructor; [done|by exists []|by exists []|by left].
      + destruct (sv_sess s !! j) eqn:Ej; cbn [sv_sess] in Hq; [|congruence]. apply list_lookup_insert_Some in Hq as [(-> & _ & _)|[_ Hq]]; congruence.
      + destruct (sv_sess s !! j) eqn:Ej; [|congruence]. rewrite Hs0 in *. cbn zeta in *. destruct (srv_threw _); [done|]. cbn [sv_sess] in Hq. apply list_lookup_insert_Some in Hq as [(-> & _ & _)|[_ Hq]]; congruence.
      + destruct (sv_sess s !! j) eqn:Ej; cbn [sv_sess] in Hq; [|congruence]. apply list_lookup_insert_Some in Hq as [(-> & _ & _)|[_ Hq]]; congruence.
  Qed.
  (** As long as the server's process lives, a connection to which nothing but delays, splits and interruptions happens is not concerned by the others, whatever happens to them:
      when the client's recvMessage has returned, the server has received that client's whole request, and the client has the whole reply to it. Neither of the two throws. *)
  Theorem C202_exchange acts i q : sv_alive (run acts) = true -> Forall (calm i) acts -> sv_sess (run acts) !! i = Some q ->
    (k_rpc (ss_req q) = RDone -> k_str (ss_req q) = req i) /\
    (k_rpc (ss_rep q) = RDone -> k_rpc (ss_req q) = RDone /\ k_str (ss_req q) = req i /\ k_str (ss_rep q) = reply (req i)) /\
    k_spc (ss_req q) <> SThrew /\ k_rpc (ss_req q) <> RThrew /\ k_spc (ss_rep q) <> SThrew /\ k_rpc (ss_rep q) <> RThrew.
  Proof.
    intros Hal Ha Hq. pose proof (calm_run i acts q Hal Ha Hq) as K. pose proof K as [K1 (la & K2 & K2') (lb & K3 & K3') K4]. split; [by apply calm_str|]. split.
    - intros Hd. assert (Hr : k_rpc (ss_req q) = RDone).
      { destruct K4 as [K4|K4]; [|done]. exfalso. rewrite K3' in Hd, K4. destruct (gi_run (reply (req i)) grow (cfd i) cap Hgrow Hcap lb (Hc i) K3) as [G1 _ _ G4]. destruct (G4 Hd) as [G5 _]. rewrite (G1 G5) in K4. done. }
      split; [done|]. split; [by apply calm_str|]. rewrite K3' in Hd |- *. by apply C43_received_is_sent.
    - destruct (C43_no_exception (req i) grow (sfd i) cap Hgrow Hcap la (Hs i) K2) as [N1 N2]. destruct (C43_no_exception (reply (req i)) grow (cfd i) cap Hgrow Hcap lb (Hc i) K3) as [N3 N4].
      by rewrite K2', K3'.
  Qed.

  (** What connection i makes of the steps: the stream of the request ... *)
  Definition on_req (i : nat) (a : svact) : list skact :=
    match a with DCli j x => if decide (j = i) then (if sender_act x then [x] else []) else [] | DSrv j x => if decide (j = i) then (if receiver_act x then [x] else []) else [] | _ => [] end.
  (** ... and of the reply, once the request has arrived. *)
  Definition on_rep (i : nat) (a : svact) : list skact :=
    match a with DCli j x => if decide (j = i) then (if receiver_act x then [x] else []) else [] | DSrv j x => if decide (j = i) then (if sender_act x then [x] else []) else [] | _ => [] end.
  Lemma harmless_cases x : harmless x -> sender_act x = true /\ receiver_act x = false \/ sender_act x = false /\ receiver_act x = true.
  Proof. destruct x; cbn; auto; done. Qed.
  Lemma proj_req i acts s q : sv_alive (fold_left step acts s) = true -> Forall (calm i) acts -> sv_sess s !! i = Some q -> Calm i q ->
    exists q', sv_sess (fold_left step acts s) !! i = Some q' /\ Calm i q' /\ ss_req q' = fold_left (sk_step (req i) grow (sfd i)) (concat (on_req i <$> acts)) (ss_req q).
  Proof.
    revert s q. induction acts as [|a acts IH]; [by intros s q; exists q|]. intros s q Hal [H1 H2]%Forall_cons Hq K. cbn [fold_left] in Hal |- *.
    destruct (calm_step1 i s a q (alive_before _ _ Hal) H1 Hq K) as (q1 & Hq1 & K1 & E). destruct (IH _ _ Hal H2 Hq1 K1) as (q' & H3 & H4 & H5). exists q'. split; [done|]. split; [done|].
    rewrite H5. cbn [fmap list_fmap concat]. rewrite fold_left_app. f_equal. rewrite E. pose proof (ca_here _ _ K) as Hg. destruct a as [o|j x|j x|j]; cbn [on_req]; try done; destruct (decide (j = i)) as [->|]; try done.
    - unfold cli_step. rewrite Hg. destruct (sender_act x); [done|]. destruct (receiver_act x); [|done]. by destruct (k_spc (ss_req q)).
    - unfold srv_step. destruct (receiver_act x); [done|]. destruct (sender_act x); [|done]. by destruct (k_rpc (ss_req q)).
  Qed.
  Lemma closed_stays m g fd acts s : k_spc s = SClosed -> Forall harmless acts -> k_spc (fold_left (sk_step m g fd) acts s) = SClosed.
  Proof.
    revert s. induction acts as [|a acts IH]; [done|]. intros s H [H1 H2]%Forall_cons. cbn [fold_left]. apply IH; [|done]. destruct (receiver_act a) eqn:Er; [by rewrite rcv_spc|]. destruct a; try done; cbn [sk_step]; rewrite H; done.
  Qed.
  Lemma proj_rep i acts s q : sv_alive (fold_left step acts s) = true -> Forall (calm i) acts -> sv_sess s !! i = Some q -> Calm i q -> k_rpc (ss_req q) = RDone ->
    exists q', sv_sess (fold_left step acts s) !! i = Some q' /\ ss_rep q' = fold_left (sk_step (reply (req i)) grow (cfd i)) (concat (on_rep i <$> acts)) (ss_rep q).
  Proof.
    revert s q. induction acts as [|a acts IH]; [by intros s q; exists q|]. intros s q Hal [H1 H2]%Forall_cons Hq K Hd. cbn [fold_left] in Hal |- *.
    destruct (calm_step1 i s a q (alive_before _ _ Hal) H1 Hq K) as (q1 & Hq1 & K1 & E).
    assert (Hcl : k_spc (ss_req q) = SClosed).
    { destruct K as [_ (la & K2 & K2') _ _]. rewrite K2' in Hd |- *. destruct (gi_run (req i) grow (sfd i) cap Hgrow Hcap la (Hs i) K2) as [G1 _ _ G4]. destruct (G4 Hd) as [G5 _]. auto. }
    assert (Hd1 : k_rpc (ss_req q1) = RDone /\ ss_rep q1 = fold_left (sk_step (reply (req i)) grow (cfd i)) (on_rep i a) (ss_rep q)).
    { rewrite E. pose proof (ca_here _ _ K) as Hg. pose proof (calm_str i q K Hd) as Hstr. destruct a as [o|j x|j x|j]; cbn [on_rep]; try done; destruct (decide (j = i)) as [->|]; try done; cbn in H1; specialize (H1 eq_refl).
      - unfold cli_step. rewrite Hg. destruct (harmless_cases x H1) as [[-> ->]|[-> ->]]; cbn [ss_req ss_rep]; [split; [by apply done_fix|done]|]. rewrite Hcl. cbn [ss_req ss_rep]. by rewrite Hstr.
      - unfold srv_step. destruct (harmless_cases x H1) as [[-> ->]|[-> ->]]; cbn [ss_req ss_rep]; [|split; [by apply done_fix|done]]. rewrite Hd. cbn [ss_req ss_rep]. by rewrite Hstr. }
    destruct Hd1 as [Hd1 E1]. destruct (IH _ _ Hal H2 Hq1 K1 Hd1) as (q' & H3 & H4). exists q'. split; [done|]. rewrite H4, E1. cbn [fmap list_fmap concat]. by rewrite fold_left_app.
  Qed.
  Lemma on_harmless (f : nat -> svact -> list skact) i acts : (f = on_req \/ f = on_rep) -> Forall (calm i) acts -> Forall harmless (concat (f i <$> acts)).
  Proof.
    intros Hf. induction 1 as [|a acts H1 _ IH]; [constructor|]. cbn [fmap list_fmap concat]. apply Forall_app. split; [|done].
    destruct Hf as [-> | ->]; destruct a as [o|j x|j x|j]; cbn; try constructor; destruct (decide (j = i)) as [->|]; try constructor; cbn in H1; specialize (H1 eq_refl); destruct (sender_act x), (receiver_act x); repeat constructor; done.
  Qed.
  Lemma on_concat (f : nat -> svact -> list skact) i (rounds : list (list svact)) : concat (f i <$> concat rounds) = concat ((fun r => concat (f i <$> r)) <$> rounds).
  Proof. induction rounds as [|r rounds IH]; [done|]. cbn [concat fmap list_fmap]. by rewrite fmap_app, concat_app, IH. Qed.
  Lemma on_in (f : nat -> svact -> list skact) i a (round : list svact) x : a ∈ round -> x ∈ f i a -> x ∈ concat (f i <$> round).
  Proof. intros H1 H2. apply elem_of_list_In, in_concat. exists (f i a). split; apply elem_of_list_In; [|done]. by apply elem_of_list_fmap_1. Qed.
  (** ... and it takes a bounded number of rounds: a request of n bytes and a reply of m are through after at most 3 (n + m) + 8 rounds in which both sides make their calls, whatever the other
      connections do meanwhile. *)
  Theorem C202_completes acts rounds i q : let all := acts ++ concat rounds in
    sv_sess (run acts) !! i = Some q -> sv_alive (run all) = true -> Forall (calm i) all -> Forall (both_talk i) rounds -> 3 * length (req i) + 3 * length (reply (req i)) + 8 <= length rounds ->
    exists q', sv_sess (run all) !! i = Some q' /\ k_rpc (ss_rep q') = RDone /\ k_str (ss_req q') = req i /\ k_str (ss_rep q') = reply (req i).
  Proof.
    cbn zeta. intros Hq Hal Ha Hr Hlen. set (n1 := 3 * length (req i) + 4). set (r1 := take n1 rounds). set (r2 := drop n1 rounds).
    assert (Hrr : rounds = r1 ++ r2) by (symmetry; apply take_drop).
    rewrite Hrr in Hal, Ha, Hr |- *. rewrite concat_app in Hal, Ha |- *. apply Forall_app in Ha as [Ha Ha']. apply Forall_app in Ha' as [Ha1 Ha2]. apply Forall_app in Hr as [Hr1 Hr2].
    unfold sv_run in Hal, Hq |- *. rewrite !fold_left_app in *. set (s0 := fold_left step acts sv_new) in *. set (s1 := fold_left step (concat r1) s0) in *.
    assert (Hal1 : sv_alive s1 = true) by (by apply (alive_before s1 (concat r2))). assert (Hal0 : sv_alive s0 = true) by (by apply (alive_before s0 (concat r1))).
    pose proof (calm_run i acts q Hal0 Ha Hq) as K0. destruct (proj_req i (concat r1) s0 q Hal1 Ha1 Hq K0) as (q1 & Hq1 & K1 & E1).
    assert (Hrounds : forall (f : nat -> svact -> list skact) rs, (f = on_req \/ f = on_rep) -> Forall (both_talk i) rs -> Forall (calm i) (concat rs) ->
      Forall (Forall harmless) ((fun r => concat (f i <$> r)) <$> rs) /\ Forall both_sides ((fun r => concat (f i <$> r)) <$> rs)).
    { intros f rs Hf Hb Hcm. rewrite !Forall_fmap. split; apply Forall_forall; intros r Hin.
      - apply on_harmless; [done|]. rewrite Forall_forall in Hcm. apply Forall_forall. intros x Hx. apply Hcm. apply elem_of_list_In, in_concat. exists r. by split; apply elem_of_list_In.
      - rewrite Forall_forall in Hb. destruct (Hb r Hin) as ((n & B1) & (n2 & B2) & (n3 & B3) & (n4 & B4)). destruct Hf as [-> | ->]; split.
        + exists n. apply (on_in on_req i _ r _ B1). cbn. rewrite decide_True by done. left.
        + exists n4. apply (on_in on_req i _ r _ B4). cbn. rewrite decide_True by done. left.
        + exists n3. apply (on_in on_rep i _ r _ B3). cbn. rewrite decide_True by done. left.
        + exists n2. apply (on_in on_rep i _ r _ B2). cbn. rewrite decide_True by done. left. }
    assert (Hd : k_rpc (ss_req q1) = RDone).
    { destruct K0 as [_ (la & K2 & K2') _ _]. rewrite E1, K2', on_concat. destruct (Hrounds on_req r1 (or_introl eq_refl) Hr1 Ha1) as [B1 B2].
      destruct (C43_always_received (req i) grow (sfd i) cap Hgrow Hcap la ((fun r => concat (on_req i <$> r)) <$> r1) (Hs i) K2 B1 B2) as [Hd _].
      - rewrite fmap_length. unfold r1. rewrite take_length. lia.
      - unfold sk_run in *. by rewrite fold_left_app in Hd. }
    destruct (proj_rep i (concat r2) s1 q1 Hal Ha2 Hq1 K1 Hd) as (q2 & Hq2 & E2). exists q2. split; [done|].
    assert (Hd2 : k_rpc (ss_rep q2) = RDone).
    { destruct K1 as [_ _ (lb & K3 & K3') _]. rewrite E2, K3', on_concat. destruct (Hrounds on_rep r2 (or_intror eq_refl) Hr2 Ha2) as [B1 B2].
      destruct (C43_always_received (reply (req i)) grow (cfd i) cap Hgrow Hcap lb ((fun r => concat (on_rep i <$> r)) <$> r2) (Hc i) K3 B1 B2) as [Hd2 _].
      - rewrite fmap_length. unfold r2. rewrite drop_length. lia.
      - unfold sk_run in *. by rewrite fold_left_app in Hd2. }
    assert (Hrun : fold_left step (concat r2) s1 = run (acts ++ concat r1 ++ concat r2)) by (unfold sv_run; rewrite !fold_left_app; done).
    rewrite Hrun in Hq2, Hal. destruct (C202_exchange _ i q2 Hal ltac:(by rewrite !Forall_app) Hq2) as (_ & X & _). destruct (X Hd2) as (_ & ? & ?). done.
  Qed.
End Server.
(** A concrete exchange: two clients, the reply "OK"; the second client goes away before it has read its reply, the first one gets it. *)
Definition ok_reply (_ : list Z) : list Z := [79; 75]%Z.
Definition demo_req (i : nat) : list Z := match i with 0 => [104; 105]%Z | _ => Z.of_nat <$> seq 1 20 end.
Definition std_grow (c : nat) : nat := c + c / 2 + 10.
Definition demo_run (acts : list svact) : svst := sv_run demo_req ok_reply std_grow (fun i => 5 + i) (fun _ => 3) 15 acts.
Definition talk (i : nat) : list svact := [DCli i (SStep 7); DSrv i (RStep 6); DSrv i (SStep 1); DCli i (RStep 9)].
Definition demo_acts : list svact := [DAccept (AccOk 5); DCli 0 (SStep 1); DAccept (AccOk 6); DCli 1 (SStep 9); DSrv 0 (RFail EINTR); DGone 1].
Definition result_of (s : svst) (i : nat) : option (rcvpc * list Z * list Z) := (fun q => (k_rpc (ss_rep q), k_str (ss_req q), k_str (ss_rep q))) <$> sv_sess s !! i.
Example C202_case : let s := demo_run (demo_acts ++ concat (replicate 20 (talk 0 ++ talk 1))) in
  reserves std_grow /\ Forall (calm 0) demo_acts /\ sv_alive s = true /\ result_of s 0 = Some (RDone, demo_req 0, [79; 75]%Z) /\
  result_of s 1 = Some (RReading, take 9 (demo_req 1), resize 15 []).
Proof. cbn zeta. split; [intros c; unfold std_grow; lia|]. split; [unfold demo_acts; repeat constructor; cbn; intros; done|]. by vm_compute. Qed.
(** * C203: what one would like: a client to whose own connection nothing happens gets the reply to its request. False: when another client has gone away before its reply was written, the exception of that
    thread ends the server's process; and so does the time-out of accept, after one second (by default) without a new connection. The first client's recvMessage then returns normally, with an empty or
    truncated reply. *)
Definition served (acts : list svact) : Prop := Forall (calm 0) acts -> forall r st, result_of (demo_run acts) 0 = Some (RDone, r, st) -> st = ok_reply (demo_req 0).
Theorem C203_other_client_refuted : exists acts, Forall (fun a => forall o, a = DAccept o -> exists fd, o = AccOk fd) acts /\ ~ served acts.
Proof.
  exists ([DAccept (AccOk 5); DAccept (AccOk 6)] ++ concat (replicate 8 [DCli 0 (SStep 7); DCli 1 (SStep 7); DSrv 1 (RStep 9); DSrv 0 (RStep 9)]) ++ [DGone 1; DSrv 0 (SStep 1); DSrv 1 (SFail EPIPE)] ++ replicate 5 (DCli 0 (RStep 9))).
  split; [repeat (constructor; [intros o Ho; first [done|injection Ho as <-; eauto]|]); constructor|].
  intros H. assert (K : [79]%Z = ok_reply (demo_req 0)); [|done].
  eapply H; [|vm_compute; reflexivity]. repeat (constructor; [cbn; intros; first [done|lia]|]). constructor.
Qed.
Theorem C203_idle_refuted : ~ served ([DAccept (AccOk 5); DCli 0 (SStep 7); DAccept AccTimedOut; DCli 0 (SStep 7); DCli 0 (RStep 9); DCli 0 (RStep 9)]).
Proof.
  intros H. assert (K : [] = ok_reply (demo_req 0)); [|done]. eapply H; [|vm_compute; reflexivity]. repeat (constructor; [cbn; intros; first [done|lia]|]). constructor.
Qed.
Print Assumptions C202_own_bytes.
Print Assumptions C202_server_survives.
Print Assumptions C202_exchange.
Print Assumptions C202_completes.
Print Assumptions C202_gone.
Print Assumptions C203_other_client_refuted.
Print Assumptions C203_idle_refuted.
