(** * C82: sockets come into being whole or not at all. *)
From Coq Require Import Ascii String.
From stdpp Require Import prelude strings.
From Coq Require Import Lia.
From Verif Require Import Base Socket_Model SocketOpen_Model.
Local Open Scope nat_scope.
Definition all_ok (calls : list (about * callres)) : Prop := Forall (fun c => c.2 = CallOk) calls.
(** The constructor returns exactly when socket() and all the following calls succeeded, the object holds socket()'s descriptor, and nothing is closed. *)
Theorem C82_constructed_iff : forall sock calls a1 a2 fd, (construct sock calls a1 a2).1 = NewOk fd <-> sock = Some fd /\ all_ok calls.
Proof.
  intros sock calls a1 a2 fd. unfold construct. destruct sock as [f|]; [|split; [done|by intros [? _]]].
  assert (G : (construct_calls f calls a1 a2).1 = NewOk fd <-> f = fd /\ all_ok calls).
  { induction calls as [|[w [|e]] calls IH]; cbn.
    - split; [intros [= ->]; split; [done|constructor]|by intros [-> _]].
    - rewrite IH. unfold all_ok. rewrite Forall_cons. naive_solver.
    - destruct (fail_path w f e a1 a2). split; [done|]. intros [_ H]. by apply Forall_cons in H as [H _]. }
  rewrite G. naive_solver.
Qed.
(** For the two kinds of sockets: a server when bind and listen succeed, a client when connect does. *)
Theorem C82_server_iff : forall sock b l a1 a2 fd, (new_server sock b l a1 a2).1 = NewOk fd <-> sock = Some fd /\ b = CallOk /\ l = CallOk.
Proof. intros. unfold new_server. rewrite C82_constructed_iff. unfold all_ok. rewrite !Forall_cons, Forall_nil. cbn. naive_solver. Qed.
Theorem C82_client_iff : forall sock c a1 a2 fd, (new_client sock c a1 a2).1 = NewOk fd <-> sock = Some fd /\ c = CallOk.
Proof. intros. unfold new_client. rewrite C82_constructed_iff. unfold all_ok. rewrite !Forall_cons, Forall_nil. cbn. naive_solver. Qed.
Theorem C82_constructed_closes_nothing : forall sock calls a1 a2 fd, (construct sock calls a1 a2).1 = NewOk fd -> (construct sock calls a1 a2).2 = 0.
Proof.
  intros sock calls a1 a2 fd H. apply C82_constructed_iff in H as [-> H]. unfold construct. induction H as [|[w r] calls Hr H IH]; [done|]. cbn in Hr. subst r. exact IH.
Qed.
(** Only a descriptor that socket() gave is ever closed: nothing is closed when socket() itself fails, and then the exception says so. *)
Theorem C82_closes_only_own : forall sock calls a1 a2, 0 < (construct sock calls a1 a2).2 -> (exists fd, sock = Some fd) /\ ~ all_ok calls.
Proof.
  intros [fd|] calls a1 a2 H; [|cbn in H; lia]. split; [by eexists|]. intros Ho. assert (E : (construct (Some fd) calls a1 a2).1 = NewOk fd) by by apply C82_constructed_iff.
  apply C82_constructed_closes_nothing in E. lia.
Qed.
Theorem C82_socket_fails : forall calls a1 a2, construct None calls a1 a2 = (NewThrew AbSocket, 0).
Proof. done. Qed.
(** A construction that fails throws, and the descriptor is given back to the system (at least one ::close). *)
Theorem C82_failed_releases : forall fd calls a1 a2, fd <> (-1)%Z -> ~ all_ok calls -> a1 <> [] -> exists w n, construct (Some fd) calls a1 a2 = (NewThrew w, S n).
Proof.
  intros fd calls a1 a2 Hfd Hn Ha. unfold construct. induction calls as [|[w [|e]] calls IH]; cbn [construct_calls].
  - destruct Hn. constructor.
  - apply IH. intros H. apply Hn. by constructor.
  - unfold fail_path, base_close. rewrite (decide_False (P := fd = (-1)%Z)) by done. destruct a1 as [|x a1]; [done|].
    assert (G : exists o n i, close_loop fd e (x :: a1) = (o, S n, i)).
    { cbn [close_loop]. destruct x; [|by do 3 eexists]. destruct e; try by do 3 eexists. destruct (close_loop fd EINTR a1) as [[o n] i]. by do 3 eexists. }
    destruct G as (o & n & i & ->). case_decide; [by do 2 eexists|]. destruct (close_loop i e a2) as [[o2 n2] i2]. by do 2 eexists.
Qed.
(** The user relies on the exception being about the call that failed and on one ::close. Both are false for every errno but EINTR: the exception is about close(), which succeeded, and the destructor
    closes the number a second time - a descriptor of other code, if the number has been given out again in between. *)
Theorem C102_error_misreported_refuted : forall fd w e r a2, fd <> (-1)%Z -> e <> EINTR -> a2 <> [] ->
  exists n, construct (Some fd) [(w, CallErr e)] (ClOk :: r) a2 = (NewThrew AbClose, S (S n)).
Proof.
  intros fd w e r a2 Hfd He Ha. cbn [construct construct_calls]. unfold fail_path, base_close. rewrite (decide_False (P := fd = (-1)%Z)) by done.
  assert (E : close_loop fd e (ClOk :: r) = (ClThrew, 1, fd)) by (cbn; by destruct e). rewrite E. rewrite decide_False by done.
  destruct a2 as [|x a2]; [done|]. assert (G : exists o n i, close_loop fd e (x :: a2) = (o, S n, i)) by (cbn [close_loop]; destruct x; [destruct e; done || by do 3 eexists|by do 3 eexists]).
  destruct G as (o & n & i & ->). exists n. by rewrite decide_False.
Qed.
(** With EINTR left by the failed call (connect interrupted by a signal) the descriptor is closed until the system refuses, and the right error is reported. *)
Theorem C82_interrupted : forall fd w k e r a2, fd <> (-1)%Z -> construct (Some fd) [(w, CallErr EINTR)] (replicate k ClOk ++ ClErr e :: r) a2 = (NewThrew w, S k).
Proof.
  intros fd w k e r a2 Hfd. cbn [construct construct_calls]. unfold fail_path, base_close. rewrite (decide_False (P := fd = (-1)%Z)) by done.
  assert (E : close_loop fd EINTR (replicate k ClOk ++ ClErr e :: r) = (ClReturned, S k, (-1)%Z)) by (induction k as [|k IH]; [done|]; cbn [replicate app close_loop]; by rewrite IH). rewrite E. by rewrite decide_True.
Qed.
(** ** Addresses of local sockets: a client and a server with the same path meet, and different paths are different addresses - as long as they have at most 107 characters and no NUL. *)
Definition plain (p : list ascii) : Prop := length p <= 107 /\ zero ∉ p.
Lemma to_nul_plain p : zero ∉ p -> to_nul p = p.
Proof. induction p as [|c p IH]; intros H; [done|]. apply not_elem_of_cons in H as [H1 H2]. cbn. destruct (ascii_dec c zero); [congruence|]. by rewrite IH. Qed.
Theorem C82_path : forall p, plain p -> sun_path p = p.
Proof. intros p [H1 H2]. unfold sun_path. rewrite to_nul_plain by done. by apply take_ge. Qed.
Theorem C82_paths_distinct : forall p q, plain p -> plain q -> (sun_path p = sun_path q <-> p = q).
Proof. intros p q Hp Hq. rewrite !C82_path by done. done. Qed.
(** The code checks neither: any two longer paths that agree on the first 107 characters are one address. *)
Theorem C102_long_paths_collide_refuted : forall p r r', length p = 107 -> zero ∉ p -> sun_path (p ++ r) = sun_path (p ++ r').
Proof.
  intros p r r' Hl Hz. unfold sun_path. assert (G : forall r, to_nul (p ++ r) = p ++ to_nul r).
  { clear Hl r r'. intros r. induction p as [|c p IH]; [done|]. apply not_elem_of_cons in Hz as [H1 H2]. cbn. destruct (ascii_dec c zero); [congruence|]. by rewrite IH. }
  rewrite !G, !take_app_le by lia. done.
Qed.
(** ** accept *)
(** It gives a socket exactly when the system's accept gives a descriptor and select did not time out; a moved-from server is refused. *)
Theorem C82_accept : forall fd sel acc fd', (0 <= fd < 1024)%Z -> sk_accept fd sel acc = AccOk fd' <-> sel <> SelTimeout /\ acc = inl fd' /\ fd' <> (-1)%Z.
Proof.
  intros fd sel acc fd' H. unfold sk_accept. rewrite (decide_False (P := fd = (-1)%Z)), (decide_False (P := (1024 <= fd)%Z)) by lia.
  destruct sel, acc as [x|e]; try case_decide; naive_solver.
Qed.
Theorem C82_accept_timeout : forall fd sel acc, (0 <= fd < 1024)%Z -> sk_accept fd sel acc = AccTimedOut <-> sel = SelTimeout.
Proof.
  intros fd sel acc H. unfold sk_accept. rewrite (decide_False (P := fd = (-1)%Z)), (decide_False (P := (1024 <= fd)%Z)) by lia. destruct sel, acc as [x|e]; try case_decide; naive_solver.
Qed.
(** With a descriptor of 1024 or more it writes outside of the set. *)
Theorem C102_accept_large_refuted : forall fd sel acc, (1024 <= fd)%Z -> sk_accept fd sel acc = AccOut_of_bounds.
Proof. intros fd sel acc H. unfold sk_accept. by rewrite (decide_False (P := fd = (-1)%Z)), (decide_True (P := (1024 <= fd)%Z)) by lia. Qed.
(** Concrete cases. *)
Example C82_case : new_server (Some 5%Z) CallOk CallOk [] [] = (NewOk 5, 0) /\ new_server (Some 5%Z) (CallErr EOTHER) CallOk [ClOk] [ClErr EBADF] = (NewThrew AbClose, 2) /\
  new_client (Some 5%Z) (CallErr EINTR) [ClOk; ClErr EBADF] [] = (NewThrew AbConnect, 2) /\ new_client None CallOk [] [] = (NewThrew AbSocket, 0) /\
  plain (list_ascii_of_string "/tmp/s") /\ sk_accept 7 SelReady (inl 8%Z) = AccOk 8.
Proof. do 4 (split; [by vm_compute|]). split; [|by vm_compute]. split; [cbn; lia|]. apply (bool_decide_unpack _). by vm_compute. Qed.
Print Assumptions C82_constructed_iff.
Print Assumptions C82_constructed_closes_nothing.
Print Assumptions C82_failed_releases.
Print Assumptions C82_closes_only_own.
Print Assumptions C82_socket_fails.
Print Assumptions C102_error_misreported_refuted.
Print Assumptions C82_interrupted.
Print Assumptions C82_path.
Print Assumptions C82_paths_distinct.
Print Assumptions C102_long_paths_collide_refuted.
Print Assumptions C82_accept.
Print Assumptions C82_accept_timeout.
Print Assumptions C102_accept_large_refuted.
