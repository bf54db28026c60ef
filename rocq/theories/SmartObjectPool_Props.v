(** * Properties C03, C04, C05, C51: object pool and pooled publisher *)
From stdpp Require Import prelude gmap list_numbers.
From Verif Require Import LockFreeStack_Model LockFreeStack_Spec LockFreeStack_Proofs
  SmartObjectPool_Model SmartObjectPool_Spec SmartObjectPool_Proofs ObjectPoolPublisher_Proofs.

(** C03. [in_use] is what clients hold; it never contains an object twice;
    acquire gives an object nobody holds, and throws exactly when all [n] are
    held; nothing is deleted; the failure counter counts the throws. *)
Theorem C03_pool_exclusive : forall n cs p os,
  pool_run (pool_new n) cs = (p, os) -> OUb ∉ os -> CDestroy ∉ cs ->
  let held := in_use [] cs os in
  NoDup held /\ (forall x, x ∈ held -> (x < n)%nat) /\ p_deleted p = [] /\ p_fails p = failures os /\
  (forall p' x, acquire p = (p', OGot x) -> (x < n)%nat /\ x ∉ held) /\
  ((acquire p).2 = OOutOfRange <-> length held = n) /\
  ((exists x, (acquire p).2 = OGot x) <-> (length held < n)%nat).
Proof. exact pool_exclusive_lemma. Qed.
Print Assumptions C03_pool_exclusive.
Example C03_case :
  pool_run (pool_new 2) [CAcquire; CAcquire; CAcquire; CRelease 0; CAcquire] =
  (Pool true 2 [] 1 [0; 1] [0; 1] [] [], [OGot 0; OGot 1; OOutOfRange; ODone; OGot 0]).
Proof. reflexivity. Qed.

(** C03 for concurrent users: acquire and release are pop and push on the
    interleaved stack machine. Whatever the schedule (no tag wrap), clients that
    only release what they hold never share an object, and a release never
    fails, so no object is destroyed behind the pool's back. *)
Theorem C03_pool_concurrent : forall (d : list obj) n acts,
  NoDup d -> d <> [] -> (Z.of_nat (length d) <= 65535)%Z -> no_wrap (init d n) acts ->
  let h := rev (hist (run (init d n) acts)) in
  disciplined h ->
  NoDup (held_after h) /\ (forall x, x ∈ held_after h -> x ∈ d) /\ (forall t, ERet t RPushFull ∉ h).
Proof. exact pool_concurrent_lemma. Qed.
Print Assumptions C03_pool_concurrent.
Definition pool_demo : list (act obj) :=
  alone 0 OPop ++ [ACall 1 OPop; AStep 1 false; ACall 0 (OPush 4)] ++ replicate 7 (AStep 0 false)
  ++ replicate 9 (AStep 1 false).
Example C03_concurrent_case :
  no_wrap (init [4; 5] 2) pool_demo /\ disciplined (rev (hist (run (init [4; 5] 2) pool_demo))) /\
  held_after (rev (hist (run (init [4; 5] 2) pool_demo))) = [4].
Proof.
  split; [vm_compute; intuition congruence|]. split; [|vm_compute; reflexivity].
  replace (rev (hist (run (init [4; 5] 2) pool_demo))) with
    ([ECall 0 OPop; ELin 0 OPop (RPopped 4); ERet 0 (RPopped 4); ECall 1 OPop; ECall 0 (OPush 4);
      ELin 0 (OPush 4) RPushed; ERet 0 RPushed; ELin 1 OPop (RPopped 4); ERet 1 (RPopped 4)])
    by (vm_compute; reflexivity).
  repeat match goal with |- disciplined [] => constructor
  | |- disciplined ?l => let h := eval simpl in (removelast l) in
      match eval simpl in (last l) with Some ?e =>
      apply (disc_snoc h e); [|vm_compute; set_solver] end end.
Qed.

(** C04, first half: every object is deleted at most once, never while held, and
    after destruction each of the [n] objects is either deleted or still held
    (hence deleted exactly once when its holder lets go). *)
Theorem C04_deleted_exactly_once : forall n cs p os,
  pool_run (pool_new n) cs = (p, os) -> OUb ∉ os ->
  let held := in_use [] cs os in
  NoDup (p_deleted p) /\ (forall x, x ∈ p_deleted p -> x ∉ held /\ (x < n)%nat) /\
  (CDestroy ∈ cs -> p_deleted p ++ held ≡ₚ seq 0 n).
Proof. exact pool_deleted_once_lemma. Qed.
Print Assumptions C04_deleted_exactly_once.
Example C04_case : let '(p, os) := pool_run (pool_new 3) [CAcquire; CAcquire; CDestroy; CRelease 0] in
  OUb ∉ os /\ p_deleted p = [0; 2] /\ p_held p = [1].
Proof. vm_compute. split; [set_solver|done]. Qed.

(** C04, second half (every initialized object is finalized before being
    deleted) is false: an object held when the pool dies is deleted later
    without finalization. *)
Definition C90_finalized_statement : Prop := forall n cs p os,
  pool_run (pool_new n) cs = (p, os) -> OUb ∉ os ->
  forall x, x ∈ p_inited p -> x ∈ p_deleted p -> x ∈ p_finalized p.
Theorem C90_finalized_before_deleted_refuted : ~ C90_finalized_statement.
Proof.
  intros H. specialize (H 1%nat [CAcquire; CDestroy; CRelease 0] _ _ eq_refl).
  assert (0%nat ∈ @nil nat) by (apply H; simpl; set_solver). set_solver.
Qed.
Print Assumptions C90_finalized_before_deleted_refuted.

(** C05. In every state reached by publications and receivers dropping events:
    a publication succeeds, delivers one more event, in an object that no
    receiver holds; the content is a clone of the published value; events
    still held by receivers keep their content; the event comes from the pool
    exactly when one of its [n] objects is not outstanding. *)
Theorem C05_publish : forall T (F : fns T) n cs b v,
  pub_run F (pub_new F n) cs = Some b ->
  exists b' x w,
    publish F v b = Some b' /\
    b_out b' = (x, w) :: b_out b /\
    (w = v \/ exists old, w = f_clone F v old) /\
    b_heap b' !! x = Some w /\
    x ∉ outstanding b /\ outstanding b' ≡ₚ x :: outstanding b /\
    (forall y, y ∈ outstanding b -> b_heap b' !! y = b_heap b !! y) /\
    ((x < n)%nat <-> (length (filter (fun y => y < n) (outstanding b)) < n)%nat).
Proof.
  intros T F n cs b v E. destruct (pub_run_inv F n cs _ _ (pub_new_inv F n) E) as [I _].
  destruct (publish_lemma F n b v I) as (b' & Hb & _ & x & w & H). exists b', x, w. tauto.
Qed.
Print Assumptions C05_publish.

(** With the default cloner (a copy), or any cloner that makes the clone equal to
    the original, exactly the published value is delivered. *)
Corollary C05_publish_content : forall T (F : fns T) n cs b v,
  (forall a c, f_clone F a c = a) -> pub_run F (pub_new F n) cs = Some b ->
  exists b' x, publish F v b = Some b' /\ b_out b' = (x, v) :: b_out b.
Proof.
  intros T F n cs b v Hc E. destruct (C05_publish T F n cs b v E) as (b' & x & w & Hb & Ho & Hw & _).
  exists b', x. split; [done|]. destruct Hw as [->|[old ->]]; [done|]. by rewrite Hc in Ho.
Qed.
Print Assumptions C05_publish_content.

(** Receivers can always drop what they hold, and dropping one event leaves all the
    other outstanding events and their contents alone. *)
Theorem C05_drop : forall T (F : fns T) n cs b x,
  pub_run F (pub_new F n) cs = Some b -> x ∈ outstanding b ->
  exists b', drop x b = Some b' /\ outstanding b ≡ₚ x :: outstanding b' /\
    (forall y, y ∈ outstanding b' -> b_heap b' !! y = b_heap b !! y).
Proof.
  intros T F n cs b x E Hx. destruct (pub_run_inv F n cs _ _ (pub_new_inv F n) E) as [I _].
  destruct (drop_lemma n b x I) as [H1 H2]. destruct (H1 Hx) as [b' Hb].
  destruct (H2 b' Hb) as (_ & _ & _ & H3 & H4). eauto.
Qed.
Print Assumptions C05_drop.

(** Accounting: one delivery per publication, and the reported number of
    allocations is the pool size plus the deliveries not made from the pool. *)
Theorem C05_accounting : forall T (F : fns T) n cs b,
  pub_run F (pub_new F n) cs = Some b ->
  length (b_out b) = length (filter (fun c => is_publication c = true) cs) /\
  b_allocs b = (Z.of_nat n + Z.of_nat (length (not_from_pool n (b_out b))))%Z.
Proof.
  intros T F n cs b E. destruct (pub_run_inv F n cs _ _ (pub_new_inv F n) E) as [I Hl].
  split; [exact Hl|apply I].
Qed.
Print Assumptions C05_accounting.

Definition copyF : fns Z := Fns 0%Z id (fun a _ => a) true.
Example C05_case : (fun b => (b_out b, outstanding b, b_allocs b)) <$>
  pub_run copyF (pub_new copyF 1) [PPublish 7%Z; PPublish 8%Z; PDrop 0; PPublish 9%Z] =
  Some ([(0, 9%Z); (1, 8%Z); (0, 7%Z)], [1; 0], 2%Z).
Proof. reflexivity. Qed.

(** C51 (the process function is given a freshly initialised event) is false:
    a recycled object still carries the previous publication, which the
    default initializer does not reset. *)
Definition C51_statement : Prop := forall (F : fns Z) n cs b b' f,
  pub_run F (pub_new F n) cs = Some b -> process_and_publish F f b = Some b' ->
  exists x, b_out b' = (x, f (f_init F (f_new F))) :: b_out b.
Theorem C51_process_sees_stale_event_refuted : ~ C51_statement.
Proof.
  intros H. destruct (H copyF 1%nat [PPublish 7%Z; PDrop 0] _ _ id eq_refl eq_refl) as [x Hx].
  vm_compute in Hx. discriminate.
Qed.
Print Assumptions C51_process_sees_stale_event_refuted.

(** It holds for initializers that reset the whole object. *)
Theorem C51_process_fresh : forall T (F : fns T) n cs b f,
  (forall old, f_init F old = f_init F (f_new F)) ->
  pub_run F (pub_new F n) cs = Some b ->
  exists b' x, process_and_publish F f b = Some b' /\
    b_out b' = (x, f (f_init F (f_new F))) :: b_out b /\ x ∉ outstanding b.
Proof.
  intros T F n cs b f Hi E. destruct (pub_run_inv F n cs _ _ (pub_new_inv F n) E) as [I _].
  destruct (process_lemma F n b f I) as (b' & Hb & _ & x & w & Ho & [old ->] & _ & Hx & _).
  exists b', x. rewrite Hi in Ho. auto.
Qed.
Print Assumptions C51_process_fresh.
Example C51_case : (fun b => b_out b) <$>
  pub_run (Fns 0%Z (fun _ => 5%Z) (fun a _ => a) true) (pub_new (Fns 0%Z (fun _ => 5%Z) (fun a _ => a) true) 1)
    [PPublish 7%Z; PDrop 0; PProcess (Z.add 1)] = Some [(0, 6%Z); (0, 7%Z)].
Proof. reflexivity. Qed.
