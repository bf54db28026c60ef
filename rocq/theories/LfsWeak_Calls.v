(** * C171: the lock-free stack on processors whose loads acquire, bounded by the number of operations.
    [acq = true] in LfsWeak_Model: the load at lock_free_stack.h 112 acquires. Processors like x86 have no weaker loads (and no compare_exchange weaker than acquire and release), so there every
    execution of the compiled code that keeps the order of the code's accesses is one of this model, whatever order the source asks for. *)
From Coq Require Import Lia.
From stdpp Require Import prelude.
From Verif Require Import LockFreeStack_Model LfsWeak_Model LfsWeak_Props.
Local Open Scope nat_scope.
(** Specification: how many operations an execution begins. *)
Definition operations {T} (acts : list (lact T)) : nat := length (List.filter (fun a => match a with LCall _ _ => true | LStep _ _ _ => false end) acts).

Section Count.
  Context {T : Type}.
  Implicit Types (s : lst T) (p : lpc T).
  (** The writes to head [b] an operation at [p] may still make. *)
  Definition left_writes (b : bool) (x : lpc T * view) : nat :=
    match x.1 with
    | LIdle => 0
    | LPopLoad _ | LPopRead _ _ | LPopCas _ _ _ => 1
    | LMove o _ | LPushLoad o _ _ | LPushSet o _ _ _ | LPushCas o _ _ _ => if decide (o_dst o = b) then 1 else 0
    end.
  Fixpoint total (b : bool) (l : list (lpc T * view)) : nat := match l with [] => 0 | x :: l => left_writes b x + total b l end.
  Lemma total_insert b (l : list (lpc T * view)) t x y : l !! t = Some x -> total b (<[t := y]> l) + left_writes b x = total b l + left_writes b y.
  Proof. revert t. induction l as [|z l IH]; intros [|t] H; [done|done|injection H as ->; simpl; lia|]. specialize (IH t H). simpl. lia. Qed.
  Definition mu (b : bool) s : nat := length (l_h s b) + total b (l_thr s).
  Lemma mu_goto b s t x p v : l_thr s !! t = Some x -> left_writes b (p, v) <= left_writes b x -> mu b (l_goto s t p v) <= mu b s.
  Proof. intros H Hl. unfold mu, l_goto. cbn [l_h l_thr]. pose proof (total_insert b _ _ _ (p, v) H). lia. Qed.
  Lemma mu_fail b s : mu b (l_fail s) = mu b s.
  Proof. done. Qed.
  Lemma mu_return b s o y : mu b (l_return s o y) = mu b s.
  Proof. by destruct o. Qed.
  Lemma mu_write b s t x p v b' m : l_thr s !! t = Some x -> (left_writes b (p, v) + (if decide (b = b') then 1 else 0) <= left_writes b x) -> mu b (l_goto (l_write_h s b' m) t p v) <= mu b s.
  Proof.
    intros H Hl. unfold mu, l_goto, l_write_h. cbn [l_h l_thr]. pose proof (total_insert b _ _ _ (p, v) H). unfold upd. destruct (decide (b = b')) as [<-|Hb]; [rewrite app_length; cbn; lia|lia].
  Qed.
  Lemma mu_step acq b s t p v from spur : l_thr s !! t = Some (p, v) -> mu b (l_step_pc acq s t p v from spur) <= mu b s.
  Proof.
    intros Ht. destruct p as [|o|o ts|o ts nxt|o i|o i y|o i y ts|o i y ts]; cbn [l_step_pc].
    - done.
    - destruct (l_load acq s (o_src o) v from); [by eapply mu_goto|done].
    - destruct (m_idx <$> l_h s (o_src o) !! ts) as [[i|]|]; [|rewrite mu_fail; eapply mu_goto; [done|cbn; lia]|done].
      destruct (l_nx s !! i ≫= fun h => h !! from); [|done]. destruct (decide _); [by eapply mu_goto|done].
    - assert (Hre : mu b (match l_load true s (o_src o) v from with Some w => l_goto s t (LPopRead o from) w | None => s end) <= mu b s) by (destruct (l_load true s (o_src o) v from); [by eapply mu_goto|done]).
      destruct (if spur then None else l_cas s (o_src o) v ts nxt) as [[m w]|]; [|done]. destruct (m_idx <$> l_h s (o_src o) !! ts) as [[i|]|]; try done.
      eapply mu_write; [done|]. cbn [left_writes fst]. unfold o_dst. destruct b, o; cbn; done.
    - destruct (l_data s !! i); [|done]. unfold mu. cbn [l_h l_thr]. match goal with |- _ + total b (<[t := ?y]> _) <= _ => pose proof (total_insert b _ _ _ y Ht) as E end. cbn [left_writes fst] in E. lia.
    - destruct (l_load false s (o_dst o) v from); [by eapply mu_goto|done].
    - destruct (m_idx <$> l_h s (o_dst o) !! ts); [|done]. destruct (l_nx s !! i); [|done]. unfold mu. cbn [l_h l_thr].
      match goal with |- _ + total b (<[t := ?y]> _) <= _ => pose proof (total_insert b _ _ _ y Ht) as E end. cbn [left_writes fst] in E. lia.
    - destruct (if spur then None else l_cas s (o_dst o) v ts (Some i)) as [[m w]|].
      + rewrite mu_return. eapply mu_write; [done|]. cbn [left_writes fst]. destruct (decide (b = o_dst o)), (decide (o_dst o = b)); lia || congruence.
      + destruct (l_load true s (o_dst o) v from); [by eapply mu_goto|done].
  Qed.
  Lemma mu_exec acq b s a : mu b (l_exec acq s a) <= mu b s + operations [a].
  Proof.
    destruct a as [t o|t from spur]; cbn [l_exec]; unfold operations; cbn.
    - destruct (l_thr s !! t) as [[p v]|] eqn:Ht; [|lia]. destruct p; try lia. unfold mu, l_goto. cbn [l_h l_thr]. pose proof (total_insert b _ _ _ (LPopLoad o, v) Ht) as E. cbn [left_writes fst] in E. lia.
    - destruct (l_thr s !! t) as [[p v]|] eqn:Ht; [|lia]. pose proof (mu_step acq b s t p v from spur Ht). lia.
  Qed.
  Lemma operations_cons (a : lact T) acts : operations (a :: acts) = operations [a] + operations acts.
  Proof. unfold operations. cbn. destruct a; done. Qed.
  Lemma few_no_wrap acq acts s : (forall b, mu b s + operations acts <= Z.to_nat 65536) -> l_no_wrap acq s acts.
  Proof.
    revert s. induction acts as [|a acts IH]; intros s H; cbn [l_no_wrap]; [done|]. split.
    - destruct a as [t o|t from spur]; cbn [l_not_wrapped]; [done|]. destruct (l_thr s !! t) as [[[] v]|]; try done. specialize (H (o_src o)). unfold mu in H. lia.
    - apply IH. intros b. specialize (H b). rewrite operations_cons in H. pose proof (mu_exec acq b s a). lia.
  Qed.
  Lemma mu_init b (d : list T) n : mu b (l_init d n) = 1.
  Proof. unfold mu, l_init. cbn [l_h l_thr length]. f_equal. induction n; cbn; [done|exact IHn]. Qed.
End Count.
Lemma few_init {T} (d : list T) n acts : (Z.of_nat (operations acts) <= 65535)%Z -> l_no_wrap true (l_init d n) acts.
Proof. intros H. apply few_no_wrap. intros b. rewrite mu_init. lia. Qed.

(** At most 65535 operations on a new stack: accesses to elements are ordered, ... *)
Theorem C171_ordered : forall (T : Type) (d : list T) n acts, d <> [] -> (Z.of_nat (length d) <= 65535)%Z -> (Z.of_nat (operations acts) <= 65535)%Z -> l_race (l_run true (l_init d n) acts) = false.
Proof. intros. apply C88_race_free_partial; [done..|by apply few_init]. Qed.
(** ... every popped element was there or pushed, and none is popped twice, ... *)
Theorem C171_popped : forall (T : Type) (d : list T) n acts, d <> [] -> (Z.of_nat (length d) <= 65535)%Z -> (Z.of_nat (operations acts) <= 65535)%Z ->
  let s := l_run true (l_init d n) acts in l_popped s ⊆+ d ++ l_pushed s.
Proof. intros. apply C88_popped_partial; [done..|by apply few_init]. Qed.
(** ... and none is lost. *)
Theorem C171_conservation : forall (T : Type) (d : list T) n acts, d <> [] -> (Z.of_nat (length d) <= 65535)%Z -> (Z.of_nat (operations acts) <= 65535)%Z ->
  let s := l_run true (l_init d n) acts in Forall (fun x => x.1 = LIdle) (l_thr s) -> d ++ l_pushed s ≡ₚ l_popped s ++ l_content s.
Proof. intros. apply C88_conservation_partial; [done..|by apply few_init|done]. Qed.
Example C171_case : (Z.of_nat (operations C88_acts) <= 65535)%Z /\ operations C88_acts = 3 /\ l_popped (l_run true (l_init [5; 6; 7]%Z 2) C88_acts) = [6; 5]%Z.
Proof. by vm_compute. Qed.
(** Without the acquiring loads three operations are enough to lose an element (C88). *)
Example C171_relaxed_case : operations C88_stale = 3 /\ let s := l_run false (l_init [10; 11]%Z 2) C88_stale in 11%Z ∉ l_popped s /\ l_content s = [].
Proof. vm_compute. split; [done|]. split; [|done]. intros H. apply elem_of_list_In in H. vm_compute in H. intuition congruence. Qed.
