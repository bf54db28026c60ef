(** * Executions on weak memory: happens-before and data races (C++ [intro.races]).
    A specification file: it models no code of its own. An execution is the list of the memory events of all threads in an order in which every read follows the write it reads from
    (program order and reads-from have no cycle: no value out of thin air). Atomic reads may read from any earlier write to their location, however old: nothing else is assumed about
    the order in which writes become visible (weaker than C++, which also has coherence); a read-modify-write reads the latest.
    Every atomic access here is an acquire and / or release operation (sequence.h 71-85 uses memory_order_acquire, memory_order_release and, in compare_exchange_weak, the default). *)
From stdpp Require Import prelude.

Section WeakMem.
  Context {loc slot val : Type}.
  Inductive wop :=
  | AWrite (l : loc) (v : Z)                 (* atomic store, release *)
  | ARead (l : loc) (from : nat) (v : Z)     (* atomic load, acquire; [from]: the event it reads from; [v]: the value *)
  | ARmw (l : loc) (from : nat) (v : Z)      (* atomic read-modify-write, acquire and release; [v]: the value written *)
  | DRead (x : slot) (v : val)               (* plain accesses *)
  | DWrite (x : slot) (v : val).
  Record wev := Ev { ev_tid : nat; ev_op : wop }.

  (** The value an event writes to an atomic location. *)
  Definition writes_to (o : wop) (l : loc) (v : Z) : Prop := o = AWrite l v \/ exists f, o = ARmw l f v.
  (** Sequenced before. *)
  Definition po (tr : list wev) (i j : nat) : Prop :=
    i < j /\ exists a b, tr !! i = Some a /\ tr !! j = Some b /\ ev_tid a = ev_tid b.
  (** Synchronizes with: an acquire operation reads from a release operation. *)
  Definition sw (tr : list wev) (i j : nat) : Prop :=
    exists a b, tr !! i = Some a /\ tr !! j = Some b /\
      exists l v, writes_to (ev_op a) l v /\ ((exists v', ev_op b = ARead l i v') \/ exists v', ev_op b = ARmw l i v').
  (** Happens before. *)
  Inductive hb (tr : list wev) : nat -> nat -> Prop :=
  | hb_po i j : po tr i j -> hb tr i j
  | hb_sw i j : sw tr i j -> hb tr i j
  | hb_trans i j k : hb tr i j -> hb tr j k -> hb tr i k.
  (** Plain accesses to one object, at least one of them a write. *)
  Definition conflict (a b : wop) : Prop :=
    match a, b with
    | DWrite x _, DWrite y _ | DWrite x _, DRead y _ | DRead x _, DWrite y _ => x = y
    | _, _ => False
    end.
  Definition race (tr : list wev) (i j : nat) : Prop :=
    i < j /\ (exists a b, tr !! i = Some a /\ tr !! j = Some b /\ conflict (ev_op a) (ev_op b)) /\ ~ hb tr i j.

  (** ** Facts *)
  Lemma hb_lt tr i j : (forall a b, sw tr a b -> a < b) -> hb tr i j -> i < j.
  Proof. intros Hsw. induction 1 as [i j [? _]|i j H|i j k _ IH1 _ IH2]; [done|by apply Hsw|lia]. Qed.
  Lemma po_app tr tr' i j : po tr i j -> po (tr ++ tr') i j.
  Proof. intros (? & a & b & Ha & Hb & ?). split; [done|]. exists a, b. split_and!; [by apply lookup_app_l_Some|by apply lookup_app_l_Some|done]. Qed.
  Lemma sw_app tr tr' i j : sw tr i j -> sw (tr ++ tr') i j.
  Proof. intros (a & b & Ha & Hb & ?). exists a, b. split_and!; [by apply lookup_app_l_Some|by apply lookup_app_l_Some|done]. Qed.
  Lemma hb_app tr tr' i j : hb tr i j -> hb (tr ++ tr') i j.
  Proof. induction 1; [by apply hb_po, po_app|by apply hb_sw, sw_app|by eapply hb_trans]. Qed.
  Lemma po_intro tr i j a b : i < j -> tr !! i = Some a -> tr !! j = Some b -> ev_tid a = ev_tid b -> hb tr i j.
  Proof. intros. apply hb_po. split; [done|]. eauto. Qed.
  (** Program order, or the same event. *)
  Definition hbe (tr : list wev) (i j : nat) : Prop := i = j \/ hb tr i j.
  Lemma hbe_app tr tr' i j : hbe tr i j -> hbe (tr ++ tr') i j.
  Proof. intros [->|H]; [by left|right; by apply hb_app]. Qed.
  Lemma hbe_trans tr i j k : hbe tr i j -> hbe tr j k -> hbe tr i k.
  Proof. intros [->|H1] [->|H2]; [by left|by right|by right|right; by eapply hb_trans]. Qed.
  Lemma hbe_hb tr i j k : hbe tr i j -> hb tr j k -> hb tr i k.
  Proof. intros [->|H1] ?; [done|by eapply hb_trans]. Qed.
  Lemma hb_hbe tr i j k : hb tr i j -> hbe tr j k -> hb tr i k.
  Proof. intros H1 [<-|?]; [done|by eapply hb_trans]. Qed.
  (** A set of events closed under program order and synchronisation that has i has everything after i in happens-before. *)
  Lemma hb_closed tr (P : nat -> Prop) i j : (forall a b, P a -> po tr a b \/ sw tr a b -> P b) -> P i -> hb tr i j -> P j.
  Proof. intros Hc Hi H. induction H as [i j H|i j H|i j k _ IH1 _ IH2]; [eauto|eauto|auto]. Qed.
  (** The same for a finite trace, as a computation: [mark] says which events are in the set. *)
  Definition reads_from (o : wop) : option nat := match o with ARead _ f _ | ARmw _ f _ => Some f | _ => None end.
  Definition closed_check (tr : list wev) (mark : nat -> bool) : bool :=
    forallb (fun b => match tr !! b with
                      | Some eb => mark b || (forallb (fun a => match tr !! a with
                                                              | Some ea => negb (mark a && (((a <? b)%nat && (ev_tid ea =? ev_tid eb)%nat) || bool_decide (reads_from (ev_op eb) = Some a)))
                                                              | None => true end) (seq 0 (length tr)))
                      | None => true end) (seq 0 (length tr)).
  Lemma not_hb tr mark i j : closed_check tr mark = true -> mark i = true -> mark j = false -> ~ hb tr i j.
  Proof.
    intros Hc Hi Hj H. assert (G : mark j = true); [|congruence]. revert H. apply (hb_closed tr (fun x => mark x = true)); [|done].
    intros a b Ha Hab. unfold closed_check in Hc. rewrite forallb_forall in Hc.
    assert (E : exists ea eb, tr !! a = Some ea /\ tr !! b = Some eb /\ ((a <? b)%nat && (ev_tid ea =? ev_tid eb)%nat || bool_decide (reads_from (ev_op eb) = Some a)) = true).
    { destruct Hab as [(Hlt & ea & eb & ? & ? & E)|(ea & eb & ? & ? & l & v & _ & Hb)]; exists ea, eb; split_and!; try done.
      - apply orb_true_iff. left. apply andb_true_iff. split; [by apply Nat.ltb_lt|by apply Nat.eqb_eq].
      - apply orb_true_iff. right. apply bool_decide_eq_true. destruct Hb as [[v' ->]|[v' ->]]; done. }
    destruct E as (ea & eb & E1 & E2 & E3). specialize (Hc b ltac:(apply in_seq; apply lookup_lt_Some in E2; lia)). rewrite E2 in Hc.
    apply orb_true_iff in Hc as [?|Hc]; [done|]. rewrite forallb_forall in Hc. specialize (Hc a ltac:(apply in_seq; apply lookup_lt_Some in E1; lia)). rewrite E1, Ha, E3 in Hc. done.
  Qed.
End WeakMem.
Arguments wop : clear implicits.
Arguments wev : clear implicits.
