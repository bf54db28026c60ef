(** * C169, C170: subscribers of a data multiplexer provider, by name. *)
From stdpp Require Import prelude gmap strings.
From Verif Require Import MuxProv_Model.

(** ** Specification *)
Definition outside (s : mpst) (t : nat) : Prop := forall pc r, mp_thr s !! t = Some (pc, r) -> pc = MPIdle.
(** Calls do not overlap: a thread begins a call only while no thread is inside one. *)
Fixpoint one_at_a_time (s : mpst) (sched : list nat) : Prop :=
  match sched with
  | [] => True
  | t :: sched' => (outside s t -> forall u, outside s u) /\ one_at_a_time (mp_step s t) sched'
  end.
(** The container given last. *)
Definition last_container (c0 : nat) (log : list mpev) : nat := foldl (fun c e => match e with MSet _ c' => c' | MGot _ _ _ => c end) c0 log.

(** ** Invariant *)
Record inv (c0 : nat) (s : mpst) : Prop := {
  i_log : forall t n o, MGot t n o ∈ mp_log s -> mp_map s !! n = Some o;
  i_obj : forall n o, mp_map s !! n = Some o -> mp_objs s !! o = Some (n, mp_cont s);
  i_dom : forall o x, mp_objs s !! o = Some x -> (o < mp_next s)%nat;
  i_cont : mp_cont s = last_container c0 (mp_log s);
  i_pc : forall t n r, mp_thr s !! t = Some (MPCreate n, r) -> mp_map s !! n = None;
  i_one : forall t n r t' n' r', mp_thr s !! t = Some (MPCreate n, r) -> mp_thr s !! t' = Some (MPCreate n', r') -> t = t'
}.
Lemma inv_new c progs : inv c (mp_new c progs).
Proof.
  split; cbn [mp_new mp_log mp_map mp_objs mp_cont mp_thr]; try done.
  - intros t n o H. by apply elem_of_nil in H.
  - intros t n r t' n' r' H. apply list_lookup_fmap_inv in H as (p & E & _). done.
Qed.
Lemma set_all_lookup c l (objs : gmap nat (string * nat)) o :
  foldr (fun kv acc => alter (fun x : string * nat => (x.1, c)) (kv : string * nat).2 acc) objs l !! o =
  if decide (o ∈ l.*2) then (fun x => (x.1, c)) <$> objs !! o else objs !! o.
Proof.
  induction l as [|[n o'] l IH]; cbn [foldr fmap list_fmap snd].
  - by rewrite decide_False by apply not_elem_of_nil.
  - destruct (decide (o = o')) as [->|H].
    + rewrite lookup_alter, IH, (decide_True _ _ (elem_of_list_here o' _)). destruct (decide _); [|done]. destruct (objs !! o'); done.
    + rewrite lookup_alter_ne by done. rewrite IH. destruct (decide (o ∈ l.*2)) as [Hi|Hi].
      * rewrite decide_True; [done|]. by right.
      * rewrite decide_False; [done|]. rewrite not_elem_of_cons. done.
Qed.
Lemma inv_step c0 s t : inv c0 s -> (outside s t -> forall u, outside s u) -> inv c0 (mp_step s t).
Proof.
  intros I Ho. unfold mp_step. destruct (mp_thr s !! t) as [[pc r]|] eqn:Ht; [|done].
  destruct pc as [|n].
  - assert (forall u, outside s u) as Hall by (apply Ho; intros pc' r' E; congruence).
    assert (forall u n r', mp_thr s !! u = Some (MPCreate n, r') -> False) as Hno by (intros u n r' E; specialize (Hall u _ _ E); done).
    destruct r as [|[n|c] r]; [done| |].
    + destruct (mp_map s !! n) as [o|] eqn:Hm; split; cbn [mp_log mp_map mp_objs mp_cont mp_thr mp_next]; try apply I.
      * intros t' n' o' H. apply elem_of_app in H as [H|H]; [by eapply i_log|]. apply elem_of_list_singleton in H. injection H as -> -> ->. done.
      * unfold last_container. rewrite foldl_app. cbn. apply I.
      * intros t' n' r' H. apply list_lookup_insert_Some in H as [(_ & E & _)|[_ H]]; [done|]. by apply Hno in H.
      * intros t' n' r' t'' n'' r'' H. apply list_lookup_insert_Some in H as [(_ & E & _)|[_ H]]; [done|]. by apply Hno in H.
      * intros t' n' r' H. apply list_lookup_insert_Some in H as [(_ & E & _)|[_ H]]; [|by apply Hno in H]. injection E as -> _. done.
      * intros t' n' r' t'' n'' r'' H H2. apply list_lookup_insert_Some in H as [(<- & _ & _)|[_ H]]; [|by apply Hno in H].
        apply list_lookup_insert_Some in H2 as [(<- & _ & _)|[_ H2]]; [done|by apply Hno in H2].
    + split; cbn [mp_log mp_map mp_objs mp_cont mp_thr mp_next].
      * intros t' n' o' H. apply elem_of_app in H as [H|H]; [by eapply i_log|]. apply elem_of_list_singleton in H. done.
      * intros n o H. unfold set_all. rewrite set_all_lookup. rewrite decide_True.
        -- by rewrite (i_obj _ _ I n o H).
        -- apply elem_of_list_fmap. exists (n, o). split; [done|]. by apply elem_of_map_to_list.
      * intros o x. unfold set_all. rewrite set_all_lookup. destruct (decide _).
        -- intros H. apply fmap_Some in H as (y & H & _). by eapply i_dom.
        -- intros H. by eapply i_dom.
      * unfold last_container. rewrite foldl_app. done.
      * intros t' n' r' H. apply list_lookup_insert_Some in H as [(_ & E & _)|[_ H]]; [done|]. by apply Hno in H.
      * intros t' n' r' t'' n'' r'' H. apply list_lookup_insert_Some in H as [(_ & E & _)|[_ H]]; [done|]. by apply Hno in H.
  - pose proof (i_pc _ _ I _ _ _ Ht) as Hm. rewrite Hm. cbv zeta.
    assert (forall u n' r', u <> t -> mp_thr s !! u = Some (MPCreate n', r') -> False) as Hno by (intros u n' r' Hu E; apply Hu; exact (i_one _ _ I _ _ _ _ _ _ E Ht)).
    split; cbn [mp_log mp_map mp_objs mp_cont mp_thr mp_next].
    + intros t' n' o' H. apply elem_of_app in H as [H|H].
      * pose proof (i_log _ _ I _ _ _ H) as E. rewrite lookup_insert_ne by congruence. done.
      * apply elem_of_list_singleton in H. injection H as -> -> ->. apply lookup_insert.
    + intros n' o' H. destruct (decide (n = n')) as [->|Hn].
      * rewrite lookup_insert in H. injection H as <-. apply lookup_insert.
      * rewrite lookup_insert_ne in H by done. pose proof (i_obj _ _ I _ _ H) as E. pose proof (i_dom _ _ I _ _ E). rewrite lookup_insert_ne by lia. done.
    + intros o' x H. apply lookup_insert_Some in H as [[<- _]|[_ H]]; [lia|]. apply (i_dom _ _ I) in H. lia.
    + unfold last_container. rewrite foldl_app. cbn. apply I.
    + intros t' n' r' H. apply list_lookup_insert_Some in H as [(_ & E & _)|[Hne H]]; [done|]. exfalso. eapply Hno; [|exact H]. congruence.
    + intros t' n' r' t'' n'' r'' H. apply list_lookup_insert_Some in H as [(_ & E & _)|[Hne H]]; [done|]. exfalso. eapply Hno; [|exact H]. congruence.
Qed.
Lemma inv_run c0 s sched : inv c0 s -> one_at_a_time s sched -> inv c0 (mp_run s sched).
Proof.
  revert s. induction sched as [|t sched IH]; intros s I H; [done|]. destruct H as [H1 H2]. cbn. apply IH; [|done]. by apply inv_step.
Qed.

(** ** C169 *)
Section C169.
Context (c0 : nat) (progs : list (list mpreq)) (sched : list nat) (H1 : one_at_a_time (mp_new c0 progs) sched).
Notation s := (mp_run (mp_new c0 progs) sched).
(** Whichever threads ask, equal names give the same subscriber and different names different ones. *)
Theorem C169_by_name t n o t' n' o' : MGot t n o ∈ mp_log s -> MGot t' n' o' ∈ mp_log s -> o = o' <-> n = n'.
Proof using H1.
  pose proof (inv_run c0 _ _ (inv_new c0 progs) H1) as I. intros Ha Hb. apply (i_log _ _ I) in Ha, Hb. split; [|congruence].
  intros ->. apply (i_obj _ _ I) in Ha, Hb. congruence.
Qed.
(** What was returned is alive, is the subscriber of that name, and uses the container given last. *)
Theorem C169_alive t n o : MGot t n o ∈ mp_log s -> mp_objs s !! o = Some (n, last_container c0 (mp_log s)).
Proof using H1.
  pose proof (inv_run c0 _ _ (inv_new c0 progs) H1) as I. intros Ha. apply (i_log _ _ I), (i_obj _ _ I) in Ha. by rewrite Ha, (i_cont _ _ I).
Qed.
End C169.
(** Every call returns after at most two steps of its thread, whatever the others do. *)
Theorem C169_returns s t n r : mp_thr s !! t = Some (MPIdle, MGet n :: r) ->
  let s1 := mp_step s t in let s2 := mp_step s1 t in
  (exists o, mp_log s1 = mp_log s ++ [MGot t n o] /\ mp_thr s1 !! t = Some (MPIdle, r)) \/
  (mp_log s1 = mp_log s /\ exists o, mp_log s2 = mp_log s ++ [MGot t n o] /\ mp_thr s2 !! t = Some (MPIdle, r)).
Proof.
  intros Ht s1 s2. assert (t < length (mp_thr s)) as Hl by (by eapply lookup_lt_Some).
  assert (s1 = mp_step s t) as E1 by done. unfold mp_step in E1. rewrite Ht in E1. destruct (mp_map s !! n) as [o|] eqn:Hm.
  - left. exists o. rewrite E1. cbn [mp_log mp_thr]. rewrite list_lookup_insert by done. done.
  - right. split; [by rewrite E1|]. exists (mp_next s). unfold s2, mp_step. rewrite E1. cbn [mp_log mp_thr mp_next]. rewrite list_lookup_insert by done. split; [done|].
    cbn [mp_thr]. rewrite list_lookup_insert by (by rewrite insert_length). done.
Qed.
(** Three threads, two names, a container set in between. *)
Example C169_example :
  let progs := [[MGet "imu"; MGet "gps"]; [MSetC 5; MGet "imu"]; [MGet "gps"]] in let sched := [0; 0; 1; 2; 2; 0; 1]%nat in
  one_at_a_time (mp_new 0 progs) sched /\ mp_log (mp_run (mp_new 0 progs) sched) = [MGot 0 "imu" 0; MSet 1 5; MGot 2 "gps" 1; MGot 0 "gps" 1; MGot 1 "imu" 0].
Proof.
  split; [|vm_compute; done]. cbn [one_at_a_time]. repeat split; intros Ho u pc r Hu;
  (destruct u as [|[|[|u]]]; [vm_compute in Hu; by injection Hu as <- _| | |by vm_compute in Hu]) || idtac.
  all: try (vm_compute in Hu; by injection Hu as <- _).
  all: exfalso; first [assert (MPCreate "imu" = MPIdle) by (eapply (Ho (MPCreate "imu")); vm_compute; reflexivity); done | assert (MPCreate "gps" = MPIdle) by (eapply (Ho (MPCreate "gps")); vm_compute; reflexivity); done].
Qed.

(** ** C170: two threads ask for the same name at once, for every name. Both get a subscriber, not the same one, and the first one is destroyed while its caller holds the pointer. *)
Theorem C170_refuted c0 n : exists sched o o', mp_log (mp_run (mp_new c0 [[MGet n]; [MGet n]]) sched) = [MGot 0 n o; MGot 1 n o'] /\ o <> o' /\
  mp_objs (mp_run (mp_new c0 [[MGet n]; [MGet n]]) sched) !! o = None.
Proof.
  exists [0; 1; 0; 1]%nat, 0%nat, 1%nat. cbn. repeat (unfold mp_step at 1; cbn [mp_thr mp_map lookup list_lookup]; rewrite ?lookup_empty, ?lookup_insert; cbn).
  unfold mp_step. cbn. rewrite ?lookup_empty. cbn. rewrite ?lookup_insert. cbn. split; [done|]. split; [done|]. rewrite lookup_insert_ne by done. apply lookup_delete.
Qed.
