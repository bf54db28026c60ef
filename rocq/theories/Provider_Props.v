(** * C48: typed access by name. *)
From stdpp Require Import prelude gmap strings.
From Coq Require Import Lia.
From Verif Require Import Base Provider_Model.

(** ** Vocabulary. *)
(** The program uses every name with one type, and no name both for a subscriber and for the scheduler. *)
Definition one_type_per_name (ty : string -> nat) (rs : list preq) : Prop :=
  (forall r, r ∈ rs -> match r with GetPublisher t n | GetSubscriber t n => ty n = t | GetScheduler n => ty (sched_name n) = fn_type end) /\
  (forall t n m, GetSubscriber t n ∈ rs -> GetScheduler m ∈ rs -> n <> sched_name m).
(** What the caller expects the answer to be. *)
Definition expected (r : preq) : pkind := match r with GetPublisher t _ => KPublisher t | GetSubscriber t _ => KSubscriber t | GetScheduler _ => KPublisher fn_type end.

(** ** Invariant. *)
Record PInv (sl : pst * list (preq * nat)) : Prop := {
  pi_pub : forall n o, p_pubs sl.1 !! n = Some o -> (o < p_next sl.1) /\ exists t, p_objs sl.1 !! o = Some (KPublisher t);
  pi_sub : forall n o, p_subs sl.1 !! n = Some o -> (o < p_next sl.1) /\ exists k, p_objs sl.1 !! o = Some k /\ forall t, k <> KPublisher t;
  pi_pinj : forall n n' o, p_pubs sl.1 !! n = Some o -> p_pubs sl.1 !! n' = Some o -> n = n';
  pi_sinj : forall n n' o, p_subs sl.1 !! n = Some o -> p_subs sl.1 !! n' = Some o -> n = n';
  pi_lpub : forall t n o, (GetPublisher t n, o) ∈ sl.2 -> p_pubs sl.1 !! n = Some o;
  pi_lsch : forall n o, (GetScheduler n, o) ∈ sl.2 -> p_sched sl.1 = Some o;
  pi_lsub : forall t n o, (GetSubscriber t n, o) ∈ sl.2 -> (forall m o', (GetScheduler m, o') ∈ sl.2 -> n <> sched_name m) -> p_subs sl.1 !! n = Some o;
  pi_sch : forall o, p_sched sl.1 = Some o -> exists n, p_pubs sl.1 !! n = Some o
}.
Lemma in_snoc {A} (l : list A) x y : x ∈ l ++ [y] <-> x ∈ l \/ x = y.
Proof. rewrite elem_of_app, elem_of_list_singleton. done. Qed.
Lemma pinv_get_publisher s l t n r : PInv (s, l) -> (forall n, r <> GetScheduler n) -> (forall t' n', r <> GetSubscriber t' n') -> (forall t' n', r = GetPublisher t' n' -> n' = n) ->
  PInv ((get_publisher s t n).1, l ++ [(r, (get_publisher s t n).2)]).
Proof.
  intros [A1 A2 A3 A4 A5 A6 A7 A8] R1 R2 R3. cbn [fst snd] in *. unfold get_publisher. destruct (p_pubs s !! n) as [o|] eqn:E; cbn [fst snd].
  - constructor; cbn [fst snd]; try done.
    + intros t' n' o' [H|H]%in_snoc; [eauto|]. injection H as H ->. by rewrite (R3 _ _ (eq_sym H)).
    + intros n' o' [H|H]%in_snoc; [eauto|]. injection H as H _. by destruct (R1 n').
    + intros t' n' o' [H|H]%in_snoc Hm; [|injection H as H _; by destruct (R2 t' n')]. eapply A7; [done|]. intros m o'' Hx. apply (Hm m o''). apply in_snoc. by left.
  - constructor; cbn [fst snd p_pubs p_subs p_objs p_sched p_next].
    + intros n' o' [[<- <-]|[Hne H]]%lookup_insert_Some; [split; [lia|]; exists t; by rewrite lookup_insert|].
      destruct (A1 _ _ H) as (? & t' & Ht'). split; [lia|]. exists t'. by rewrite lookup_insert_ne by lia.
    + intros n' o' H. destruct (A2 _ _ H) as (? & k & Hk & ?). split; [lia|]. exists k. by rewrite lookup_insert_ne by lia.
    + intros n1 n2 o' [[<- <-]|[? H1]]%lookup_insert_Some [[<- H2]|[? H2]]%lookup_insert_Some; try done.
      * apply A1 in H2 as [? _]. lia.
      * subst. apply A1 in H1 as [? _]. lia.
      * by eapply A3.
    + done.
    + intros t' n' o' [H|H]%in_snoc.
      * specialize (A5 _ _ _ H). rewrite lookup_insert_ne; [done|]. intros ->. congruence.
      * injection H as H ->. rewrite (R3 _ _ (eq_sym H)). by rewrite lookup_insert.
    + intros n' o' [H|H]%in_snoc; [eauto|]. injection H as H _. by destruct (R1 n').
    + intros t' n' o' [H|H]%in_snoc Hm; [|injection H as H _; by destruct (R2 t' n')]. eapply A7; [done|]. intros m o'' Hx. apply (Hm m o''). apply in_snoc. by left.
    + intros o' H. destruct (A8 _ H) as [m Hm]. exists m. rewrite lookup_insert_ne; [done|]. intros ->. congruence.
Qed.
Lemma pinv_step s l r : PInv (s, l) -> PInv (p_trans (s, l) r).
Proof.
  intros I. unfold p_trans. destruct (p_step (fst (s, l)) r) as [s' o] eqn:E. cbn [fst snd] in *. destruct r as [t n|t n|n]; cbn [p_step] in E.
  - pose proof (pinv_get_publisher s l t n (GetPublisher t n) I ltac:(done) ltac:(done)) as H. rewrite E in H. apply H. intros ? ? [= _ ->]. done.
  - destruct I as [A1 A2 A3 A4 A5 A6 A7 A8]. cbn [fst snd] in *. unfold get_subscriber in E. destruct (p_subs s !! n) as [o0|] eqn:Es; injection E as <- <-.
    + constructor; cbn [fst snd]; try done.
      * intros t' n' o' [H|H]%in_snoc; [eauto|done].
      * intros n' o' [H|H]%in_snoc; [eauto|done].
      * intros t' n' o' [H|H]%in_snoc Hm; [|by injection H as -> -> ->]. eapply A7; [done|]. intros m o'' Hx. apply (Hm m o''). apply in_snoc. by left.
    + constructor; cbn [fst snd p_pubs p_subs p_objs p_sched p_next]; try done.
      * intros n' o' H. destruct (A1 _ _ H) as (? & t' & Ht'). split; [lia|]. exists t'. by rewrite lookup_insert_ne by lia.
      * intros n' o' [[<- <-]|[Hne H]]%lookup_insert_Some; [split; [lia|]; exists (KSubscriber t); by rewrite lookup_insert|].
        destruct (A2 _ _ H) as (? & k & Hk & ?). split; [lia|]. exists k. by rewrite lookup_insert_ne by lia.
      * intros n1 n2 o' [[<- <-]|[? H1]]%lookup_insert_Some [[<- H2]|[? H2]]%lookup_insert_Some; try done.
        -- apply A2 in H2 as [? _]. lia.
        -- subst. apply A2 in H1 as [? _]. lia.
        -- by eapply A4.
      * intros t' n' o' [H|H]%in_snoc; [eauto|done].
      * intros n' o' [H|H]%in_snoc; [eauto|done].
      * intros t' n' o' [H|H]%in_snoc Hm; [|injection H as -> -> ->; by rewrite lookup_insert].
        assert (Hx : p_subs s !! n' = Some o') by (eapply A7; [done|]; intros m o'' Hx; apply (Hm m o''); apply in_snoc; by left).
        rewrite lookup_insert_ne; [done|]. intros ->. congruence.
  - unfold get_scheduler in E. destruct (p_sched s) as [o0|] eqn:Es.
    + injection E as <- <-. destruct I as [A1 A2 A3 A4 A5 A6 A7 A8]. cbn [fst snd] in *. constructor; cbn [fst snd]; try done.
      * intros t' n' o' [H|H]%in_snoc; [eauto|done].
      * intros n' o' [H|H]%in_snoc; [eauto|by injection H as -> ->].
      * intros t' n' o' [H|H]%in_snoc Hm; [|done]. eapply A7; [done|]. intros m o'' Hx. apply (Hm m o''). apply in_snoc. by left.
    + set (m := sched_name n) in *. set (objs := match p_subs s !! m with Some old => delete old (p_objs s) | None => p_objs s end) in *.
      set (s1 := Pst (p_pubs s) (<[m := p_next s]> (p_subs s)) None (<[p_next s := KExecutor]> objs) (S (p_next s))) in *.
      destruct I as [A1 A2 A3 A4 A5 A6 A7 A8]. cbn [fst snd] in *.
      assert (Hno : forall n' o', (GetScheduler n', o') ∉ l) by (intros n' o' Hx; apply A6 in Hx; congruence).
      assert (Ho : forall o' k, p_objs s !! o' = Some k -> o' <> p_next s -> (forall old, p_subs s !! m = Some old -> o' <> old) -> (<[p_next s := KExecutor]> objs) !! o' = Some k).
      { intros o' k H1 H2 H3. rewrite lookup_insert_ne by done. unfold objs. destruct (p_subs s !! m) as [old|]; [|done]. rewrite lookup_delete_ne; [done|]. intros ->. by apply (H3 o'). }
      assert (I1 : PInv (s1, [])).
      { constructor; unfold s1; cbn [fst snd p_pubs p_subs p_objs p_sched p_next]; try (intros; by match goal with H : _ ∈ [] |- _ => apply elem_of_nil in H end); try done.
        - intros n' o' H. destruct (A1 _ _ H) as (? & t' & Ht'). split; [lia|]. exists t'. apply Ho; [done|lia|]. intros old Hold ->. destruct (A2 _ _ Hold) as (_ & k & Hk & Hk'). rewrite Ht' in Hk. injection Hk as <-. by destruct (Hk' t').
        - intros n' o' [[<- <-]|[Hne H]]%lookup_insert_Some; [split; [lia|]; exists KExecutor; by rewrite lookup_insert|].
          destruct (A2 _ _ H) as (? & k & Hk & ?). split; [lia|]. exists k. split; [|done]. apply Ho; [done|lia|]. intros old Hold ->. apply Hne. by eapply A4.
        - intros n1 n2 o' [[<- <-]|[? H1]]%lookup_insert_Some [[<- H2]|[? H2]]%lookup_insert_Some; try done.
          + apply A2 in H2 as [? _]. lia.
          + subst. apply A2 in H1 as [? _]. lia.
          + by eapply A4. }
      pose proof (pinv_get_publisher s1 [] fn_type m (GetPublisher fn_type m) I1 ltac:(done) ltac:(done)) as [B1 B2 B3 B4 B5 B6 B7 B8]; [by intros ? ? [= _ ->]|]. cbn [fst snd] in *.
      destruct (get_publisher s1 fn_type m) as [s2 o2] eqn:Eg. cbn [fst snd] in *. injection E as <- <-.
      specialize (B5 fn_type m o2 ltac:(apply in_snoc; by right)).
      assert (Hp : forall n' o', p_pubs s !! n' = Some o' -> p_pubs s2 !! n' = Some o').
      { intros n' o' H. unfold get_publisher in Eg. cbn in Eg. destruct (p_pubs s !! m) eqn:Em; injection Eg as <- <-; [done|]. cbn. rewrite lookup_insert_ne; [done|]. intros <-. congruence. }
      assert (Hs2 : p_subs s2 = <[m := p_next s]> (p_subs s)) by (unfold get_publisher in Eg; cbn in Eg; destruct (p_pubs s !! m); by injection Eg as <- <-).
      constructor; cbn [fst snd p_pubs p_subs p_objs p_sched p_next]; try done.
      * intros t' n' o' [H|H]%in_snoc; [eauto|done].
      * intros n' o' [H|H]%in_snoc; [by destruct (Hno n' o')|by injection H as -> ->].
      * intros t' n' o' [H|H]%in_snoc Hm; [|done]. assert (Hne : n' <> m) by (apply (Hm n o2), in_snoc; by right). rewrite Hs2, lookup_insert_ne by done.
        eapply A7; [done|]. intros m' o'' Hx. by destruct (Hno m' o'').
      * intros o' [= <-]. eauto.
Qed.
Lemma pinv_run rs : PInv (p_run rs).
Proof.
  unfold p_run. induction rs as [|r rs IH] using rev_ind.
  - cbn. constructor; cbn; intros; by rewrite ?lookup_empty in *; try (match goal with H : _ ∈ [] |- _ => apply elem_of_nil in H end).
  - rewrite fold_left_app. cbn [fold_left]. destruct (fold_left p_trans rs (p_init, [])) as [s l]. by apply pinv_step.
Qed.
Lemma run_requests rs : fmap fst (p_run rs).2 = rs.
Proof.
  unfold p_run. induction rs as [|r rs IH] using rev_ind; [done|]. rewrite fold_left_app. cbn [fold_left]. unfold p_trans at 1.
  destruct (p_step _ r) as [s' o]. cbn [snd]. rewrite fmap_app, IH. done.
Qed.
(** The type of what is created for a name is the one in ty, for a program that respects it. *)
Lemma typed_run ty rs : one_type_per_name ty rs ->
  (forall n o, p_pubs (p_run rs).1 !! n = Some o -> p_objs (p_run rs).1 !! o = Some (KPublisher (ty n))) /\
  (forall n o, p_subs (p_run rs).1 !! n = Some o -> (forall m, GetScheduler m ∈ rs -> n <> sched_name m) -> p_objs (p_run rs).1 !! o = Some (KSubscriber (ty n))) /\
  (forall o, p_sched (p_run rs).1 = Some o -> exists m, GetScheduler m ∈ rs /\ p_pubs (p_run rs).1 !! sched_name m = Some o).
Proof.
  induction rs as [|r rs IH] using rev_ind; intros [T1 T2].
  - cbn. split_and!; intros; by rewrite ?lookup_empty in *.
  - assert (T : one_type_per_name ty rs).
    { split; [intros r' Hr; apply T1, in_snoc; by left|]. intros t n m H1 H2. apply (T2 t n m); apply in_snoc; by left. }
    destruct (IH T) as (J1 & J2 & J3). clear IH. pose proof (pinv_run rs) as [A1 A2 A3 A4 A5 A6 A7 A8].
    specialize (T1 r ltac:(apply in_snoc; by right)).
    unfold p_run in *. rewrite fold_left_app. cbn [fold_left]. set (sl := fold_left p_trans rs (p_init, [])) in *. destruct sl as [s l]. cbn [fst snd] in *.
    unfold p_trans. cbn [fst]. destruct r as [t n|t n|n]; cbn [p_step].
    + unfold get_publisher. destruct (p_pubs s !! n) as [o|] eqn:E; cbn [fst snd p_pubs p_subs p_objs p_sched].
      * split; [done|]. split; [intros n' o' H Hm; apply J2; [done|]; intros m Hx; apply Hm, in_snoc; by left|]. intros o' H. destruct (J3 _ H) as (m & Hm & ?). exists m. split; [apply in_snoc; by left|done].
      * split; [|split].
        -- intros n' o' [[<- <-]|[Hne H]]%lookup_insert_Some; [rewrite lookup_insert; by subst t|]. rewrite lookup_insert_ne; [by apply J1|]. apply A1 in H as [? _]. lia.
        -- intros n' o' H Hm. rewrite lookup_insert_ne; [|apply A2 in H as [? _]; lia]. apply J2; [done|]. intros m Hx. apply Hm, in_snoc. by left.
        -- intros o' H. destruct (J3 _ H) as (m & Hm & Hx). exists m. split; [apply in_snoc; by left|]. rewrite lookup_insert_ne; [done|]. intros ->. congruence.
    + unfold get_subscriber. destruct (p_subs s !! n) as [o|] eqn:E; cbn [fst snd p_pubs p_subs p_objs p_sched].
      * split; [done|]. split; [intros n' o' H Hm; apply J2; [done|]; intros m Hx; apply Hm, in_snoc; by left|]. intros o' H. destruct (J3 _ H) as (m & Hm & ?). exists m. split; [apply in_snoc; by left|done].
      * split; [|split].
        -- intros n' o' H. rewrite lookup_insert_ne; [by apply J1|]. apply A1 in H as [? _]. lia.
        -- intros n' o' [[<- <-]|[Hne H]]%lookup_insert_Some Hm; [rewrite lookup_insert; by subst t|]. rewrite lookup_insert_ne; [|apply A2 in H as [? _]; lia]. apply J2; [done|]. intros m Hx. apply Hm, in_snoc. by left.
        -- intros o' H. destruct (J3 _ H) as (m & Hm & Hx). exists m. split; [apply in_snoc; by left|done].
    + unfold get_scheduler. destruct (p_sched s) as [o|] eqn:E; cbn [fst snd p_pubs p_subs p_objs p_sched].
      * split; [done|]. split; [intros n' o' H Hm; apply J2; [done|]; intros m Hx; apply Hm, in_snoc; by left|]. intros o' H. rewrite E in H. destruct (J3 _ H) as (m & Hm & ?). exists m. split; [apply in_snoc; by left|done].
      * set (m := sched_name n) in *. set (objs := match p_subs s !! m with Some old => delete old (p_objs s) | None => p_objs s end) in *.
        assert (Ho : forall o' k, p_objs s !! o' = Some k -> o' <> p_next s -> (forall old, p_subs s !! m = Some old -> o' <> old) -> (<[p_next s := KExecutor]> objs) !! o' = Some k).
        { intros o' k H1 H2 H3. rewrite lookup_insert_ne by done. unfold objs. destruct (p_subs s !! m) as [old|]; [|done]. rewrite lookup_delete_ne; [done|]. intros ->. by apply (H3 o'). }
        assert (Hold : forall n' o', p_pubs s !! n' = Some o' -> (<[p_next s := KExecutor]> objs) !! o' = Some (KPublisher (ty n'))).
        { intros n' o' H. apply Ho; [by apply J1|apply A1 in H as [? _]; lia|]. intros old H2 ->. destruct (A2 _ _ H2) as (_ & k & Hk & Hk'). rewrite (J1 _ _ H) in Hk. injection Hk as <-. by destruct (Hk' (ty n')). }
        assert (Hsub : forall n' o', p_subs s !! n' = Some o' -> n' <> m -> (forall m0, GetScheduler m0 ∈ rs ++ [GetScheduler n] -> n' <> sched_name m0) -> (<[p_next s := KExecutor]> objs) !! o' = Some (KSubscriber (ty n'))).
        { intros n' o' H Hne Hm. apply Ho; [apply J2; [done|]; intros m0 Hx; apply Hm, in_snoc; by left|apply A2 in H as [? _]; lia|]. intros old H2 ->. apply Hne. by eapply A4. }
        unfold get_publisher. cbn [p_pubs]. destruct (p_pubs s !! m) as [o|] eqn:Em; cbn [fst snd p_pubs p_subs p_objs p_sched p_next].
        -- split; [done|]. split.
           ++ intros n' o' H Hm. assert (Hne : n' <> m) by (apply Hm, in_snoc; by right). rewrite lookup_insert_ne in H by done. auto.
           ++ intros o' [= <-]. exists n. split; [apply in_snoc; by right|done].
        -- split; [|split].
           ++ intros n' o' [[<- <-]|[Hne H]]%lookup_insert_Some; [rewrite lookup_insert; by rewrite T1|]. rewrite lookup_insert_ne; [by apply Hold|]. apply A1 in H as [? _]. lia.
           ++ intros n' o' H Hm. assert (Hne : n' <> m) by (apply Hm, in_snoc; by right). rewrite lookup_insert_ne in H by done. rewrite lookup_insert_ne; [auto|]. apply A2 in H as [? _]. lia.
           ++ intros o' [= <-]. exists n. split; [apply in_snoc; by right|by rewrite lookup_insert].
Qed.

(** * C48 *)
(** In a program that uses every name with one type (and the scheduler's name for no subscriber), every answer so far is a live object of the requested type. *)
Theorem C48_answers_have_the_requested_type ty rs r o : one_type_per_name ty rs -> (r, o) ∈ (p_run rs).2 -> p_objs (p_run rs).1 !! o = Some (expected r).
Proof.
  intros T Hin. destruct (typed_run ty rs T) as (J1 & J2 & J3). pose proof (pinv_run rs) as [A1 A2 A3 A4 A5 A6 A7 A8].
  assert (Hr : r ∈ rs) by (rewrite <-(run_requests rs); apply elem_of_list_fmap; by exists (r, o)).
  destruct T as [T1 T2]. pose proof (T1 r Hr) as Ty. destruct r as [t n|t n|n]; cbn [expected].
  - rewrite <-Ty. apply J1. by eapply A5.
  - rewrite <-Ty. apply J2; [|intros m Hm; by eapply T2]. eapply A7; [done|]. intros m o' Hm. eapply T2; [done|]. rewrite <-(run_requests rs). apply elem_of_list_fmap. by exists (GetScheduler m, o').
  - destruct (J3 o) as (m & Hm & Hp); [by eapply A6|]. rewrite (J1 _ _ Hp), (T1 _ Hm). done.
Qed.
(** Equal requests get the same object; requests for different names get different objects. For publishers this needs no hypothesis on the program. *)
Theorem C48_publisher_by_name rs t n o t' n' o' : (GetPublisher t n, o) ∈ (p_run rs).2 -> (GetPublisher t' n', o') ∈ (p_run rs).2 -> o = o' <-> n = n'.
Proof.
  intros H1 H2. pose proof (pinv_run rs) as [A1 A2 A3 A4 A5 A6 A7 A8]. apply A5 in H1, H2. split; [intros ->; by eapply A3|intros ->; congruence].
Qed.
Theorem C48_subscriber_by_name ty rs t n o t' n' o' : one_type_per_name ty rs -> (GetSubscriber t n, o) ∈ (p_run rs).2 -> (GetSubscriber t' n', o') ∈ (p_run rs).2 -> o = o' <-> n = n'.
Proof.
  intros [T1 T2] H1 H2. pose proof (pinv_run rs) as [A1 A2 A3 A4 A5 A6 A7 A8].
  assert (Hs : forall t n o, (GetSubscriber t n, o) ∈ (p_run rs).2 -> p_subs (p_run rs).1 !! n = Some o).
  { intros t0 n0 o0 H. eapply A7; [done|]. intros m ox Hm. eapply T2; rewrite <-(run_requests rs); apply elem_of_list_fmap; [by exists (GetSubscriber t0 n0, o0)|by exists (GetScheduler m, ox)]. }
  apply Hs in H1, H2. split; [intros ->; by eapply A4|intros ->; congruence].
Qed.
(** There is one scheduler, whatever names are given to later calls. *)
Theorem C48_one_scheduler rs n o n' o' : (GetScheduler n, o) ∈ (p_run rs).2 -> (GetScheduler n', o') ∈ (p_run rs).2 -> o = o'.
Proof. intros H1 H2. pose proof (pinv_run rs) as [A1 A2 A3 A4 A5 A6 A7 A8]. apply A6 in H1, H2. congruence. Qed.

(** The hypothesis is met by a program with three names, two types and a scheduler ... *)
Definition prov_demo : list preq := [GetPublisher 1 "imu"; GetScheduler ""; GetSubscriber 1 "imu"; GetPublisher 2 "gps"; GetSubscriber 1 "imu"; GetScheduler "other"; GetPublisher 0 "EVENTLOOP_SCHEDULER"].
Example prov_demo_ok : one_type_per_name (fun n => if decide (n = "imu") then 1 else if decide (n = "gps") then 2 else 0) prov_demo /\ (p_run prov_demo).2.*2 = [0; 2; 3; 4; 3; 2; 2].
Proof.
  split; [|vm_compute; reflexivity]. split.
  - apply Forall_forall. repeat constructor.
  - intros t n m H1 H2. assert (Hn : n = "imu") by (repeat (apply elem_of_cons in H1 as [H1|H1]; [try discriminate H1; injection H1 as -> ->; reflexivity|]); by apply elem_of_nil in H1).
    subst n. unfold sched_name. destruct (decide (m = "")); [discriminate|].
    repeat (apply elem_of_cons in H2 as [H2|H2]; [try discriminate H2; injection H2 as ->; try done|]). by apply elem_of_nil in H2.
Qed.
(** ... and each half of it is needed: nothing is checked or refused. *)
Theorem C48_types_refuted :
  (exists rs r o k, (r, o) ∈ (p_run rs).2 /\ p_objs (p_run rs).1 !! o = Some k /\ k <> expected r /\ r = GetPublisher 2 "imu") /\
  (exists rs r o, (r, o) ∈ (p_run rs).2 /\ p_objs (p_run rs).1 !! o = Some KExecutor /\ r = GetSubscriber 0 "EVENTLOOP_SCHEDULER") /\
  (exists rs r o, (r, o) ∈ (p_run rs).2 /\ p_objs (p_run rs).1 !! o = None /\ r = GetSubscriber 0 "tasks").
Proof.
  split; [|split].
  - exists [GetPublisher 1 "imu"; GetPublisher 2 "imu"], (GetPublisher 2 "imu"), 0, (KPublisher 1). split; [vm_compute; right; left|]. split; [reflexivity|done].
  - exists [GetScheduler ""; GetSubscriber 0 "EVENTLOOP_SCHEDULER"], (GetSubscriber 0 "EVENTLOOP_SCHEDULER"), 0. split; [vm_compute; right; left|]. split; reflexivity.
  - exists [GetSubscriber 0 "tasks"; GetScheduler "tasks"], (GetSubscriber 0 "tasks"), 0. split; [vm_compute; left|]. split; reflexivity.
Qed.
Print Assumptions C48_answers_have_the_requested_type.
Print Assumptions C48_publisher_by_name.
Print Assumptions C48_subscriber_by_name.
Print Assumptions C48_one_scheduler.
Print Assumptions C48_types_refuted.
