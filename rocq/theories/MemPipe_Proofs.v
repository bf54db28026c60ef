From stdpp Require Import prelude list_numbers.
From Verif Require Import Base SafeQueue_Model SafeQueue_Spec SafeQueue_Proofs MemPipe_Model.

Definition in_flight (s : mpst) : list nat := match mp_poll s with PollGot x => [x] | _ => [] end.
Definition published_by (t : nat) (s : mpst) : list nat := (filter (fun p => p.1 = t) (mp_entered s)).*2.

Record MInv (discard : bool) (progs : list (list nat)) (s : mpst) : Prop := {
  mi_flow : exists gone, (mp_entered s).*2 = gone ++ mp_q s /\ mp_out s ++ in_flight s `sublist_of` gone /\
     length gone = length (mp_out s ++ in_flight s) + mp_dropped s;
  mi_prog : forall t p, mp_pubs s !! t = Some p -> progs !! t = Some (published_by t s ++ pu_todo p);
  mi_block : discard = false -> mp_dropped s = 0 /\ mp_disc s = 0 /\ (forall t p, mp_pubs s !! t = Some p -> pu_pc p = PubIdle);
  mi_len : length (mp_pubs s) = length progs
}.

Lemma drop_loop_drop max q : exists n, drop_loop max q = (drop n q, n) /\ n <= length q.
Proof.
  rewrite drop_loop_spec. destruct (max =? 0) eqn:E; [exists 0; split; [done|lia]|].
  exists (length q `min` (S (length q) - max)). split; [|lia]. f_equal.
  destruct (decide (S (length q) - max <= length q)) as [H|H]; [by rewrite Nat.min_r by lia|].
  rewrite Nat.min_l by lia. by rewrite !drop_ge by lia.
Qed.
Lemma published_snoc t (l : list (nat * nat)) u x : (filter (fun p : nat * nat => p.1 = t) (l ++ [(u, x)])).*2 =
  (filter (fun p : nat * nat => p.1 = t) l).*2 ++ (if decide (u = t) then [x] else []).
Proof. rewrite filter_app, filter_cons, filter_nil. cbn [fst]. destruct (decide (u = t)); by rewrite fmap_app. Qed.

Lemma minv_step discard max progs s a : MInv discard progs s -> MInv discard progs (mpstep discard max s a).
Proof.
  intros I. pose proof I as [(gone & F1 & F2 & F3) P B L]. unfold mpstep. destruct (mp_ub s) eqn:Hub; [done|].
  destruct a as [t|throws| |].
  - destruct (mp_pubs s !! t) as [[pc todo]|] eqn:Ht; [|done].
    assert (Hupd : forall pc', (discard = false -> pc' = PubIdle) -> forall disc', (discard = false -> disc' = 0) ->
      MInv discard progs (Mp (mp_q s) (<[t := Pub pc' todo]> (mp_pubs s)) (mp_poll s) disc' false (mp_entered s) (mp_dropped s) (mp_out s))).
    { intros pc' Hpc disc' Hd. constructor; cbn [mp_q mp_pubs mp_poll mp_disc mp_entered mp_dropped mp_out].
      - exists gone. done.
      - intros u p Hu. apply list_lookup_insert_Some in Hu as [(-> & <- & _)|[_ Hu]]; [|by apply P].
        apply (P u _ Ht).
      - intros Hf. destruct (B Hf) as (B1 & B2 & B3). split; [done|]. split; [auto|]. intros u p Hu.
        apply list_lookup_insert_Some in Hu as [(-> & <- & _)|[_ Hu]]; [|by eapply B3]. cbn [pu_pc]. auto.
      - by rewrite insert_length. }
    destruct pc as [|n|v].
    + destruct todo as [|x todo]; [done|].
      assert (Hpush : forall q' n pc', (discard = false -> n = 0 /\ pc' = PubIdle) -> n <= length (mp_q s) -> q' = drop n (mp_q s) ++ [x] ->
        MInv discard progs (Mp q' (<[t := Pub pc' todo]> (mp_pubs s)) (wake_poll (mp_poll s)) (mp_disc s) false (mp_entered s ++ [(t, x)]) (mp_dropped s + n) (mp_out s))).
      { intros q' n pc' Hb Hn ->. constructor; cbn [mp_q mp_pubs mp_poll mp_disc mp_entered mp_dropped mp_out].
        - assert (in_flight (Mp (drop n (mp_q s) ++ [x]) (<[t := Pub pc' todo]> (mp_pubs s)) (wake_poll (mp_poll s)) (mp_disc s) false (mp_entered s ++ [(t, x)]) (mp_dropped s + n) (mp_out s)) = in_flight s) as ->.
          { unfold in_flight. cbn [mp_poll]. by destruct (mp_poll s). }
          exists (gone ++ take n (mp_q s)). rewrite fmap_app, F1. split; [|split].
          + rewrite <-!app_assoc. f_equal. rewrite (app_assoc (take n (mp_q s))), take_drop. done.
          + by apply sublist_inserts_r.
          + rewrite app_length, take_length_le by done. lia.
        - intros u p Hu. unfold published_by. cbn [mp_entered]. rewrite published_snoc by done.
          apply list_lookup_insert_Some in Hu as [(-> & <- & _)|[Hne Hu]].
          + rewrite decide_True by done. rewrite (P u _ Ht). cbn [pu_todo]. by rewrite <-app_assoc.
          + rewrite decide_False by done. rewrite app_nil_r. by apply P.
        - intros Hf. destruct (B Hf) as (B1 & B2 & B3). destruct (Hb Hf) as [-> ->]. split; [lia|]. split; [done|]. intros u p Hu.
          apply list_lookup_insert_Some in Hu as [(-> & <- & _)|[_ Hu]]; [done|by eapply B3].
        - by rewrite insert_length. }
      destruct discard.
      * cbn [exec]. destruct (drop_loop_drop max (mp_q s)) as (n & -> & Hn). by apply Hpush.
      * cbn [exec]. destruct (length (mp_q s) <? max) eqn:E; [|done].
        replace (mp_dropped s) with (mp_dropped s + 0) by lia. apply Hpush; [done|lia|by rewrite drop_0].
    + apply Hupd; [|by apply B]. intros Hf. destruct (B Hf) as (_ & _ & B3). by specialize (B3 t _ Ht).
    + apply Hupd; [done|]. intros Hf. destruct (B Hf) as (_ & _ & B3). by specialize (B3 t _ Ht).
  - assert (Hsame : forall pp, (match pp with PollGot x => [x] | _ => [] end) = in_flight s ->
      MInv discard progs (Mp (mp_q s) (mp_pubs s) pp (mp_disc s) false (mp_entered s) (mp_dropped s) (mp_out s))).
    { intros pp Hpp. constructor; try done. exists gone. unfold in_flight at 1 2. cbn [mp_poll mp_q mp_entered mp_out mp_dropped]. by rewrite Hpp. }
    assert (Hpop : forall w, in_flight s = [] -> MInv discard progs
      match exec (TimedPop false) w max (mp_q s) with
      | Done q _ _ (ETimed _ (Some x)) => Mp q (mp_pubs s) (PollGot x) (mp_disc s) false (mp_entered s) (mp_dropped s) (mp_out s)
      | WaitNE => Mp (mp_q s) (mp_pubs s) PollAsleep (mp_disc s) false (mp_entered s) (mp_dropped s) (mp_out s)
      | Crash => Mp (mp_q s) (mp_pubs s) (mp_poll s) (mp_disc s) true (mp_entered s) (mp_dropped s) (mp_out s)
      | _ => s
      end).
    { intros w Hfl. cbn [exec]. destruct (mp_q s) as [|x q] eqn:Eq.
      - destruct w; [|by apply Hsame]. constructor; try done. exists gone. unfold in_flight. cbn [mp_poll mp_q mp_entered mp_out mp_dropped].
        fold (in_flight s). done.
      - constructor; try done. exists (gone ++ [x]). unfold in_flight. cbn [mp_poll mp_q mp_entered mp_out mp_dropped].
        rewrite Hfl, app_nil_r in *. rewrite F1. split; [|split].
        + by rewrite <-app_assoc.
        + apply sublist_app; done.
        + rewrite !app_length. cbn [length]. lia. }
    unfold in_flight in Hpop at 1. destruct (mp_poll s) as [| | |x|] eqn:Ep; auto.
    + constructor; try done. exists gone. assert (in_flight s = [x]) as Hfl by (unfold in_flight; by rewrite Ep). rewrite Hfl in *.
      unfold in_flight. cbn [mp_poll mp_q mp_entered mp_out mp_dropped]. destruct throws; by rewrite app_nil_r.
  - destruct (mp_poll s) as [| | |x|] eqn:Ep; try done; (constructor; try done; exists gone; assert (in_flight s = []) as Hfl by (unfold in_flight; by rewrite Ep);
      unfold in_flight at 1 2; cbn [mp_poll mp_q mp_entered mp_out mp_dropped]; by rewrite <-Hfl).
  - destruct (mp_poll s) as [| | |x|] eqn:Ep; try done; (constructor; try done; exists gone; assert (in_flight s = []) as Hfl by (unfold in_flight; by rewrite Ep);
      unfold in_flight at 1 2; cbn [mp_poll mp_q mp_entered mp_out mp_dropped]; by rewrite <-Hfl).
Qed.

Lemma mp_ind (P : mpst -> Prop) discard max s acts : P s -> (forall s a, P s -> P (mpstep discard max s a)) -> P (mprun discard max s acts).
Proof. intros H0 Hs. unfold mprun. revert s H0; induction acts as [|a acts IH]; intros s H0; [done|]. cbn [fold_left]. apply IH. by apply Hs. Qed.
Lemma minv_new discard progs : MInv discard progs (mp_new progs).
Proof.
  constructor; cbn.
  - exists []. done.
  - intros t p Hp. rewrite list_lookup_fmap in Hp. by destruct (progs !! t) as [l|]; [|done]; injection Hp as <-.
  - intros _. split; [done|]. split; [done|]. intros t p Hp. rewrite list_lookup_fmap in Hp. by destruct (progs !! t) as [l|]; [|done]; injection Hp as <-.
  - by rewrite fmap_length.
Qed.
Lemma minv_run discard max progs acts : MInv discard progs (mprun discard max (mp_new progs) acts).
Proof. apply mp_ind; [apply minv_new|]. intros s a. apply minv_step. Qed.

(** One publishing thread: the counter. *)
Definition StatInv (s : mpst) : Prop :=
  match mp_pubs s with
  | [Pub PubIdle _] => mp_disc s = mp_dropped s
  | [Pub (PubLoad n) _] => mp_disc s + n = mp_dropped s
  | [Pub (PubStore v) _] => v = mp_dropped s
  | _ => False
  end.
Lemma stat_step discard max s a : StatInv s -> StatInv (mpstep discard max s a).
Proof.
  unfold mpstep. destruct (mp_ub s); [done|]. intros H. pose proof H as H'. unfold StatInv in H'.
  destruct (mp_pubs s) as [|[pc todo] [|? ?]] eqn:Ep; [done| |by destruct pc]. destruct a as [t|th| |].
  - destruct t as [|t]; [|rewrite lookup_cons_ne_0 by done; cbn; done]. cbn [lookup list_lookup].
    destruct pc as [|n|v].
    + destruct todo as [|x todo]; [done|]. destruct discard.
      * cbn [exec]. destruct (drop_loop max (mp_q s)) as [q n]. unfold StatInv. cbn. lia.
      * cbn [exec]. destruct (length (mp_q s) <? max); [|done]. unfold StatInv. cbn. lia.
    + unfold StatInv. cbn. lia.
    + unfold StatInv. cbn. lia.
  - assert (Hs : forall q pp ub out, StatInv (Mp q (mp_pubs s) pp (mp_disc s) ub (mp_entered s) (mp_dropped s) out)).
    { intros. unfold StatInv. cbn [mp_pubs mp_disc mp_dropped]. by rewrite Ep. } rewrite Ep in Hs.
    cbn [exec]. destruct (mp_poll s); try done; destruct (mp_q s); try done; apply Hs.
  - destruct (mp_poll s); try done; unfold StatInv; cbn; done.
  - destruct (mp_poll s); try done; unfold StatInv; cbn; done.
Qed.

(** Without spurious wake-ups the poller never pops an empty queue. *)
Definition PollInv (s : mpst) : Prop := mp_ub s = false /\ (mp_poll s = PollAwake -> mp_q s <> []).
Lemma poll_step discard max s a : a <> MSpurious -> PollInv s -> PollInv (mpstep discard max s a).
Proof.
  intros Ha [Hu Hp]. unfold mpstep. rewrite Hu. destruct a as [t|th| |]; [| | |done].
  - destruct (mp_pubs s !! t) as [[[|n|v] todo]|]; try done. destruct todo as [|x todo]; [done|]. destruct discard.
    + cbn [exec]. destruct (drop_loop max (mp_q s)) as [q n]. split; [done|]. cbn. intros _. by destruct q.
    + cbn [exec]. destruct (length (mp_q s) <? max); [|done]. split; [done|]. cbn. intros _. by destruct (mp_q s).
  - cbn [exec]. destruct (mp_poll s) eqn:Ep; try done; destruct (mp_q s) eqn:Eq; try done.
    all: try (split; [done|]; cbn; by destruct th). all: try (split; [done|]; congruence). by specialize (Hp eq_refl).
  - destruct (mp_poll s) eqn:Ep; try done; (split; [done|]; cbn; congruence).
Qed.

(** Draining: the poller alone empties the queue. *)
Fixpoint poll_n (n : nat) : list mpact := match n with 0 => [] | S n => MPoll false :: MTimeout :: poll_n n end.
Lemma drain_idle discard max : forall q pubs disc ent dr out, 
  mprun discard max (Mp q pubs PollIdle disc false ent dr out) (poll_n (2 * length q)) = Mp [] pubs PollIdle disc false ent dr (out ++ q).
Proof.
  induction q as [|x q IH]; intros; [cbn; by rewrite app_nil_r|].
  replace (2 * length (x :: q)) with (S (S (2 * length q))) by (cbn [length]; lia). cbn [poll_n].
  unfold mprun in *. cbn [fold_left]. cbn -[poll_n fold_left]. rewrite IH. by rewrite <-app_assoc.
Qed.

Lemma pollinv_run discard max progs acts : MSpurious ∉ acts -> PollInv (mprun discard max (mp_new progs) acts).
Proof.
  intros Hns. assert (forall s, PollInv s -> PollInv (mprun discard max s acts)) as H; [|apply H; done].
  induction acts as [|a acts IH]; intros s Hs; [done|]. cbn [mprun fold_left]. apply not_elem_of_cons in Hns as [Ha Hns].
  apply IH; [done|]. apply poll_step; [congruence|done].
Qed.
Lemma alive_run discard max progs acts : MPoll true ∉ acts -> mp_poll (mprun discard max (mp_new progs) acts) <> PollDead.
Proof.
  intros Hns. assert (forall s, mp_poll s <> PollDead -> mp_poll (mprun discard max s acts) <> PollDead) as H; [|by apply H].
  induction acts as [|a acts IH]; intros s Hs; [done|]. cbn [mprun fold_left]. apply not_elem_of_cons in Hns as [Ha Hns].
  apply IH; [done|]. unfold mpstep. destruct (mp_ub s); [done|]. destruct a as [t|th| |].
  - destruct (mp_pubs s !! t) as [[[|n|v] [|x todo]]|]; try done. destruct discard.
    + cbn [exec]. destruct (drop_loop max (mp_q s)) as [q n]. cbn. by destruct (mp_poll s).
    + cbn [exec]. destruct (length (mp_q s) <? max); [|done]. cbn. by destruct (mp_poll s).
  - cbn [exec]. destruct th; [done|]. destruct (mp_poll s) eqn:Ep; try done; destruct (mp_q s) eqn:Eq; try done; cbn; try congruence.
  - destruct (mp_poll s) eqn:Ep; try done; congruence.
  - destruct (mp_poll s) eqn:Ep; try done; congruence.
Qed.
Lemma dead_lemma discard max s more : mp_poll s = PollDead -> mp_out (mprun discard max s more) = mp_out s.
Proof.
  revert s. induction more as [|a more IH]; intros s Hp; [done|]. cbn [mprun fold_left].
  assert (mp_poll (mpstep discard max s a) = PollDead /\ mp_out (mpstep discard max s a) = mp_out s) as [E1 E2].
  { unfold mpstep. destruct (mp_ub s); [done|]. destruct a as [t|th| |]; try (rewrite Hp; done).
    destruct (mp_pubs s !! t) as [[[|n|v] [|x todo]]|]; try done. destruct discard.
    + cbn [exec]. destruct (drop_loop max (mp_q s)) as [q n]. cbn. by rewrite Hp.
    + cbn [exec]. destruct (length (mp_q s) <? max); [|done]. cbn. by rewrite Hp. }
  rewrite <-E2. by apply IH.
Qed.
Definition poller_only (a : mpact) : Prop := match a with MPoll false | MTimeout => True | _ => False end.
Lemma poll_n_only n : Forall poller_only (poll_n n).
Proof. induction n; cbn; [done|]. repeat constructor; done. Qed.
Lemma drain_lemma discard max progs acts : MSpurious ∉ acts -> MPoll true ∉ acts ->
  let s := mprun discard max (mp_new progs) acts in
  exists more, Forall poller_only more /\
    mp_out (mprun discard max s more) = mp_out s ++ in_flight s ++ mp_q s /\ mp_q (mprun discard max s more) = [].
Proof.
  intros H1 H2 s. destruct (pollinv_run discard max progs acts H1) as [Hu _]. pose proof (alive_run discard max progs acts H2) as Ha.
  fold s in Hu, Ha. clearbody s. destruct s as [q pubs pp disc ub ent dr out]. cbn in Hu, Ha. subst ub.
  unfold in_flight. cbn [mp_poll mp_q mp_out].
  assert (Happ : forall l1 l2, mprun discard max (Mp q pubs pp disc false ent dr out) (l1 ++ l2) =
     mprun discard max (mprun discard max (Mp q pubs pp disc false ent dr out) l1) l2) by (intros; apply fold_left_app).
  destruct pp as [| | |x|]; [| | | |done].
  - exists (poll_n (2 * length q)). split; [apply poll_n_only|]. rewrite drain_idle. done.
  - exists ([MTimeout] ++ poll_n (2 * length q)). split; [constructor; [done|apply poll_n_only]|]. rewrite Happ. cbn [mprun fold_left mpstep mp_ub mp_poll mp_q mp_pubs mp_disc mp_entered mp_dropped mp_out].
    fold (mprun discard max (Mp q pubs PollIdle disc false ent dr out) (poll_n (2 * length q))). rewrite drain_idle. done.
  - exists ([MTimeout] ++ poll_n (2 * length q)). split; [constructor; [done|apply poll_n_only]|]. rewrite Happ. cbn [mprun fold_left mpstep mp_ub mp_poll mp_q mp_pubs mp_disc mp_entered mp_dropped mp_out].
    fold (mprun discard max (Mp q pubs PollIdle disc false ent dr out) (poll_n (2 * length q))). rewrite drain_idle. done.
  - exists ([MPoll false] ++ poll_n (2 * length q)). split; [constructor; [done|apply poll_n_only]|]. rewrite Happ. cbn [mprun fold_left mpstep mp_ub mp_poll mp_q mp_pubs mp_disc mp_entered mp_dropped mp_out].
    fold (mprun discard max (Mp q pubs PollIdle disc false ent dr (out ++ [x])) (poll_n (2 * length q))). rewrite drain_idle. cbn. by rewrite <-app_assoc.
Qed.

Lemma sublist_filter {A} (P : A -> Prop) `{forall x, Decision (P x)} (l k : list A) : l `sublist_of` k -> filter P l `sublist_of` filter P k.
Proof. induction 1 as [|x l k Hs IH|x l k Hs IH]; [done| |]; rewrite !filter_cons; destruct (decide (P x)); try constructor; try done. Qed.
Lemma filter_own (l : list (nat * nat)) t (prog : list nat) :
  (forall u x, (u, x) ∈ l -> x ∈ prog <-> u = t) -> filter (fun x => x ∈ prog) (l.*2) = (filter (fun p => p.1 = t) l).*2.
Proof.
  induction l as [|[u x] l IH]; intros H; [done|]. rewrite fmap_cons. cbn [snd]. rewrite !filter_cons. cbn [fst].
  rewrite IH by (intros v y Hy; apply H; by right). pose proof (H u x ltac:(left)) as Hux.
  destruct (decide (x ∈ prog)), (decide (u = t)); rewrite ?fmap_cons; try done; tauto.
Qed.
Lemma elem_concat (l : list (list nat)) t p x : l !! t = Some p -> x ∈ p -> x ∈ concat l.
Proof. intros Hl Hx. rewrite <-(list_fmap_id l). apply elem_of_concat. exists t, p. done. Qed.
Lemma concat_unique (progs : list (list nat)) t u pt pu x : NoDup (concat progs) -> progs !! t = Some pt -> progs !! u = Some pu ->
  x ∈ pt -> x ∈ pu -> t = u.
Proof.
  revert t u; induction progs as [|p progs IH]; intros [|t] [|u] Hnd Ht Hu H1 H2; try done; cbn in *.
  - injection Ht as ->. apply NoDup_app in Hnd as (_ & Hd & _). destruct (Hd x H1). by eapply elem_concat.
  - injection Hu as ->. apply NoDup_app in Hnd as (_ & Hd & _). destruct (Hd x H2). by eapply elem_concat.
  - apply NoDup_app in Hnd as (_ & _ & Hnd). f_equal. eapply IH; eauto.
Qed.
Lemma ent_thread discard max progs acts t x : (t, x) ∈ mp_entered (mprun discard max (mp_new progs) acts) -> t < length progs.
Proof.
  set (s := mprun _ _ _ _). assert (forall t x, (t, x) ∈ mp_entered s -> t < length (mp_pubs s)) as H.
  { subst s. apply mp_ind; [intros ? ? ?; set_solver|]. clear. intros s a IH t x. unfold mpstep. destruct (mp_ub s); [apply IH|].
    destruct a as [u|th| |].
    - destruct (mp_pubs s !! u) as [[[|n|v] todo]|] eqn:Eu; [|cbn; rewrite insert_length; apply IH..|apply IH].
      destruct todo as [|y todo]; [apply IH|]. destruct discard.
      + cbn [exec]. destruct (drop_loop max (mp_q s)) as [q n]. cbn. rewrite insert_length. rewrite elem_of_app, elem_of_list_singleton.
        intros [Hin|[= -> ->]]; [by eapply IH|]. by eapply lookup_lt_Some.
      + cbn [exec]. destruct (length (mp_q s) <? max); [|apply IH]. cbn. rewrite insert_length. rewrite elem_of_app, elem_of_list_singleton.
        intros [Hin|[= -> ->]]; [by eapply IH|]. by eapply lookup_lt_Some.
    - cbn [exec]. destruct (mp_poll s); try apply IH; destruct (mp_q s); apply IH.
    - destruct (mp_poll s); apply IH.
    - destruct (mp_poll s); apply IH. }
  intros Hin. destruct (minv_run discard max progs acts) as [_ _ _ L]. fold s in L. rewrite <-L. by eapply H.
Qed.
Lemma NoDup_concat_lookup (progs : list (list nat)) t p : NoDup (concat progs) -> progs !! t = Some p -> NoDup p.
Proof.
  revert t; induction progs as [|q progs IH]; intros [|t] Hnd H; try done; cbn in *; apply NoDup_app in Hnd as (H1 & _ & H2).
  - by injection H as ->.
  - by eapply IH.
Qed.
Lemma NoDup_fmap_snd_tagged (l : list (nat * nat)) (progs : list (list nat)) : NoDup (concat progs) ->
  (forall u x, (u, x) ∈ l -> exists pu, progs !! u = Some pu /\ x ∈ pu) ->
  (forall t p, progs !! t = Some p -> NoDup (filter (fun q => q.1 = t) l).*2) -> NoDup l.*2.
Proof.
  intros Hnd. induction l as [|[u x] l IH]; intros Ho Hf; [constructor|]. rewrite fmap_cons. cbn [snd]. constructor.
  - intros Hin. apply elem_of_list_fmap in Hin as ([v y] & E & Hin). cbn in E. subst y.
    destruct (Ho u x ltac:(left)) as (pu & Hu & Hx). destruct (Ho v x ltac:(by right)) as (pv & Hv & Hx').
    assert (u = v) as -> by (eapply concat_unique; eauto). specialize (Hf v pu Hu). rewrite filter_cons in Hf. cbn [fst] in Hf.
    rewrite decide_True in Hf by done. rewrite fmap_cons in Hf. apply NoDup_cons in Hf as [Hf _]. apply Hf.
    apply elem_of_list_fmap. exists (v, x). split; [done|]. by apply elem_of_list_filter.
  - apply IH; [intros v y Hy; apply Ho; by right|]. intros t p Ht. specialize (Hf t p Ht). rewrite filter_cons in Hf.
    destruct (decide _); [|done]. rewrite fmap_cons in Hf. by apply NoDup_cons in Hf as [_ Hf].
Qed.
Lemma elem_of_sublist (l k : list nat) x : l `sublist_of` k -> x ∈ l -> x ∈ k.
Proof. induction 1; set_solver. Qed.
Lemma order_lemma discard max progs acts : NoDup (concat progs) -> let s := mprun discard max (mp_new progs) acts in
  NoDup (mp_out s) /\ (forall x, x ∈ mp_out s -> x ∈ concat progs) /\
  (forall t prog, progs !! t = Some prog -> filter (fun x => x ∈ prog) (mp_out s) `sublist_of` prog).
Proof.
  intros Hnd s. destruct (minv_run discard max progs acts) as [(gone & F1 & F2 & F3) P B L]. fold s in F1, F2, F3, P, L.
  assert (Hown : forall u x, (u, x) ∈ mp_entered s -> exists pu, progs !! u = Some pu /\ x ∈ pu).
  { intros u x Hin. assert (u < length (mp_pubs s)) as Hlt by (rewrite L; by eapply ent_thread).
    destruct (lookup_lt_is_Some_2 _ _ Hlt) as [p Hp]. exists (published_by u s ++ pu_todo p). split; [by apply P|].
    apply elem_of_app. left. unfold published_by. apply elem_of_list_fmap. exists (u, x). split; [done|]. by apply elem_of_list_filter. }
  assert (Hsub : mp_out s `sublist_of` (mp_entered s).*2).
  { rewrite F1. apply sublist_inserts_r. etrans; [|done]. by apply sublist_inserts_r. }
  assert (Hfil : forall t prog, progs !! t = Some prog -> filter (fun x => x ∈ prog) (mp_entered s).*2 = published_by t s).
  { intros t prog Ht. apply filter_own. intros u x Hin. destruct (Hown u x Hin) as (pu & Hu & Hx). split.
    - intros Hx'. eapply concat_unique; eauto.
    - intros ->. congruence. }
  assert (Hpub : forall t prog, progs !! t = Some prog -> published_by t s `sublist_of` prog).
  { intros t prog Ht. assert (t < length (mp_pubs s)) as Hlt by (rewrite L; by eapply lookup_lt_Some).
    destruct (lookup_lt_is_Some_2 _ _ Hlt) as [p Hp]. specialize (P t p Hp). rewrite Ht in P. injection P as ->. by apply sublist_inserts_r. }
  split; [|split].
  - eapply sublist_NoDup; [exact Hsub|]. apply NoDup_fmap_snd_tagged with (progs := progs); try done.
    + intros t prog Ht. specialize (Hfil t prog Ht). eapply sublist_NoDup; [by apply Hpub|].
      apply NoDup_concat_lookup with (progs := progs) (t := t); done.
  - intros x Hx. assert (x ∈ (mp_entered s).*2) as Hin. { eapply elem_of_sublist; eauto. }
    apply elem_of_list_fmap in Hin as ([u y] & -> & Hin). destruct (Hown u y Hin) as (pu & Hu & Hx'). by eapply elem_concat.
  - intros t prog Ht. etrans; [by apply sublist_filter|]. rewrite (Hfil t prog Ht). by apply Hpub.
Qed.
