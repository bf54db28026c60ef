(** * Several consumers on one blocking wait strategy (C89). *)
From Coq Require Import ZArith Lia ZifyBool.
From stdpp Require Import prelude list_numbers.
From Verif Require Import WaitMany_Model.
Local Open Scope Z_scope.
Definition holds (p : kpc) : bool := match p with KNeed | KCur | KAl | KSleep | KCur2 => true | _ => false end.
(** Past signal_needed_ := true, and not woken yet. *)
Definition after_need (p : kpc) : bool := match p with KCur | KAl | KSleep | KAsleep false => true | _ => false end.
(** Past the read of the cursor; past the read of the alert. *)
Definition past_cur (p : kpc) : bool := match p with KAl | KSleep | KAsleep false => true | _ => false end.
Definition past_alert (p : kpc) : bool := match p with KSleep | KAsleep false => true | _ => false end.
Definition handling (p : kpc) : bool := match p with KHandle _ _ => true | _ => false end.
Section Inv.
  Context (g : wstrat) (ncons : nat).
  Definition signalling (s : wm) : Prop := exists t r, wm_callers s !! t = Some (SSig, r).
  Definition coming (s : wm) : Prop := exists t r, wm_callers s !! t = Some (SSig, r) \/ wm_callers s !! t = Some (SExch, r).
  Definition okk (s : wm) (k : kcons) : Prop :=
    (g = WLite -> after_need (k_pc k) = true -> wm_needed s = true \/ signalling s) /\
    (past_cur (k_pc k) = true -> k_next k <= wm_cursor s -> coming s) /\
    (past_alert (k_pc k) = true -> k_alert k = true -> coming s) /\
    (k_pc k = KDep -> k_next k <= wm_cursor s) /\
    (forall nx avail, k_pc k = KHandle nx avail -> nx = k_next k /\ nx <= avail + 1 /\ avail <= wm_cursor s) /\
    0 <= k_next k <= wm_cursor s + 1 /\ k_log k = seqZ 0 (k_next k).
  Record inv (s : wm) : Prop := {
    i_len : length (wm_cons s) = ncons;
    i_own : forall c k, wm_cons s !! c = Some k -> (holds (k_pc k) = true <-> wm_owner s = Some c);
    i_ownk : forall c, wm_owner s = Some c -> exists k, wm_cons s !! c = Some k;
    i_exch : g <> WLite -> forall t r, wm_callers s !! t <> Some (SExch, r);
    i_k : forall c k, wm_cons s !! c = Some k -> okk s k
  }.

  Lemma inv_new progs : inv (wm_new ncons progs).
  Proof.
    constructor; unfold wm_new; cbn.
    - apply replicate_length.
    - intros c k [-> _]%lookup_replicate. cbn. split; intros [=].
    - done.
    - intros _ t r H. apply list_lookup_fmap_Some in H as (p & E1 & E2). done.
    - intros c k [-> _]%lookup_replicate. unfold okk; cbn. split_and!; try done; lia.
  Qed.
  Lemma okk_mono s s' k : (wm_needed s = true -> wm_needed s' = true) -> wm_callers s' = wm_callers s -> wm_cursor s' = wm_cursor s -> okk s k -> okk s' k.
  Proof.
    intros Hn Hc Hcu (A & B & C & D). unfold okk, signalling, coming in *. rewrite Hc, Hcu.
    split_and!; try apply D; auto.
    intros Hg Ha. destruct (A Hg Ha); auto.
  Qed.
  (* a step of consumer c *)
  Lemma inv_set s c k k' needed owner :
    inv s -> wm_cons s !! c = Some k -> (wm_needed s = true -> needed = true) ->
    (owner = wm_owner s /\ holds (k_pc k') = holds (k_pc k) \/ owner = Some c /\ wm_owner s = None /\ holds (k_pc k') = true
     \/ owner = None /\ holds (k_pc k) = true /\ holds (k_pc k') = false) ->
    okk (wm_set s c needed owner k') k' -> inv (wm_set s c needed owner k').
  Proof.
    intros [I1 I2 I3 I4 I5] Hk Hn Ho Hok.
    assert (Hlt : (c < length (wm_cons s))%nat) by (by eapply lookup_lt_Some).
    constructor; cbn [wm_set wm_cons wm_owner wm_callers].
    - by rewrite insert_length.
    - intros c' x [(<- & <- & _)|[Hne Hx]]%list_lookup_insert_Some.
      + destruct Ho as [[-> ->]|[(-> & _ & ->)|(-> & _ & ->)]]; [by apply I2|by split|by split].
      + rewrite (I2 _ _ Hx). destruct Ho as [[-> _]|[(-> & -> & _)|(-> & Hh & _)]]; [done| |].
        * split; intros [=]. by subst.
        * apply (I2 _ _ Hk) in Hh. rewrite Hh. split; intros [=]. by subst.
    - intros c' E. destruct (decide (c' = c)) as [->|Hne].
      + eexists. by apply list_lookup_insert.
      + rewrite list_lookup_insert_ne by done. apply I3. destruct Ho as [[-> _]|[(-> & _)|(-> & _)]]; [done| |done]. congruence.
    - done.
    - intros c' x [(<- & <- & _)|[Hne Hx]]%list_lookup_insert_Some; [done|].
      eapply okk_mono; [..|by eapply I5]; done.
  Qed.
  Lemma inv_cons s c k sp ti : inv s -> wm_cons s !! c = Some k -> inv (cons_step g s c k sp ti).
  Proof.
    intros I Hk. pose proof (i_k _ I _ _ Hk) as Hok. pose proof (i_own _ I _ _ Hk) as Hown.
    unfold okk in Hok. unfold cons_step.
    destruct k as [pc nx al lg]; cbn [k_pc k_next k_alert k_log k_goto] in *.
    Ltac fin I Hk := eapply (inv_set _ _ _ _ _ _ I Hk); [done| |]; [cbn; auto|unfold okk, signalling, coming, wm_set, k_goto in *; cbn in *; split_and!; try done; try tauto; try congruence].
    destruct pc; cbn [holds] in Hown.
    - destruct al; fin I Hk.
    - destruct (Z.ltb_spec (wm_cursor s) nx); fin I Hk.
    - destruct (wm_owner s) eqn:Eo; [done|]. destruct g eqn:Eg; fin I Hk.
    - fin I Hk.
    - destruct (Z.ltb_spec (wm_cursor s) nx); fin I Hk; lia.
    - destruct al; fin I Hk.
    - fin I Hk.
    - destruct (woken || sp); [fin I Hk|]. destruct ti; [|done]. destruct g; try done. fin I Hk.
    - destruct (wm_owner s) eqn:Eo; [done|]. destruct timeout; [fin I Hk|]. destruct g eqn:Eg; fin I Hk.
    - destruct (Z.ltb_spec (wm_cursor s) nx); fin I Hk.
    - destruct (Z.ltb_spec (wm_cursor s) nx); [done|]. fin I Hk; intros ?? [= <- <-]; lia.
    - destruct (Z.leb_spec nx0 avail).
      + destruct Hok as (H1 & H2 & H3 & H4 & H5 & H6 & H7). destruct (H5 _ _ eq_refl) as (-> & ? & ?).
        fin I Hk; try lia. 
        * intros ?? [= <- <-]. lia.
        * rewrite H7. replace (nx + 1) with (nx + 1) by done. rewrite seqZ_app by lia. done.
      + fin I Hk.
    - done.
  Qed.
  Lemma coming_start s t r needed owner cu cs : (t < length (wm_callers s))%nat -> coming (Wm needed owner cu cs (<[t := (sig_start g, r)]> (wm_callers s))).
  Proof.
    intros Ht. exists t, r. cbn. rewrite list_lookup_insert by done. unfold sig_start. destruct g; auto.
  Qed.
  Lemma signalling_start s t r needed owner cu cs r0 : wm_callers s !! t = Some (SIdle, r0) ->
    signalling s -> signalling (Wm needed owner cu cs (<[t := (sig_start g, r)]> (wm_callers s))).
  Proof.
    intros Ht (u & r' & Hu). exists u, r'. cbn. rewrite list_lookup_insert_ne; [done|]. intros ->. congruence.
  Qed.
  Lemma inv_start s t r r0 cu f :
    inv s -> wm_callers s !! t = Some (SIdle, r0) -> wm_cursor s <= cu ->
    (forall c k, f c k = k \/ f c k = set_alert k) ->
    forall cs, length cs = length (wm_cons s) -> (forall c k', cs !! c = Some k' -> exists k, wm_cons s !! c = Some k /\ k' = f c k) ->
    inv (Wm (wm_needed s) (wm_owner s) cu cs (<[t := (sig_start g, r)]> (wm_callers s))).
  Proof.
    intros [I1 I2 I3 I4 I5] Ht Hcu Hf cs Hlen Hcs.
    assert (Hlt : (t < length (wm_callers s))%nat) by (by eapply lookup_lt_Some).
    assert (Hpc : forall c k, k_pc (f c k) = k_pc k /\ k_next (f c k) = k_next k /\ k_log (f c k) = k_log k).
    { intros c k. destruct (Hf c k) as [-> | ->]; by destruct k. }
    constructor; cbn [wm_cons wm_owner wm_callers].
    - congruence.
    - intros c k' (k & Hk & ->)%Hcs. rewrite (proj1 (Hpc c k)). by apply I2.
    - intros c Ho. destruct (I3 c Ho) as [k Hk]. apply lookup_lt_is_Some. rewrite Hlen. by eapply lookup_lt_Some.
    - intros Hg u r' [(<- & [=] & _)|[Hne Hu]]%list_lookup_insert_Some; [|by eapply I4]. unfold sig_start in *. by destruct g.
    - intros c k' (k & Hk & ->)%Hcs. destruct (Hpc c k) as (E1 & E2 & E3). destruct (I5 _ _ Hk) as (A & B & C & D & E & F & G).
      unfold okk. rewrite E1, E2, E3. cbn [wm_cursor wm_needed]. split_and!.
      + intros Hg Ha. destruct (A Hg Ha); [by left|right]. by eapply signalling_start.
      + intros _ _. by apply coming_start.
      + intros _ _. by apply coming_start.
      + intros Hd. specialize (D Hd). lia.
      + intros nx av Hh. destruct (E _ _ Hh) as (? & ? & ?). lia.
      + lia.
      + lia.
      + done.
  Qed.
  Lemma inv_call s t c : inv s -> wm_callers s !! t = Some c -> inv (caller_step g s t c).
  Proof.
    intros I Ht. destruct c as [pc ops]. unfold caller_step.
    assert (Hlt : (t < length (wm_callers s))%nat) by (by eapply lookup_lt_Some).
    destruct pc.
    - destruct ops as [|[|i] r]; [done| |].
      + eapply (inv_start s t r _ _ (fun _ k => k) I Ht); [lia|auto|done|]. intros c k ->. eauto.
      + eapply (inv_start s t r _ _ (fun c k => if decide (c = i) then set_alert k else k) I Ht); [lia| |apply alter_length|].
        * intros c k. case_decide; auto.
        * intros c k'. destruct (decide (c = i)) as [->|Hne].
          -- rewrite list_lookup_alter. intros (k & -> & Hk)%fmap_Some. eauto.
          -- rewrite list_lookup_alter_ne by done. eauto.
    - assert (Hg : g = WLite). { destruct (g) eqn:Eg; [..|done]; destruct (i_exch _ I) with t ops; congruence. }
      destruct I as [I1 I2 I3 I4 I5].
      constructor; cbn [wm_cons wm_owner wm_callers]; try done.
      intros c k Hk. destruct (I5 _ _ Hk) as (A & B & C & D & E & F & G).
      assert (Hsig : after_need (k_pc k) = true -> signalling (Wm false (wm_owner s) (wm_cursor s) (wm_cons s) (<[t := (if wm_needed s then SSig else SIdle, ops)]> (wm_callers s)))).
      { intros Ha. destruct (A Hg Ha) as [->|(u & r & Hu)].
        - exists t, ops. cbn. by apply list_lookup_insert.
        - exists u, r. cbn. rewrite list_lookup_insert_ne; [done|]. intros ->. congruence. }
      assert (Hcom : after_need (k_pc k) = true -> coming (Wm false (wm_owner s) (wm_cursor s) (wm_cons s) (<[t := (if wm_needed s then SSig else SIdle, ops)]> (wm_callers s)))).
      { intros Ha. destruct (Hsig Ha) as (u & r & Hu). exists u, r. by left. }
      unfold okk. cbn [wm_cursor wm_needed]. split_and!; auto; try lia.
      + intros Hp _. apply Hcom. by destruct (k_pc k).
      + intros Hp _. apply Hcom. by destruct (k_pc k).
    - destruct (wm_owner s) eqn:Ho; [done|].
      destruct I as [I1 I2 I3 I4 I5].
      assert (Hnone : forall c k, wm_cons s !! c = Some k -> after_need (k_pc (wake_k k)) = false /\ holds (k_pc (wake_k k)) = false /\
                (forall p, k_pc (wake_k k) = p -> (match p with KDep | KHandle _ _ => True | _ => False end) -> k_pc k = p) /\
                k_next (wake_k k) = k_next k /\ k_log (wake_k k) = k_log k).
      { intros c k Hk. specialize (I2 _ _ Hk). rewrite Ho in I2. destruct k as [pc nx al lg]; cbn in *.
        unfold wake_k; cbn. destruct pc; cbn in *; (split_and!; try done); try (by destruct I2 as [I2 _]; discriminate I2);
        intros p <-; done. }
      constructor; cbn [wm_cons wm_owner wm_callers]; try done.
      + by rewrite fmap_length.
      + intros c k' (k & Hk & ->)%list_lookup_fmap_Some. destruct (Hnone _ _ Hk) as (_ & -> & _). by split.
      + intros Hg u r [(<- & [=] & _)|[Hne Hu]]%list_lookup_insert_Some. by eapply I4.
      + intros c k' (k & Hk & ->)%list_lookup_fmap_Some. destruct (Hnone _ _ Hk) as (N1 & N2 & N3 & N4 & N5).
        destruct (I5 _ _ Hk) as (A & B & C & D & E & F & G).
        unfold okk. cbn [wm_cursor wm_needed]. rewrite N4, N5. split_and!; try done; try lia.
        * intros Hp. by destruct (k_pc (wake_k k)) as [| | | | | | |[]| | | | |].
        * intros Hp. by destruct (k_pc (wake_k k)) as [| | | | | | |[]| | | | |].
        * intros Hd. apply D. by apply N3.
        * intros nx av Hh. apply E. by apply N3.
  Qed.
  Lemma inv_run s acts : inv s -> inv (wm_run g s acts).
  Proof.
    unfold wm_run. revert s. induction acts as [|a acts IH]; intros s I; [done|]. cbn. apply IH.
    destruct a as [c sp ti|t]; cbn.
    - destruct (wm_cons s !! c) eqn:E; [by apply inv_cons|done].
    - destruct (wm_callers s !! t) eqn:E; [by apply inv_call|done].
  Qed.
End Inv.
(** ** Every fair schedule drains. *)
Definition rank (p : kpc) : nat :=
  match p with
  | KHandle nx avail => if nx <=? avail then 1 else 17
  | KCheck => 16 | KFast => 15 | KLock => 14 | KAsleep true => 11 | KRelock false => 10 | KRelock true => 17 | KCur2 => 9
  | KNeed => 8 | KCur => 7 | KAl => 6 | KSleep => 5 | KDep => 2 | KAsleep false => 0 | KStopped => 0
  end.
Definition kw (cu : Z) (k : kcons) : nat := 20 * Z.to_nat (cu + 1 - k_next k) + rank (k_pc k).
Definition cw (n : nat) (c : spc * list wop2) : nat :=
  (31 * n + 3) * length (c.2) + match c.1 with SIdle => 0 | SExch => 11 * n + 2 | SSig => 11 * n + 1 end.
Definition mw (s : wm) : nat := sum_list_with (kw (wm_cursor s)) (wm_cons s) + sum_list_with (cw (length (wm_cons s))) (wm_callers s).
Lemma sum_insert {A} (f : A -> nat) l i x y : l !! i = Some x -> (sum_list_with f (<[i := y]> l) + f x = sum_list_with f l + f y)%nat.
Proof.
  revert i. induction l as [|a l IH]; intros [|i] H; simpl in *; simplify_eq; [lia|]. specialize (IH _ H). lia.
Qed.
Lemma sum_le {A} (f h : A -> nat) d l : (forall x, x ∈ l -> (f x <= h x + d)%nat) -> (sum_list_with f l <= sum_list_with h l + d * length l)%nat.
Proof.
  induction l as [|a l IH]; intros H; cbn [sum_list_with length fmap list_fmap]; [cbn; lia|]. rewrite Nat.mul_succ_r. specialize (IH (fun x Hx => H x (elem_of_list_further _ _ _ Hx))). specialize (H a (elem_of_list_here _ _)). lia.
Qed.
Lemma sum_fmap_le {A} (f : A -> nat) (m : A -> A) d l : (forall x, x ∈ l -> (f (m x) <= f x + d)%nat) -> (sum_list_with f (m <$> l) <= sum_list_with f l + d * length l)%nat.
Proof.
  induction l as [|a l IH]; intros H; cbn [sum_list_with length fmap list_fmap]; [cbn; lia|]. rewrite Nat.mul_succ_r. specialize (IH (fun x Hx => H x (elem_of_list_further _ _ _ Hx))). specialize (H a (elem_of_list_here _ _)). lia.
Qed.
Definition quiet_act (a : wmact) : Prop := match a with WCons _ sp ti => sp = false /\ ti = false | WCall _ => True end.
Lemma set_dec s c k k' needed owner : wm_cons s !! c = Some k -> (kw (wm_cursor s) k' < kw (wm_cursor s) k)%nat -> (mw (wm_set s c needed owner k') < mw s)%nat.
Proof.
  intros Hk Hlt. unfold mw, wm_set; cbn. rewrite insert_length. pose proof (sum_insert (kw (wm_cursor s)) _ _ _ k' Hk). lia.
Qed.
Lemma step_dec g n s a : inv g n s -> quiet_act a -> wm_step g s a = s \/ (mw (wm_step g s a) < mw s)%nat.
Proof.
  intros I Hq. destruct a as [c sp ti|t]; cbn [wm_step].
  - destruct Hq as [-> ->]. destruct (wm_cons s !! c) as [k|] eqn:Hk; [|by left].
    destruct (i_k _ _ _ I _ _ Hk) as (_ & _ & _ & HD & HH & HN & _).
    unfold cons_step. destruct k as [pc nx al lg]; cbn [k_pc k_next k_alert k_goto k_log] in *.
    Ltac dec Hk := right; eapply (set_dec _ _ _ _ _ _ Hk); unfold kw, k_goto; cbn [rank k_next k_pc]; try lia.
    destruct pc.
    + destruct al; dec Hk.
    + destruct (Z.ltb_spec (wm_cursor s) nx); dec Hk.
    + destruct (wm_owner s); [by left|]. destruct g; dec Hk.
    + dec Hk.
    + destruct (Z.ltb_spec (wm_cursor s) nx); dec Hk.
    + destruct al; dec Hk.
    + dec Hk.
    + destruct woken; cbn [orb]; [dec Hk|by left].
    + destruct (wm_owner s); [by left|]. destruct timeout; [dec Hk|]. destruct g; dec Hk.
    + destruct (Z.ltb_spec (wm_cursor s) nx); dec Hk.
    + destruct (Z.ltb_spec (wm_cursor s) nx); [by left|]. dec Hk. destruct (Z.leb_spec nx (wm_cursor s)); lia.
    + destruct (HH _ _ eq_refl) as (-> & ? & ?). destruct (Z.leb_spec nx avail).
      * dec Hk. destruct (Z.leb_spec nx avail); [|lia]. destruct (Z.leb_spec (nx + 1) avail); lia.
      * dec Hk. destruct (Z.leb_spec nx avail); lia.
    + by left.
  - destruct (wm_callers s !! t) as [[pc ops]|] eqn:Ht; [|by left].
    unfold caller_step. destruct pc; [destruct ops as [|o r]; [by left|]| |]; [destruct o as [|i]| |].
    + right. unfold mw; cbn. pose proof (sum_insert (cw (length (wm_cons s))) _ _ _ (sig_start g, r) Ht) as E.
      assert (E2 : (sum_list_with (kw (wm_cursor s + 1)) (wm_cons s) <= sum_list_with (kw (wm_cursor s)) (wm_cons s) + 20 * length (wm_cons s))%nat).
      { apply sum_le. intros x Hx. unfold kw. lia. }
      unfold cw at 2 4 in E; cbn [fst snd length] in E. destruct g; cbn [sig_start] in *; lia.
    + right. unfold mw; cbn. rewrite alter_length. pose proof (sum_insert (cw (length (wm_cons s))) _ _ _ (sig_start g, r) Ht) as E.
      assert (E2 : sum_list_with (kw (wm_cursor s)) (alter set_alert i (wm_cons s)) = sum_list_with (kw (wm_cursor s)) (wm_cons s)).
      { clear. revert i. induction (wm_cons s) as [|a l IH]; intros [|i]; cbn; [done..|]. by rewrite IH. }
      unfold cw at 2 4 in E; cbn [fst snd length] in E. destruct g; cbn [sig_start] in *; lia.
    + right. unfold mw; cbn. pose proof (sum_insert (cw (length (wm_cons s))) _ _ _ (if wm_needed s then SSig else SIdle, ops) Ht) as E.
      unfold cw at 2 4 in E; cbn [fst snd length] in E. destruct (wm_needed s); lia.
    + destruct (wm_owner s); [by left|]. right. unfold mw; cbn. rewrite fmap_length.
      pose proof (sum_insert (cw (length (wm_cons s))) _ _ _ (SIdle, ops) Ht) as E.
      assert (E3 : (sum_list_with (kw (wm_cursor s)) (wake_k <$> wm_cons s) <= sum_list_with (kw (wm_cursor s)) (wm_cons s) + 11 * length (wm_cons s))%nat).
      { apply sum_fmap_le. intros [pc nx al lg] _. unfold kw, wake_k. cbn [k_pc k_next]. destruct pc as [| | | | | | |[]| | | | |]; cbn [k_pc k_next k_goto rank]; lia. }
      unfold cw at 2 4 in E; cbn [fst snd length] in E.
      lia.
Qed.
Definition settled (s : wm) : Prop :=
  (forall t c, wm_callers s !! t = Some c -> c = (SIdle, [])) /\
  (forall c k, wm_cons s !! c = Some k -> k_pc k = KStopped \/ k_pc k = KAsleep false).
Lemma settled_stays g n s a : inv g n s -> quiet_act a -> settled s -> wm_step g s a = s.
Proof.
  intros I Hq [Hc Hk]. destruct a as [c sp ti|t]; cbn.
  - destruct Hq as [-> ->]. destruct (wm_cons s !! c) as [k|] eqn:E; [|done]. unfold cons_step. destruct (Hk _ _ E) as [-> | ->]; done.
  - destruct (wm_callers s !! t) as [c|] eqn:E; [|done]. by rewrite (Hc _ _ E).
Qed.
(** One round: a list of steps that has a step of every consumer and of every other thread. *)
Definition full_round (s : wm) (acts : list wmact) : Prop :=
  (forall a, a ∈ acts -> quiet_act a) /\
  (forall c, (c < length (wm_cons s))%nat -> WCons c false false ∈ acts) /\ (forall t, (t < length (wm_callers s))%nat -> WCall t ∈ acts).
Lemma run_dec g n s acts : inv g n s -> (forall a, a ∈ acts -> quiet_act a) ->
  (mw (wm_run g s acts) < mw s)%nat \/ (wm_run g s acts = s /\ forall a, a ∈ acts -> wm_step g s a = s).
Proof.
  revert s. induction acts as [|a acts IH]; intros s I Hq.
  - right. split; [done|]. intros a Ha. by apply elem_of_nil in Ha.
  - change (wm_run g s (a :: acts)) with (wm_run g (wm_step g s a) acts).
    assert (I' : inv g n (wm_step g s a)) by (exact (inv_run g n s [a] I)).
    assert (Hq' : forall a, a ∈ acts -> quiet_act a) by (intros b Hb; apply Hq; by right).
    destruct (IH _ I' Hq') as [Hd|[He Hs]]; destruct (step_dec g n s a I (Hq a (elem_of_list_here _ _))) as [E|E].
    + left. by rewrite E in *.
    + left. lia.
    + right. rewrite E in *. split; [done|]. intros b [->|Hb]%elem_of_cons; auto.
    + left. by rewrite He.
Qed.
Lemma stuck_settled g n s acts : inv g n s -> full_round s acts -> (forall a, a ∈ acts -> wm_step g s a = s) -> settled s.
Proof.
  intros I (Hq & Hc & Ht) Hs.
  assert (Hcons : forall c k, wm_cons s !! c = Some k -> cons_step g s c k false false = s).
  { intros c k Hk. specialize (Hs _ (Hc c ltac:(by eapply lookup_lt_Some))). cbn in Hs. by rewrite Hk in Hs. }
  assert (Hneq : forall c k k' needed owner, wm_cons s !! c = Some k -> wm_set s c needed owner k' = s -> k' = k).
  { intros c k k' nd ow Hk E. apply (f_equal wm_cons) in E. cbn in E. pose proof (list_lookup_insert (wm_cons s) c k' ltac:(by eapply lookup_lt_Some)) as E2. rewrite E in E2. congruence. }
  assert (Hkey : forall c k, wm_cons s !! c = Some k -> k_pc k = KStopped \/ k_pc k = KAsleep false \/ (wm_owner s <> None /\ holds (k_pc k) = false)).
  { intros c k Hk. pose proof (Hcons _ _ Hk) as E.
    destruct (i_k _ _ _ I _ _ Hk) as (_ & _ & _ & HD & HH & HN & _).
    destruct k as [pc nx al lg]. unfold cons_step in E; cbn [k_pc k_next k_alert k_goto k_log] in *.
    Ltac no Hneq Hk E := exfalso; apply (Hneq _ _ _ _ _ Hk) in E; injection E; try discriminate; try congruence; try lia.
    destruct pc.
    - destruct al; no Hneq Hk E.
    - destruct (wm_cursor s <? nx); no Hneq Hk E.
    - destruct (wm_owner s); [by right; right|]. destruct g; no Hneq Hk E.
    - no Hneq Hk E.
    - destruct (wm_cursor s <? nx); no Hneq Hk E.
    - destruct al; no Hneq Hk E.
    - no Hneq Hk E.
    - destruct woken; cbn [orb] in E; [no Hneq Hk E|auto].
    - destruct (wm_owner s); [by right; right|]. destruct timeout; [no Hneq Hk E|]. destruct g; no Hneq Hk E.
    - destruct (wm_cursor s <? nx); no Hneq Hk E.
    - destruct (Z.ltb_spec (wm_cursor s) nx); [specialize (HD eq_refl); lia|]. no Hneq Hk E.
    - destruct (nx0 <=? avail); no Hneq Hk E.
    - by left. }
  assert (Ho : wm_owner s = None).
  { destruct (wm_owner s) as [c|] eqn:Ho; [|done]. destruct (i_ownk _ _ _ I c Ho) as [k Hk].
    apply (i_own _ _ _ I _ _ Hk) in Ho. destruct (Hkey _ _ Hk) as [E|[E|[_ E]]]; rewrite ?E in Ho; done. }
  split.
  - intros t c Et. specialize (Hs _ (Ht t ltac:(by eapply lookup_lt_Some))). cbn in Hs. rewrite Et in Hs.
    destruct c as [pc ops]. unfold caller_step in Hs. rewrite Ho in Hs.
    assert (Hne : forall c' nd ow cu cs, Wm nd ow cu cs (<[t := c']> (wm_callers s)) = s -> c' = (pc, ops)).
    { intros c' nd ow cu cs E. apply (f_equal wm_callers) in E. cbn in E. pose proof (list_lookup_insert (wm_callers s) t c' ltac:(by eapply lookup_lt_Some)) as E2. rewrite E in E2. congruence. }
    assert (Hlen : forall (o : wop2) r, r = o :: r -> False). { intros o r E. apply (f_equal length) in E. cbn in E. lia. }
    destruct pc; [destruct ops as [|[|i] r]; [done| |]| |]; apply Hne in Hs; try discriminate Hs.
    + injection Hs as _ E. by apply Hlen in E.
    + injection Hs as _ E. by apply Hlen in E.
    + destruct (wm_needed s); discriminate Hs.
  - intros c k Hk. destruct (Hkey _ _ Hk) as [E|[E|[E _]]]; auto. by rewrite Ho in E.
Qed.
Lemma step_lens g s a : length (wm_cons (wm_step g s a)) = length (wm_cons s) /\ length (wm_callers (wm_step g s a)) = length (wm_callers s).
Proof.
  destruct a as [c sp ti|t]; cbn.
  - destruct (wm_cons s !! c) as [k|]; [|done]. unfold cons_step, wm_set. destruct (k_pc k); repeat case_match; cbn; rewrite ?insert_length; done.
  - destruct (wm_callers s !! t) as [[pc ops]|]; [|done]. unfold caller_step. repeat case_match; cbn; rewrite ?insert_length, ?alter_length, ?fmap_length; done.
Qed.
Lemma run_lens g s acts : length (wm_cons (wm_run g s acts)) = length (wm_cons s) /\ length (wm_callers (wm_run g s acts)) = length (wm_callers s).
Proof.
  unfold wm_run. revert s. induction acts as [|a acts IH]; intros s; [done|]. cbn. destruct (IH (wm_step g s a)) as [-> ->]. apply step_lens.
Qed.
Lemma run_app g s a b : wm_run g s (a ++ b) = wm_run g (wm_run g s a) b.
Proof. unfold wm_run. apply fold_left_app. Qed.
Lemma rounds_settle g n s rounds : inv g n s -> Forall (full_round s) rounds -> (mw s < length rounds)%nat -> settled (wm_run g s (concat rounds)).
Proof.
  revert s. induction rounds as [|r rs IH]; intros s I Hr Hlt; [cbn in Hlt; lia|].
  apply Forall_cons in Hr as [Hr Hrs]. cbn [concat]. rewrite run_app.
  destruct (run_dec g n s r I (proj1 Hr)) as [Hd|[He Hs]].
  - apply IH; [by apply inv_run| |cbn in Hlt; lia].
    eapply Forall_impl; [exact Hrs|]. intros x. unfold full_round. destruct (run_lens g s r) as [-> ->]. done.
  - assert (Hset : settled s) by (by eapply stuck_settled).
    rewrite He. clear -I Hrs Hset.
    assert (forall acts, (forall a, a ∈ acts -> quiet_act a) -> wm_run g s acts = s) as Hstay.
    { induction acts as [|a acts IHa]; intros Hq; [done|]. cbn. rewrite (settled_stays g n s a I (Hq a (elem_of_list_here _ _)) Hset). apply IHa. intros b Hb. apply Hq. by right. }
    rewrite Hstay; [done|]. intros a (x & Hx & Ha)%elem_of_list_In%in_concat. rewrite Forall_forall in Hrs.
    apply (proj1 (Hrs x ltac:(by apply elem_of_list_In))). by apply elem_of_list_In.
Qed.
(** ** What the threads were asked to do. *)
Definition is_pub (o : wop2) : bool := match o with WPublish => true | WHalt _ => false end.
Definition pubs (ops : list wop2) : nat := length (List.filter is_pub ops).
Lemma pubs_app a b : pubs (a ++ b) = (pubs a + pubs b)%nat.
Proof. unfold pubs. by rewrite List.filter_app, app_length. Qed.
Definition left_ops (s : wm) : list wop2 := concat (snd <$> wm_callers s).
Lemma concat_insert_pubs (l : list (spc * list wop2)) t p ops q r : l !! t = Some (p, ops) ->
  (pubs (concat (snd <$> <[t := (q, r)]> l)) + pubs ops = pubs (concat (snd <$> l)) + pubs r)%nat.
Proof.
  revert t. induction l as [|a l IH]; intros [|t] H; simpl in *; simplify_eq; rewrite !pubs_app; simpl; [lia|]. specialize (IH _ H). unfold fmap in IH. lia.
Qed.
Lemma elem_concat_insert (l : list (spc * list wop2)) t p ops q r o : l !! t = Some (p, o :: ops) -> r = ops ->
  forall x, x ∈ concat (snd <$> l) <-> x = o \/ x ∈ concat (snd <$> <[t := (q, r)]> l).
Proof.
  intros H -> x. revert t H. induction l as [|a l IH]; intros [|t] H; simpl in *; simplify_eq; rewrite !elem_of_app; simpl.
  - rewrite elem_of_cons. tauto.
  - unfold fmap in IH. rewrite (IH _ H). tauto.
Qed.
Lemma concat_same (l : list (spc * list wop2)) t p q ops : l !! t = Some (p, ops) -> concat (snd <$> <[t := (q, ops)]> l) = concat (snd <$> l).
Proof.
  revert t. induction l as [|a l IH]; intros [|t] H; simpl in *; simplify_eq; [done|]. unfold fmap in IH. by rewrite (IH _ H).
Qed.
Record book (progs : list (list wop2)) (s : wm) : Prop := {
  b_pubs : wm_cursor s + 1 + Z.of_nat (pubs (left_ops s)) = Z.of_nat (pubs (concat progs));
  b_halt : forall c k, wm_cons s !! c = Some k -> (WHalt c ∈ concat progs <-> k_alert k = true \/ WHalt c ∈ left_ops s);
  b_stop : forall c k, wm_cons s !! c = Some k -> k_pc k = KStopped -> k_alert k = true
}.
Lemma book_new n progs : book progs (wm_new n progs).
Proof.
  assert (E : left_ops (wm_new n progs) = concat progs).
  { unfold left_ops, wm_new. cbn [wm_callers]. rewrite <- list_fmap_compose. f_equal. clear. induction progs; [done|]. simpl. by f_equal. }
  constructor; rewrite ?E; [cbn; lia|..]; unfold wm_new; cbn [wm_cons].
  - intros c k [-> _]%lookup_replicate. cbn. naive_solver.
  - intros c k [-> _]%lookup_replicate. done.
Qed.
Lemma book_step g progs s a : book progs s -> book progs (wm_step g s a).
Proof.
  intros [B1 B2 B3]. destruct a as [c sp ti|t]; cbn [wm_step].
  - destruct (wm_cons s !! c) as [k|] eqn:Hk; [|done].
    assert (H : forall needed owner k', k_alert k' = k_alert k -> (k_pc k' = KStopped -> k_alert k = true) -> book progs (wm_set s c needed owner k')).
    { intros nd ow k' Ha Hs. constructor; [done|..]; cbn [wm_set wm_cons].
      - intros c' x [(<- & <- & _)|[Hne Hx]]%list_lookup_insert_Some; [rewrite Ha|]; by apply B2.
      - intros c' x [(<- & <- & _)|[Hne Hx]]%list_lookup_insert_Some; [rewrite Ha; auto|]; by eapply B3. }
    unfold cons_step. destruct (k_pc k) eqn:Ep; repeat case_match; try done; apply H; cbn; congruence.
  - destruct (wm_callers s !! t) as [[pc ops]|] eqn:Ht; [|done]. unfold caller_step.
    destruct pc; [destruct ops as [|[|i] r]; [done| |]| |].
    + constructor; unfold left_ops; cbn [wm_cursor wm_callers wm_cons].
      * pose proof (concat_insert_pubs _ _ _ _ (sig_start g) r Ht) as E. unfold pubs at 2 in E. cbn [List.filter is_pub length] in E. fold (pubs r) in E. unfold left_ops in B1. lia.
      * intros c k Hk. rewrite (B2 _ _ Hk). unfold left_ops. rewrite (elem_concat_insert _ _ _ _ (sig_start g) r _ Ht eq_refl). naive_solver.
      * done.
    + constructor; unfold left_ops; cbn [wm_cursor wm_callers wm_cons].
      * pose proof (concat_insert_pubs _ _ _ _ (sig_start g) r Ht) as E. unfold pubs at 2 in E. cbn [List.filter is_pub length] in E. fold (pubs r) in E. unfold left_ops in B1. lia.
      * intros c k'. destruct (decide (c = i)) as [->|Hne].
        -- rewrite list_lookup_alter. intros (k & Hk & ->)%fmap_Some. rewrite (B2 _ _ Hk). unfold left_ops.
           rewrite (elem_concat_insert _ _ _ _ (sig_start g) r _ Ht eq_refl). cbn. tauto.
        -- rewrite list_lookup_alter_ne by done. intros Hk. rewrite (B2 _ _ Hk). unfold left_ops.
           rewrite (elem_concat_insert _ _ _ _ (sig_start g) r _ Ht eq_refl). naive_solver.
      * intros c k'. destruct (decide (c = i)) as [->|Hne].
        -- rewrite list_lookup_alter. intros (k & Hk & ->)%fmap_Some. done.
        -- rewrite list_lookup_alter_ne by done. apply B3.
    + constructor; unfold left_ops; cbn [wm_cursor wm_callers wm_cons]; rewrite ?(concat_same _ _ _ _ _ Ht); done.
    + destruct (wm_owner s); [done|].
      constructor; unfold left_ops; cbn [wm_cursor wm_callers wm_cons]; rewrite ?(concat_same _ _ _ _ _ Ht); [done|..].
      * intros c k' (k & Hk & ->)%list_lookup_fmap_Some. rewrite (B2 _ _ Hk). unfold wake_k. by destruct (k_pc k).
      * intros c k' (k & Hk & ->)%list_lookup_fmap_Some. pose proof (B3 _ _ Hk). unfold wake_k. destruct (k_pc k) eqn:E; cbn; rewrite ?E; done.
Qed.
Lemma book_run g progs s acts : book progs s -> book progs (wm_run g s acts).
Proof. unfold wm_run. revert s. induction acts as [|a acts IH]; intros s B; [done|]. cbn. apply IH. by apply book_step. Qed.

(** C89. Nobody sleeps through a signal: once every caller is back from what it called, a consumer that is asleep and not woken has handled everything published and was not halted. *)
Theorem C89_no_lost_wakeup g n progs acts :
  let s := wm_run g (wm_new n progs) acts in
  (forall t c, wm_callers s !! t = Some c -> c.1 = SIdle) ->
  forall c k, wm_cons s !! c = Some k -> k_pc k = KAsleep false -> k_log k = seqZ 0 (wm_cursor s + 1) /\ k_alert k = false.
Proof.
  intros s Hidle c k Hk Hp. destruct (i_k _ _ _ (inv_run g n _ acts (inv_new g n progs)) _ _ Hk) as (A & B & C & D & E & F & G).
  fold s in A, B, C, D, E, F. rewrite Hp in *. cbn in *.
  assert (Hno : ~ coming s). { intros (t & r & [Ht|Ht]); by specialize (Hidle _ _ Ht). }
  split.
  - rewrite G. f_equal. destruct (Z.le_gt_cases (k_next k) (wm_cursor s)); [exfalso; auto|lia].
  - destruct (k_alert k); [exfalso; auto|done].
Qed.
(** Each consumer gets the events in order, each once, at every moment of every schedule. *)
Theorem C89_in_order g n progs acts :
  let s := wm_run g (wm_new n progs) acts in
  forall c k, wm_cons s !! c = Some k -> exists m, k_log k = seqZ 0 m /\ 0 <= m <= wm_cursor s + 1.
Proof.
  intros s c k Hk. destruct (i_k _ _ _ (inv_run g n _ acts (inv_new g n progs)) _ _ Hk) as (_ & _ & _ & _ & _ & F & G). eauto.
Qed.
(** Whatever happened before (spurious wake-ups and time-outs included), enough rounds in which every thread gets a turn
    make every caller return, every consumer that was halted end, and every other consumer handle everything that was published, then sleep. *)
Theorem C89_drains g n progs acts :
  exists N, forall rounds, (N <= length rounds)%nat ->
  Forall (fun r => (forall a, a ∈ r -> quiet_act a) /\ (forall c, (c < n)%nat -> WCons c false false ∈ r) /\ (forall t, (t < length progs)%nat -> WCall t ∈ r)) rounds ->
  let s := wm_run g (wm_new n progs) (acts ++ concat rounds) in
  (forall t c, wm_callers s !! t = Some c -> c = (SIdle, [])) /\
  forall c k, wm_cons s !! c = Some k ->
    (WHalt c ∈ concat progs -> k_pc k = KStopped) /\
    (WHalt c ∉ concat progs -> k_pc k = KAsleep false /\ k_log k = seqZ 0 (Z.of_nat (pubs (concat progs)))).
Proof.
  set (s0 := wm_run g (wm_new n progs) acts).
  assert (I0 : inv g n s0) by (apply inv_run, inv_new).
  assert (L0 : length (wm_cons s0) = n /\ length (wm_callers s0) = length progs).
  { unfold s0. destruct (run_lens g (wm_new n progs) acts) as [-> ->]. unfold wm_new; cbn. by rewrite replicate_length, fmap_length. }
  exists (S (mw s0)). intros rounds Hlen Hr s. subst s.
  assert (Hset : settled (wm_run g (wm_new n progs) (acts ++ concat rounds))).
  { rewrite run_app. eapply rounds_settle; [done| |fold s0; lia]. eapply Forall_impl; [exact Hr|]. intros r. unfold full_round. fold s0. destruct L0 as [-> ->]. done. }
  pose proof (book_run g progs _ (acts ++ concat rounds) (book_new n progs)) as B.
  pose proof (C89_no_lost_wakeup g n progs (acts ++ concat rounds)) as W. cbn zeta in W.
  set (s := wm_run g (wm_new n progs) (acts ++ concat rounds)) in *.
  destruct Hset as [Hc Hk]. split; [done|]. intros c k Ek.
  assert (Hleft : left_ops s = []).
  { unfold left_ops. clear -Hc. revert Hc. generalize (wm_callers s) as l. induction l as [|a l IH]; intros Hc; [done|]. simpl. rewrite (Hc 0%nat a eq_refl). simpl. apply IH. intros t. apply (Hc (S t)). }
  pose proof (b_pubs _ _ B) as Bp. pose proof (b_halt _ _ B _ _ Ek) as Bh. pose proof (b_stop _ _ B _ _ Ek) as Bs. rewrite Hleft in *. cbn in Bp.
  specialize (W (fun t c0 E => f_equal fst (Hc t c0 E)) c k Ek).
  rewrite elem_of_nil in Bh. split.
  - intros Hh. destruct (Hk _ _ Ek) as [E|E]; [done|]. destruct (W E) as [_ Hal]. apply Bh in Hh as [Hh|[]]. congruence.
  - intros Hh. destruct (Hk _ _ Ek) as [E|E]; [exfalso; apply Hh, Bh; left; by apply Bs|]. split; [done|]. destruct (W E) as [-> _]. f_equal. lia.
Qed.
(** Hypotheses met: two consumers, one publisher of two events, and a thread that halts consumer 1. *)
Definition rr : list wmact := [WCons 0 false false; WCons 1 false false; WCall 0; WCall 1].
Definition demo (g : wstrat) : wm := wm_run g (wm_new 2 [[WPublish; WPublish]; [WHalt 1]]) (concat (replicate 60 rr)).
Example C89_example : forall g, wm_cons (demo g) !! 0%nat = Some (Kcons (KAsleep false) 2 false [0; 1]) /\ k_pc <$> wm_cons (demo g) !! 1%nat = Some KStopped.
Proof. intros []; by vm_compute. Qed.
(** A consumer really sleeps and is really woken: the first one goes to sleep before anything is published. *)
Example C89_sleeps : forall g, k_pc <$> wm_cons (wm_run g (wm_new 2 [[WPublish; WPublish]; [WHalt 1]]) (replicate 10 (WCons 0 false false))) !! 0%nat = Some (KAsleep false).
Proof. intros []; by vm_compute. Qed.
Print Assumptions C89_no_lost_wakeup.
Print Assumptions C89_in_order.
Print Assumptions C89_drains.
