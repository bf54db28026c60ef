(** * Several threads that publish through one data multiplexer: theorems. *)
From stdpp Require Import prelude gmap list_numbers.
From Coq Require Import ZArith Lia ZifyBool.
From Verif Require Import MuxPub_Model MuxPub_Spec.
Local Open Scope Z_scope.

Lemma m_run_snoc size s acts a : m_run size s (acts ++ [a]) = m_step size (m_run size s acts) a.
Proof. unfold m_run. by rewrite foldl_app. Qed.
Lemma m_run_app size s a b : m_run size s (a ++ b) = m_run size (m_run size s a) b.
Proof. unfold m_run. by rewrite foldl_app. Qed.
Lemma m_run_cons size s a b : m_run size s (a :: b) = m_run size (m_step size s a) b.
Proof. done. Qed.
Lemma published_app a b : published (a ++ b) = published a ++ published b.
Proof. unfold published. by rewrite omap_app. Qed.
Lemma no_overlap_app size s a b : no_overlap size s (a ++ b) <-> no_overlap size s a /\ no_overlap size (m_run size s a) b.
Proof.
  revert s. induction a as [|x a IH]; intros s; [cbn; tauto|]. cbn [no_overlap app]. rewrite m_run_cons, IH. tauto.
Qed.

Definition pc_of (s : mst) (t : nat) : mpc := match m_pub s !! t with Some (pc, _) => pc | None => MIdle end.
Definition solo (s : mst) (t : nat) : Prop := forall u pc r, m_pub s !! u = Some (pc, r) -> u <> t -> pc = MIdle.
Definition next_of (N : Z) (pc : mpc) : Z := match pc with MSlot _ _ | MPubl _ _ => N | _ => N - 1 end.
Definition hi_of (N : Z) (pc : mpc) : Z := match pc with MPubl _ _ => N | _ => N - 1 end.
Definition claimed (pc : mpc) : bool := match pc with MAdd _ | MStore _ _ | MSlot _ _ | MPubl _ _ => true | _ => false end.
Definition pc_ok (size N : Z) (slots : gmap Z Z) (pc : mpc) : Prop :=
  match pc with
  | MCached _ n | MScan _ n | MStore _ n => n = N - 1
  | MSlot _ q => q = N
  | MPubl v q => q = N /\ slots !! (N mod size) = Some v
  | MIdle | MAdd _ => True
  end.
Record cons_ok (size : Z) (P : list Z) (k : mcons) : Prop := {
  co_seq : -1 <= k_seq k <= k_next k - 1;
  co_next : k_next k <= Z.of_nat (length P);
  co_near : Z.of_nat (length P) - 1 - size <= k_seq k;
  co_avail : match k_avail k with Some a => k_next k - 1 <= a <= Z.of_nat (length P) - 1 | None => k_seq k = k_next k - 1 end;
  co_got : k_got k = Some <$> take (Z.to_nat (k_next k)) P
}.
Record core (size : Z) (s : mst) (pc : mpc) : Prop := {
  c_cur : m_cursor s = Z.of_nat (length (published (m_log s))) - 1;
  c_next : m_next s = next_of (Z.of_nat (length (published (m_log s)))) pc;
  c_pc : pc_ok size (Z.of_nat (length (published (m_log s)))) (m_slots s) pc;
  c_cached : forall c k, m_cons s !! c = Some k -> m_cached s <= k_seq k;
  c_room : claimed pc = true -> forall c k, m_cons s !! c = Some k -> Z.of_nat (length (published (m_log s))) - size <= k_seq k;
  c_cons : forall c k, m_cons s !! c = Some k -> cons_ok size (published (m_log s)) k;
  c_slots : forall (i : nat) v, hi_of (Z.of_nat (length (published (m_log s)))) pc - size < Z.of_nat i -> published (m_log s) !! i = Some v -> m_slots s !! (Z.of_nat i mod size) = Some v
}.
Definition inv (size : Z) (s : mst) : Prop := exists t, solo s t /\ core size s (pc_of s t).

Lemma m_min_spec n ks : m_min n ks <= n /\ (forall c k, ks !! c = Some k -> m_min n ks <= k_seq k) /\ (m_min n ks = n \/ exists c k, ks !! c = Some k /\ m_min n ks = k_seq k).
Proof.
  induction ks as [|k ks (H1 & H2 & H3)]; cbn [m_min foldr].
  { split_and!; [lia| |by left]. intros c k H. by rewrite lookup_nil in H. }
  change (foldr (fun k m => Z.min (k_seq k) m) n ks) with (m_min n ks). split_and!.
  - lia.
  - intros [|c] k' H; cbn in H; [injection H as <-; lia|]. specialize (H2 c k' H). lia.
  - destruct (Z.le_ge_cases (k_seq k) (m_min n ks)).
    + right. exists 0%nat, k. cbn. split; [done|lia].
    + destruct H3 as [H3|(c & k' & H3 & H4)]; [left; lia|]. right. exists (S c), k'. cbn. split; [done|lia].
Qed.

Lemma mod_other size (a b : Z) : 0 < size -> a < b < a + size -> a mod size <> b mod size.
Proof.
  intros Hs Hab Heq. assert (Hz : (b - a) mod size = 0).
  { rewrite Zminus_mod, Heq, Z.sub_diag. apply Z.mod_0_l. lia. }
  rewrite Z.mod_small in Hz by lia. lia.
Qed.

Lemma inv_new size ncons progs : 0 < size -> inv size (m_new ncons progs).
Proof.
  intros Hs. exists 0%nat. assert (Hidle : forall u pc r, m_pub (m_new ncons progs) !! u = Some (pc, r) -> pc = MIdle).
  { intros u pc r H. cbn in H. rewrite list_lookup_fmap in H. destruct (progs !! u); [|done]. cbn in H. by injection H as <- <-. }
  split; [intros u pc r H _; by eapply Hidle|].
  assert (pc_of (m_new ncons progs) 0 = MIdle) as ->.
  { unfold pc_of. destruct (m_pub _ !! 0%nat) as [[pc r]|] eqn:E; [|done]. by eapply Hidle. }
  split; cbn [m_new m_cursor m_log m_next m_slots m_cons m_cached]; try done.
  - intros c k H. apply lookup_replicate in H as [-> _]. cbn. lia.
  - intros c k H. apply lookup_replicate in H as [-> _]. split; cbn; try lia; done.
Qed.

Lemma pc_of_set s t pc r f : is_Some (m_pub s !! t) -> m_pub f = <[t := (pc, r)]> (m_pub s) -> pc_of f t = pc.
Proof. intros H E. unfold pc_of. rewrite E, list_lookup_insert; [done|]. by apply lookup_lt_is_Some. Qed.
Lemma solo_set s t pc r f : solo s t -> m_pub f = <[t := (pc, r)]> (m_pub s) -> solo f t.
Proof. intros H E u pc' r' Hu Hne. rewrite E, list_lookup_insert_ne in Hu by done. by eapply H. Qed.

Lemma inv_focus size s t : inv size s -> is_Some (m_pub s !! t) -> (not_calling s t -> forall u, not_calling s u) -> solo s t /\ core size s (pc_of s t).
Proof.
  intros (t0 & Hsolo & Hcore) Ht Hno.
  destruct (decide (t0 = t)) as [->|Hne]; [done|].
  assert (Hid : not_calling s t) by (intros pc r H; by eapply Hsolo).
  specialize (Hno Hid). split; [intros u pc r H _; by eapply Hno|].
  assert (pc_of s t = pc_of s t0) as ->; [|done].
  unfold pc_of. destruct (m_pub s !! t) as [[pc r]|] eqn:E; destruct (m_pub s !! t0) as [[pc' r']|] eqn:E'; try done.
  - by rewrite (Hno _ _ _ E), (Hno _ _ _ E').
  - by rewrite (Hno _ _ _ E).
  - by rewrite (Hno _ _ _ E').
Qed.

Lemma inv_pub size s t : 0 < size -> inv size s -> (not_calling s t -> forall u, not_calling s u) -> inv size (m_pub_step size s t).
Proof.
  intros Hs Hinv Hno. unfold m_pub_step.
  destruct (m_pub s !! t) as [[pc r]|] eqn:E; [|done].
  destruct (inv_focus size s t Hinv (ex_intro _ _ E) Hno) as [Hsolo Hcore].
  assert (Hpc : pc_of s t = pc) by (unfold pc_of; by rewrite E). rewrite Hpc in Hcore.
  pose proof (ex_intro _ _ E : is_Some (m_pub s !! t)) as Hsome.
  pose proof (m_min_spec) as Hmin.
  destruct Hcore as [H1 H2 H3 H4 H5 H6 H7].
  destruct pc as [|v n|v n|v|v x|v q|v q]; cbn [next_of hi_of pc_ok claimed] in *.
  - destruct r as [|v r]; [done|]. exists t. split; [eapply solo_set; done|].
    erewrite pc_of_set; [|done|done]. split; cbn [m_goto m_cursor m_log m_next m_slots m_cons m_cached next_of hi_of pc_ok claimed]; try done.
  - destruct ((m_cached s <? n + 1 - size) || (n <? m_cached s)) eqn:Ec; exists t.
    + split; [eapply solo_set; done|].
      erewrite pc_of_set; [|done|done]. split; cbn [m_goto m_cursor m_log m_next m_slots m_cons m_cached next_of hi_of pc_ok claimed]; try done.
    + split; [eapply solo_set; done|].
      erewrite pc_of_set; [|done|done]. split; cbn [m_goto m_cursor m_log m_next m_slots m_cons m_cached next_of hi_of pc_ok claimed]; try done.
      intros _ c k Hk. specialize (H4 c k Hk). lia.
  - destruct (Hmin n (m_cons s)) as (M1 & M2 & _). destruct (m_min n (m_cons s) <? n + 1 - size) eqn:Ec; exists t.
    + split; [eapply solo_set; done|].
      erewrite pc_of_set; [|done|done].
      assert (HP : published (m_log s ++ [MRef t v]) = published (m_log s)) by (rewrite published_app; apply app_nil_r).
      split; cbn [m_cursor m_log m_next m_slots m_cons m_cached next_of hi_of pc_ok claimed]; rewrite ?HP; try done.
    + split; [eapply solo_set; done|].
      erewrite pc_of_set; [|done|done]. split; cbn [m_cursor m_log m_next m_slots m_cons m_cached next_of hi_of pc_ok claimed]; try done.
      intros _ c k Hk. specialize (M2 c k Hk). lia.
  - exists t. split; [eapply solo_set; done|].
    erewrite pc_of_set; [|done|done]. split; cbn [m_goto m_cursor m_log m_next m_slots m_cons m_cached next_of hi_of pc_ok claimed]; try done.
  - exists t. split; [eapply solo_set; done|].
    erewrite pc_of_set; [|done|done]. split; cbn [m_cursor m_log m_next m_slots m_cons m_cached next_of hi_of pc_ok claimed]; try done; lia.
  - exists t. split; [eapply solo_set; done|].
    erewrite pc_of_set; [|done|done]. split; cbn [m_cursor m_log m_next m_slots m_cons m_cached next_of hi_of pc_ok claimed]; try done.
    + split; [done|]. by rewrite H3, lookup_insert.
    + intros i v' Hi Hv'. pose proof (lookup_lt_Some _ _ _ Hv'). rewrite lookup_insert_ne; [apply H7; [lia|done]|].
      rewrite H3. intros Heq. symmetry in Heq. revert Heq. apply mod_other; lia.
  - exists t. split; [eapply solo_set; done|].
    erewrite pc_of_set; [|done|done].
    assert (HP : published (m_log s ++ [MAcc t v]) = published (m_log s) ++ [v]) by (by rewrite published_app).
    destruct H3 as [H3 H3'].
    split; cbn [m_cursor m_log m_next m_slots m_cons m_cached next_of hi_of pc_ok claimed]; rewrite ?HP, ?app_length; cbn [length]; try done; try lia.
    + intros c k Hk. destruct (H6 c k Hk) as [K1 K2 K3 K4 K5]. specialize (H5 eq_refl c k Hk).
      split; rewrite ?app_length; cbn [length]; try done; try lia.
      * destruct (k_avail k); lia.
      * rewrite K5, take_app_le; [done|lia].
    + intros i v' Hi Hv'. destruct (decide (i = length (published (m_log s)))) as [->|Hne].
      * rewrite lookup_app_r, Nat.sub_diag in Hv' by lia. cbn in Hv'. injection Hv' as <-. done.
      * pose proof (lookup_lt_Some _ _ _ Hv') as Hlt. rewrite app_length in Hlt; cbn in Hlt.
        rewrite lookup_app_l in Hv' by lia. apply H7; [lia|done].
Qed.

Lemma cons_step_ok size s pc c k : 0 < size -> core size s pc -> m_cons s !! c = Some k ->
  cons_ok size (published (m_log s)) (m_cons_step size (m_cursor s) (m_slots s) k) /\ k_seq k <= k_seq (m_cons_step size (m_cursor s) (m_slots s) k).
Proof.
  intros Hs [H1 H2 H3 H4 H5 H6 H7] Hk. pose proof (H6 c k Hk) as K. pose proof K as [K1 K2 K3 K4 K5]. unfold m_cons_step.
  destruct (k_avail k) as [a|] eqn:Ea.
  - destruct (k_next k <=? a) eqn:El.
    + split; [|cbn; lia]. split; cbn; try lia.
      assert (Hlt : (Z.to_nat (k_next k) < length (published (m_log s)))%nat) by lia.
      destruct (lookup_lt_is_Some_2 _ _ Hlt) as [v Hv].
      assert (Hslot : m_slots s !! (k_next k mod size) = Some v).
      { rewrite <- (Z2Nat.id (k_next k)) by lia. apply H7; [|done].
        assert (Hhi : hi_of (Z.of_nat (length (published (m_log s)))) pc - size <= k_seq k).
        { destruct pc; cbn [hi_of]; try lia. specialize (H5 eq_refl c k Hk). lia. }
        lia. }
      rewrite Hslot, K5. replace (Z.to_nat (k_next k + 1)) with (S (Z.to_nat (k_next k))) by lia.
      rewrite (take_S_r _ _ v) by done. by rewrite fmap_app.
    + split; [|cbn; lia]. split; cbn; try lia. done.
  - destruct (k_next k <=? m_cursor s) eqn:El; [|split; [done|lia]]. split; [|cbn; lia]. split; cbn; try lia. done.
Qed.

Lemma inv_cons size s c : 0 < size -> inv size s -> inv size (m_step size s (MCons c)).
Proof.
  intros Hs (t & Hsolo & Hcore). exists t. split; [done|]. change (pc_of (m_step size s (MCons c)) t) with (pc_of s t).
  pose proof (fun k => cons_step_ok size s (pc_of s t) c k Hs Hcore) as Hstep.
  destruct Hcore as [H1 H2 H3 H4 H5 H6 H7].
  split; cbn [m_step m_cursor m_log m_next m_slots m_cons m_cached]; try done.
  - intros c' k Hk. destruct (decide (c' = c)) as [->|Hne].
    + rewrite list_lookup_alter in Hk. destruct (m_cons s !! c) as [k0|] eqn:E; [|done]. injection Hk as <-. destruct (Hstep k0 eq_refl). specialize (H4 c k0 E). lia.
    + rewrite list_lookup_alter_ne in Hk by done. eauto.
  - intros Hcl c' k Hk. destruct (decide (c' = c)) as [->|Hne].
    + rewrite list_lookup_alter in Hk. destruct (m_cons s !! c) as [k0|] eqn:E; [|done]. injection Hk as <-. destruct (Hstep k0 eq_refl). specialize (H5 Hcl c k0 E). lia.
    + rewrite list_lookup_alter_ne in Hk by done. eauto.
  - intros c' k Hk. destruct (decide (c' = c)) as [->|Hne].
    + rewrite list_lookup_alter in Hk. destruct (m_cons s !! c) as [k0|] eqn:E; [|done]. injection Hk as <-. by destruct (Hstep k0 eq_refl).
    + rewrite list_lookup_alter_ne in Hk by done. eauto.
Qed.

Lemma inv_run size s acts : 0 < size -> inv size s -> no_overlap size s acts -> inv size (m_run size s acts).
Proof.
  intros Hs. revert s. induction acts as [|a acts IH]; intros s Hi Hn; [done|].
  cbn [no_overlap] in Hn. destruct Hn as [Ha Hn]. rewrite m_run_cons. apply IH; [|done].
  destruct a as [t|c]; [by apply inv_pub|by apply inv_cons].
Qed.

(** Every consumer reads the events published, in the order in which the calls returned. *)
Theorem C151_read_in_order : forall size ncons progs acts c k, 0 < size -> no_overlap size (m_new ncons progs) acts ->
  let s := m_run size (m_new ncons progs) acts in m_cons s !! c = Some k -> k_got k `prefix_of` (Some <$> published (m_log s)).
Proof.
  intros size ncons progs acts c k Hs Hn s Hk.
  destruct (inv_run size _ acts Hs (inv_new size ncons progs Hs) Hn) as (t & _ & Hcore).
  destruct (c_cons _ _ _ Hcore c k Hk) as [_ _ _ _ ->].
  exists (Some <$> drop (Z.to_nat (k_next k)) (published (m_log s))). by rewrite <- fmap_app, take_drop.
Qed.

Definition cons_steps (c : nat) (acts : list mact) : nat := length (List.filter (fun a => match a with MCons d => bool_decide (d = c) | MPub _ => false end) acts).

(** A consumer that keeps running has read everything once nobody publishes any more. *)
Definition lack (s : mst) (k : mcons) : Z :=
  match k_avail k with
  | Some a => (a + 1 - k_next k) + 1 + (if a <? m_cursor s then (m_cursor s - a) + 2 else 0)
  | None => if k_next k <=? m_cursor s then (m_cursor s + 1 - k_next k) + 2 else 0
  end.
Theorem C151_all_read : forall size ncons progs acts more c k, 0 < size -> no_overlap size (m_new ncons progs) acts ->
  (forall t, MPub t ∉ more) -> let s := m_run size (m_new ncons progs) acts in (length (published (m_log s)) + 4 <= cons_steps c more)%nat ->
  m_cons (m_run size s more) !! c = Some k -> k_got k = Some <$> published (m_log s).
Proof.
  intros size ncons progs acts more c k Hs Hn Hmore s Hlen Hk.
  pose proof (inv_run size _ acts Hs (inv_new size ncons progs Hs) Hn) as Hinv. fold s in Hinv. clearbody s. clear acts Hn.
  assert (Hgen : forall s0, inv size s0 -> m_cons (m_run size s0 more) !! c = Some k ->
    exists k0, m_cons s0 !! c = Some k0 /\ (lack s0 k0 <= Z.of_nat (cons_steps c more) -> k_got k = Some <$> published (m_log s0))).
  { clear Hk Hlen Hinv s. induction more as [|a more IH]; intros s0 Hi Hk.
    - exists k. split; [done|]. unfold cons_steps. cbn. intros Hl. destruct Hi as (t & _ & Hcore).
      pose proof (c_cur _ _ _ Hcore) as Hc. destruct (c_cons _ _ _ Hcore c k Hk) as [K1 K2 K3 K4 K5]. rewrite K5, take_ge; [done|].
      unfold lack in Hl. destruct (k_avail k) as [a|]; [destruct (a <? m_cursor s0) eqn:E; lia|]. destruct (k_next k <=? m_cursor s0) eqn:E; lia.
    - destruct a as [t|d]; [exfalso; eapply Hmore; apply elem_of_list_here|].
      rewrite m_run_cons in Hk. destruct (IH (fun t H => Hmore t (elem_of_list_further _ _ _ H)) (m_step size s0 (MCons d)) (inv_cons size s0 d Hs Hi) Hk) as (k1 & Hk1 & Hdone).
      cbn [m_step m_cons] in Hk1. change (m_log (m_step size s0 (MCons d))) with (m_log s0) in Hdone.
      destruct (decide (d = c)) as [->|Hne].
      + rewrite list_lookup_alter in Hk1. destruct (m_cons s0 !! c) as [k0|] eqn:E; [|done]. cbn in Hk1. injection Hk1 as <-.
        exists k0. split; [done|]. intros Hl. apply Hdone.
        assert (Hcount : cons_steps c (MCons c :: more) = S (cons_steps c more)).
        { unfold cons_steps. cbn [List.filter]. rewrite bool_decide_eq_true_2 by done. done. }
        rewrite Hcount in Hl. destruct Hi as (t & _ & Hcore). destruct (c_cons _ _ _ Hcore c k0 E) as [K1 K2 K3 K4 K5]. pose proof (c_cur _ _ _ Hcore) as Hc.
        change (m_cursor (m_step size s0 (MCons c))) with (m_cursor s0). unfold lack, m_cons_step in *.
        cbn [m_step m_cursor] in *.
        destruct (k_avail k0) as [a|] eqn:Eav.
        * destruct (k_next k0 <=? a) eqn:El; cbn [k_avail k_next]; [lia|]. destruct (a <? m_cursor s0) eqn:Em; destruct (k_next k0 <=? m_cursor s0) eqn:En; lia.
        * destruct (k_next k0 <=? m_cursor s0) eqn:El; cbn [k_avail k_next].
          -- rewrite Z.ltb_irrefl. lia.
          -- rewrite Eav, El. lia.
      + rewrite list_lookup_alter_ne in Hk1 by done. exists k1. split; [done|]. intros Hl. apply Hdone.
        assert (Hcount : cons_steps c (MCons d :: more) = cons_steps c more).
        { unfold cons_steps. cbn [List.filter]. by rewrite bool_decide_eq_false_2. }
        rewrite Hcount in Hl. done. }
  destruct (Hgen s Hinv Hk) as (k0 & Hk0 & Hd). apply Hd.
  destruct Hinv as (t & _ & Hcore). destruct (c_cons _ _ _ Hcore c k0 Hk0) as [K1 K2 K3 K4 K5]. pose proof (c_cur _ _ _ Hcore) as Hc.
  unfold lack. destruct (k_avail k0) as [a|]; [destruct (a <? m_cursor s) eqn:E; lia|]. destruct (k_next k0 <=? m_cursor s) eqn:E; lia.
Qed.

(** Each thread's calls are answered in the order in which it makes them; nothing else is answered. *)
Theorem C151_answers : forall size ncons progs acts t p, progs !! t = Some p ->
  let s := m_run size (m_new ncons progs) acts in exists pc r, m_pub s !! t = Some (pc, r) /\ answered t (m_log s) ++ current pc ++ r = p.
Proof.
  intros size ncons progs acts t p Hp. induction acts as [|a acts IH] using rev_ind.
  { exists MIdle, p. cbn. by rewrite list_lookup_fmap, Hp. }
  rewrite m_run_snoc. cbn zeta in *. destruct IH as (pc & r & Hpc & Heq). set (s := m_run size (m_new ncons progs) acts) in *. clearbody s.
  assert (Happ : forall h e, answered t (h ++ [e]) = answered t h ++ answered t [e]) by (intros; unfold answered; by rewrite omap_app).
  destruct a as [u|c]; [|by exists pc, r]. cbn [m_step]. unfold m_pub_step.
  destruct (m_pub s !! u) as [[pc' r']|] eqn:Eu; [|by exists pc, r].
  assert (Hut : u <> t -> forall x, <[u := x]> (m_pub s) !! t = Some (pc, r)) by (intros Hne x; by rewrite list_lookup_insert_ne).
  assert (Htt : forall x, u = t -> <[u := x]> (m_pub s) !! t = Some x).
  { intros x ->. rewrite list_lookup_insert; [done|]. apply lookup_lt_is_Some. by exists (pc, r). }
  assert (Hnil : u <> t -> forall v, answered t [MAcc u v] = [] /\ answered t [MRef u v] = []) by (intros Hne v; unfold answered; cbn; by rewrite decide_False).
  destruct (decide (u = t)) as [Hut'|Hne].
  - assert (pc' = pc /\ r' = r) as [-> ->] by (rewrite Hut', Hpc in Eu; by injection Eu).
    assert (Hone : forall v, answered t [MAcc u v] = [v] /\ answered t [MRef u v] = [v]) by (intros v; unfold answered; cbn; by rewrite decide_True).
    destruct pc as [|v n|v n|v|v x|v q|v q]; cbn [current] in Heq.
    + destruct r as [|v r]; [by exists MIdle, []|]. exists (MCached v (m_next s)), r. split; [by apply Htt|done].
    + destruct (_ || _); [exists (MScan v n), r|exists (MAdd v), r]; (split; [by apply Htt|done]).
    + destruct (_ <? _); [exists MIdle, r|exists (MAdd v), r]; (split; [by apply Htt|]); [|done].
      cbn [m_log current]. rewrite Happ. destruct (Hone v) as [_ ->]. by rewrite <- app_assoc.
    + exists (MStore v (m_next s)), r. split; [by apply Htt|done].
    + exists (MSlot v (x + 1)), r. split; [by apply Htt|done].
    + exists (MPubl v q), r. split; [by apply Htt|done].
    + exists MIdle, r. split; [by apply Htt|]. cbn [m_log current]. rewrite Happ. destruct (Hone v) as [-> _]. by rewrite <- app_assoc.
  - exists pc, r. destruct pc' as [|v n|v n|v|v x|v q|v q]; [destruct r' as [|v r']|destruct (_ || _)|destruct (_ <? _)|..]; try done; (split; [by apply (Hut Hne)|]); try done.
    + cbn [m_log]. rewrite Happ. destruct (Hnil Hne v) as [_ ->]. by rewrite app_nil_r.
    + cbn [m_log]. rewrite Happ. destruct (Hnil Hne v) as [-> _]. by rewrite app_nil_r.
Qed.

(** A publication is refused only if some consumer has a whole ring of events still to release. *)
Theorem C151_refused_only_if_full : forall size ncons progs acts a t v, 0 < size -> no_overlap size (m_new ncons progs) (acts ++ [a]) ->
  let s := m_run size (m_new ncons progs) acts in m_log (m_step size s a) = m_log s ++ [MRef t v] ->
  exists c k, m_cons s !! c = Some k /\ Z.of_nat (length (published (m_log s))) = k_seq k + 1 + size.
Proof.
  intros size ncons progs acts a t v Hs Hn s Hlog. apply no_overlap_app in Hn as [Hn [Ha _]].
  pose proof (inv_run size _ acts Hs (inv_new size ncons progs Hs) Hn) as Hinv. fold s in Hinv, Ha. clearbody s.
  assert (Hx : forall (h : list mev) e, h <> h ++ [e]) by (intros h e H; apply (f_equal length) in H; rewrite app_length in H; cbn in H; lia).
  destruct a as [u|c]; [|exfalso; by eapply Hx]. cbn [m_step] in Hlog. unfold m_pub_step in Hlog.
  destruct (m_pub s !! u) as [[pc r]|] eqn:E; [|exfalso; by eapply Hx].
  destruct (inv_focus size s u Hinv (ex_intro _ _ E) Ha) as [_ Hcore].
  assert (Hpc : pc_of s u = pc) by (unfold pc_of; by rewrite E). rewrite Hpc in Hcore.
  destruct Hcore as [H1 H2 H3 H4 H5 H6 H7].
  destruct pc as [|v' n|v' n|v'|v' x|v' q|v' q]; [destruct r as [|v' r]|destruct (_ || _)|destruct (_ <? _) eqn:El|..]; cbn [m_goto m_log] in Hlog; try (exfalso; by eapply Hx).
  - cbn [pc_ok] in H3. destruct (m_min_spec n (m_cons s)) as (M1 & M2 & [M3|(c & k & Hk & M3)]).
    + lia.
    + exists c, k. split; [done|]. destruct (H6 c k Hk). lia.
  - apply app_inj_tail in Hlog as [_ Hlog]. done.
Qed.

(** Every call returns: a thread is through with all its calls after seven steps of its own for each, whatever the others do (also when calls overlap). *)
Definition stage (x : mpc * list Z) : nat :=
  7 * length (x.2) + match x.1 with MIdle => 0 | MCached _ _ => 6 | MScan _ _ => 5 | MAdd _ => 4 | MStore _ _ => 3 | MSlot _ _ => 2 | MPubl _ _ => 1 end.
Theorem C151_returns : forall size ncons progs acts t p, progs !! t = Some p -> (7 * length p <= pub_steps t acts)%nat ->
  m_pub (m_run size (m_new ncons progs) acts) !! t = Some (MIdle, []).
Proof.
  intros size ncons progs acts t p Hp.
  assert (Hgen : forall s x, m_pub s !! t = Some x -> (stage x <= pub_steps t acts)%nat -> m_pub (m_run size s acts) !! t = Some (MIdle, [])).
  { induction acts as [|a acts IH]; intros s x Hx Hl.
    - destruct x as [pc r]. unfold stage, pub_steps in Hl. cbn in Hl. destruct r as [|v r]; cbn in Hl; [|lia]. destruct pc; try lia. done.
    - rewrite m_run_cons. destruct a as [u|c].
      2: { apply (IH _ x); [done|]. done. }
      destruct (decide (u = t)) as [->|Hne].
      + assert (Hc : pub_steps t (MPub t :: acts) = S (pub_steps t acts)) by (unfold pub_steps; cbn [List.filter]; by rewrite bool_decide_eq_true_2).
        rewrite Hc in Hl. cbn [m_step]. unfold m_pub_step. rewrite Hx. destruct x as [pc r].
        assert (Hi : forall y, <[t := y]> (m_pub s) !! t = Some y) by (intros y; rewrite list_lookup_insert; [done|]; apply lookup_lt_is_Some; by eexists).
        unfold stage in Hl; cbn [fst snd] in Hl.
        destruct pc as [|v n|v n|v|v z|v q|v q]; [destruct r as [|v r]|destruct (_ || _)|destruct (_ <? _)|..];
          (eapply IH; [first [exact Hx|apply Hi]|]); unfold stage; cbn [fst snd length] in *; lia.
      + assert (Hc : pub_steps t (MPub u :: acts) = pub_steps t acts) by (unfold pub_steps; cbn [List.filter]; by rewrite bool_decide_eq_false_2).
        rewrite Hc in Hl. cbn [m_step]. unfold m_pub_step.
        assert (Hi : forall y, <[u := y]> (m_pub s) !! t = Some x) by (intros y; by rewrite list_lookup_insert_ne).
        destruct (m_pub s !! u) as [[pc r]|]; [|by apply (IH _ x)].
        destruct pc as [|v n|v n|v|v z|v q|v q]; [destruct r as [|v r]|destruct (_ || _)|destruct (_ <? _)|..]; (apply (IH _ x); [first [exact Hx|apply Hi]|done]). }
  intros Hl. apply (Hgen _ (MIdle, p)); [cbn; by rewrite list_lookup_fmap, Hp|]. unfold stage; cbn. lia.
Qed.

Local Arguments m_run : simpl never.
Local Arguments Z.modulo : simpl never.
Local Arguments Z.ltb : simpl never.
Local Arguments Z.sub : simpl never.
(** Refuted without the condition, for every ring size and every number of consumers: both calls publish, and the first event is never read by anybody. *)
Theorem C152_lost_refuted : forall size ncons v w, 1 <= size -> v <> w -> exists acts, let s := m_run size (m_new ncons [[v]; [w]]) acts in
  m_log s = [MAcc 0 v; MAcc 1 w] /\ (forall t, not_calling s t) /\ forall more c k, m_cons (m_run size s more) !! c = Some k -> (length (k_got k) <= 1)%nat /\ Some v ∉ k_got k.
Proof.
  intros size ncons v w Hs Hvw.
  exists (MPub <$> [0; 0; 0; 1; 1; 1; 0; 0; 0; 1; 1; 1]%nat). cbn zeta.
  assert (E1 : (-1 <? -1 + 1 - size) = false) by lia.
  assert (Hrun : m_run size (m_new ncons [[v]; [w]]) (MPub <$> [0; 0; 0; 1; 1; 1; 0; 0; 0; 1; 1; 1]%nat) =
    MSt 0 (-1) 0 (<[0 mod size := w]> (<[0 mod size := v]> ∅)) [(MIdle, []); (MIdle, [])] (replicate ncons (MC (-1) 0 None [])) [MAcc 0 v; MAcc 1 w]).
  { cbn [fmap list_fmap]. unfold m_new. cbn [fmap list_fmap].
    do 12 (rewrite m_run_cons; unfold m_step at 1, m_pub_step, m_goto, m_set; cbn [m_pub lookup list_lookup m_cached m_next m_cursor m_slots m_cons m_log]; rewrite ?E1; simpl).
    done. }
  rewrite Hrun. split; [done|]. split.
  { intros t pc r H. cbn in H. destruct t as [|[|t]]; cbn in H; [by injection H|by injection H|done]. }
  intros more c k Hk.
  assert (Hinv : forall s, m_pub s = [(MIdle, []); (MIdle, [])] -> m_cursor s = 0 -> m_slots s !! (0 mod size) = Some w ->
    (forall c k, m_cons s !! c = Some k -> (k_next k = 0 /\ k_got k = [] /\ (k_avail k = None \/ k_avail k = Some 0)) \/ (k_next k = 1 /\ k_got k = [Some w] /\ (k_avail k = None \/ k_avail k = Some 0))) ->
    forall c k, m_cons (m_run size s more) !! c = Some k -> (length (k_got k) <= 1)%nat /\ Some v ∉ k_got k).
  { clear Hk c k. induction more as [|a more IH]; intros s Hp Hc Hsl Hall c k Hk.
    - destruct (Hall c k Hk) as [(_ & -> & _)|(_ & -> & _)]; [split; [cbn; lia|apply not_elem_of_nil]|]. split; [done|]. rewrite elem_of_list_singleton. congruence.
    - rewrite m_run_cons in Hk. revert Hk. apply IH; clear IH.
      + destruct a as [[|[|t]]|d]; cbn [m_step]; unfold m_pub_step; rewrite ?Hp; done.
      + destruct a as [[|[|t]]|d]; cbn [m_step]; unfold m_pub_step; rewrite ?Hp; done.
      + destruct a as [[|[|t]]|d]; cbn [m_step]; unfold m_pub_step; rewrite ?Hp; done.
      + destruct a as [[|[|t]]|d]; cbn [m_step m_cons]; unfold m_pub_step; rewrite ?Hp; cbn; try done.
        intros c' k' Hk'. destruct (decide (c' = d)) as [->|Hne]; [|rewrite list_lookup_alter_ne in Hk' by done; eauto].
        rewrite list_lookup_alter in Hk'. destruct (m_cons s !! d) as [k0|] eqn:E; [|done]. cbn in Hk'. injection Hk' as <-.
        unfold m_cons_step. rewrite Hc.
        destruct (Hall d k0 E) as [(Hn & Hg & [Ha|Ha])|(Hn & Hg & [Ha|Ha])]; rewrite Ha, Hn; cbn.
        * left. rewrite Hg. auto.
        * right. rewrite Hg, Hsl. auto.
        * right. rewrite Hn, Hg, Ha. auto.
        * right. rewrite Hg. auto. }
  eapply Hinv; [..|exact Hk]; cbn [m_pub m_cursor m_slots m_cons].
  - done.
  - done.
  - by rewrite lookup_insert.
  - intros c' k' H'. apply lookup_replicate in H' as [-> _]. left. cbn. auto.
Qed.

(** Refuted without the condition, for every ring with at least two slots: a consumer is handed a slot nobody has written, and after both calls have returned the cursor says that one event was published. *)
Theorem C152_unwritten_refuted : forall size ncons v w, 2 <= size -> exists acts, let s := m_run size (m_new (S ncons) [[v]; [w]]) acts in
  m_log s = [MAcc 1 w; MAcc 0 v] /\ (forall t, not_calling s t) /\ m_cursor s = 0 /\ exists k, m_cons s !! 0%nat = Some k /\ k_got k = [None; Some w].
Proof.
  intros size ncons v w Hs.
  exists ((MPub <$> [0; 0; 0; 0; 1; 1; 1; 1; 1; 1]%nat) ++ [MCons 0; MCons 0; MCons 0; MPub 0; MPub 0]). cbn zeta.
  assert (E1 : (-1 <? -1 + 1 - size) = false) by lia.
  assert (E2 : (-1 <? -1 + 1 + 1 - size) = false) by lia.
  assert (M0 : 0 mod size = 0) by (apply Z.mod_small; lia). assert (M1 : 1 mod size = 1) by (apply Z.mod_small; lia).
  assert (Hrun : m_run size (m_new (S ncons) [[v]; [w]]) ((MPub <$> [0; 0; 0; 0; 1; 1; 1; 1; 1; 1]%nat) ++ [MCons 0; MCons 0; MCons 0; MPub 0; MPub 0]) =
    MSt 1 (-1) 0 (<[0 := v]> (<[1 := w]> ∅)) [(MIdle, []); (MIdle, [])] (MC (-1) 2 (Some 1) [None; Some w] :: replicate ncons (MC (-1) 0 None [])) [MAcc 1 w; MAcc 0 v]).
  { cbn [fmap list_fmap app]. unfold m_new. cbn [fmap list_fmap replicate].
    do 4 (rewrite m_run_cons; unfold m_step at 1, m_pub_step, m_goto, m_set; cbn [m_pub lookup list_lookup m_cached m_next m_cursor m_slots m_cons m_log]; rewrite ?E1, ?E2; simpl).
    do 6 (rewrite m_run_cons; unfold m_step at 1, m_pub_step, m_goto, m_set; cbn [m_pub lookup list_lookup m_cached m_next m_cursor m_slots m_cons m_log]; rewrite ?E1, ?E2; simpl).
    rewrite m_run_cons. unfold m_step at 1, m_cons_step. simpl.
    rewrite m_run_cons. unfold m_step at 1, m_cons_step. simpl.
    rewrite m_run_cons. unfold m_step at 1, m_cons_step. simpl.
    rewrite m_run_cons. unfold m_step at 1, m_pub_step, m_set. simpl.
    rewrite m_run_cons. unfold m_step at 1, m_pub_step, m_set. simpl. change (-1 + 1 + 1) with 1. change (-1 + 1) with 0. change (0 + 1) with 1. rewrite ?M0, ?M1.
    by rewrite lookup_insert_ne, lookup_empty, lookup_insert. }
  rewrite Hrun. split_and!; try done.
  - intros t pc r H. cbn in H. destruct t as [|[|t]]; cbn in H; [by injection H|by injection H|done].
  - by eexists.
Qed.

(** The hypotheses are met: two threads take turns on a ring of two slots, a full ring refuses one event, both consumers read the others. *)
Definition turns : list mact :=
  (MPub <$> replicate 6 0%nat) ++ (MPub <$> replicate 6 1%nat) ++ replicate 3 (MCons 0) ++ (MPub <$> replicate 3 0%nat) ++ replicate 9 (MCons 1) ++ replicate 2 (MCons 0) ++ (MPub <$> replicate 7 1%nat) ++ replicate 9 (MCons 1).
Definition idle_b (x : mpc * list Z) : bool := match x.1 with MIdle => true | _ => false end.
Fixpoint no_overlap_b (size : Z) (s : mst) (acts : list mact) : bool :=
  match acts with
  | [] => true
  | a :: acts' =>
      match a with MPub t => match m_pub s !! t with Some x => negb (idle_b x) | None => false end || forallb idle_b (m_pub s) | MCons _ => true end
      && no_overlap_b size (m_step size s a) acts'
  end.
Lemma no_overlap_b_ok size s acts : no_overlap_b size s acts = true -> no_overlap size s acts.
Proof.
  revert s. induction acts as [|a acts IH]; intros s H; [done|]. cbn [no_overlap_b] in H. apply andb_prop in H as [Ha H].
  split; [|by apply IH]. destruct a as [t|c]; [|done]. intros Hidle u pc r Hu. apply orb_prop in Ha as [Ha|Ha].
  - destruct (m_pub s !! t) as [[pc' r']|] eqn:E; [|done]. by rewrite (Hidle _ _ E) in Ha.
  - rewrite forallb_forall in Ha. specialize (Ha (pc, r)). unfold idle_b in Ha; cbn in Ha. destruct pc; try done; (assert (false = true); [|done]; apply Ha, elem_of_list_In; by eapply elem_of_list_lookup_2).
Qed.
Example C151_case : no_overlap 2 (m_new 2 [[10; 11]; [20; 21]]) turns.
Proof. apply no_overlap_b_ok. by vm_compute. Qed.
Example C151_case_log : let s := m_run 2 (m_new 2 [[10; 11]; [20; 21]]) turns in
  m_log s = [MAcc 0 10; MAcc 1 20; MRef 0 11; MAcc 1 21] /\ k_got <$> m_cons s = [[Some 10; Some 20]; [Some 10; Some 20; Some 21]].
Proof. by vm_compute. Qed.
