(** * C29: publications before start() and across restarts. *)
From stdpp Require Import prelude.
From Coq Require Import ZArith Lia ZifyBool.
From Verif Require Import Base MultiRing_Model MultiRing_Proofs EventLoop_Order EventLoopLife_Model.
Local Open Scope Z_scope.

(** ** Vocabulary: read off the log. *)
(** The loop is running after h (start() has returned, stop() has not). *)
Definition up_step (b : bool) (e : lev) : bool := match e with EStarted => true | EStopped => false | _ => b end.
Definition up (h : list lev) : bool := fold_left up_step h false.
(** Number of accepted publications. *)
Definition taken (h : list lev) : list Z := omap (fun e => match e with EAcc _ z => Some z | _ => None end) h.
(** Event q was handled. *)
Definition was_handled (q : Z) (h : list lev) : Prop := exists v, EHandle q v ∈ h.

(** ** Invariant. *)
(* PROOFS *)
Lemma up_snoc h e : up (h ++ [e]) = up_step (up h) e.
Proof. unfold up. by rewrite fold_left_app. Qed.
Lemma up_keep h h2 : up h = true -> EStopped ∉ h2 -> up (h ++ h2) = true.
Proof.
  intros H. induction h2 as [|e h2 IH] using rev_ind; intros Hn; [by rewrite app_nil_r|]. rewrite app_assoc, up_snoc, IH; [|intros Hx; apply Hn, elem_of_app; by left].
  destruct e; try done. exfalso. apply Hn, elem_of_app. right. left.
Qed.
Lemma taken_app a b : taken (a ++ b) = taken a ++ taken b.
Proof. apply omap_app. Qed.
(** Events that change nothing in what the log says about publications and handlings. *)
Definition plain (e : lev) : Prop := match e with ERef _ | EWarn _ | EStarted | EHalt => True | _ => False end.
Lemma acc_plain h w q z : Forall plain w -> EAcc q z ∈ h ++ w <-> EAcc q z ∈ h.
Proof. intros Hw. rewrite elem_of_app. split; [|by left]. intros [H|H]; [done|]. rewrite Forall_forall in Hw. by apply Hw in H. Qed.
Lemma hand_plain h w q z : Forall plain w -> EHandle q z ∈ h ++ w <-> EHandle q z ∈ h.
Proof. intros Hw. rewrite elem_of_app. split; [|by left]. intros [H|H]; [done|]. rewrite Forall_forall in Hw. by apply Hw in H. Qed.
Lemma split_plain h w h1 e h2 : Forall plain w -> ~ plain e -> h ++ w = h1 ++ e :: h2 -> exists h2', h2 = h2' ++ w /\ h = h1 ++ e :: h2'.
Proof.
  intros Hw He E. destruct (split_app _ _ _ _ _ E) as [[h2' ->]|(w1 & -> & ->)].
  - exists h2'. split; [|done]. rewrite <-app_assoc in E. apply app_inv_head in E. by injection E as <-.
  - exfalso. apply He. rewrite Forall_forall in Hw. apply Hw. apply elem_of_app. right. left.
Qed.
Record HInv (k : Z) (s : lst) : Prop := {
  n_acc : forall q z, EAcc q z ∈ l_log s -> 0 <= q <= l_cursor s;
  n_val : forall j, 0 <= j <= l_cursor s -> exists z, EAcc j z ∈ l_log s /\ forall z', EAcc j z' ∈ l_log s -> z' = z;
  n_hand : forall q v, EHandle q v ∈ l_log s -> 0 <= q < l_next s /\ q <= l_cursor s /\ exists z, EAcc q z ∈ l_log s /\ v = Some z;
  n_off : forall h1 q z h2, l_log s = h1 ++ EAcc q z :: h2 -> up h1 = false -> (forall v, EHandle q v ∉ l_log s) /\ (l_life s <> LOff -> q < l_next s);
  n_on : forall h1 q z h2, l_log s = h1 ++ EAcc q z :: h2 -> up h1 = true -> EStopped ∉ h2 -> q < l_next s -> was_handled q h2;
  n_lost : forall h1 h2, l_log s = h1 ++ EStopped :: h2 -> forall q z, EAcc q z ∈ h1 -> (forall v, EHandle q v ∉ h2) /\ (l_life s <> LOff -> q < l_next s);
  n_ord : forall h1 q v h2, l_log s = h1 ++ EHandle q v :: h2 -> forall q' v', EHandle q' v' ∈ h2 -> q < q'
}.
Record NInv (k : Z) (s : lst) : Prop := {
  f_cur : -1 <= l_cursor s /\ Z.of_nat (length (taken (l_log s))) = l_cursor s + 1;
  f_up : up (l_log s) = match l_life s with LOff => false | _ => true end;
  f_gate : l_gating s = 0%nat -> l_life s = LOff /\ EStarted ∉ l_log s /\ (forall z, ERef z ∉ l_log s);
  f_cache : l_gating s <> 0%nat -> l_cache s <= l_seq s /\ l_cursor s - rsize k <= l_seq s <= l_cursor s;
  f_cache0 : l_cache s <= l_cursor s;
  f_seq : l_gating s <> 0%nat -> l_seq s < l_next s /\ -1 <= l_seq s /\ match l_pc s with LWait => l_next s = l_seq s + 1 | LBatch a => l_life s <> LOff /\ l_next s <= a + 1 /\ a <= l_cursor s /\ l_seq s <= a end;
  f_pc : l_life s = LOff -> l_pc s = LWait;
  f_next : l_gating s = 0%nat -> l_next s = 0
}.
Definition SInv (k : Z) (s : lst) : Prop :=
  l_life s <> LOff -> forall j z, l_next s <= j <= l_cursor s -> EAcc j z ∈ l_log s -> l_slots s (ring_index k j) = Some z.
(** Nothing happens to publications and handlings; the position may jump to the end when the loop starts. *)
Lemma hinv_plain k s s' w : HInv k s -> l_log s' = l_log s ++ w -> Forall plain w -> l_cursor s' = l_cursor s ->
  ((l_next s' = l_next s /\ (l_life s' <> LOff -> l_life s <> LOff)) \/ (l_next s' = l_cursor s + 1 /\ up (l_log s) = false)) -> HInv k s'.
Proof.
  intros [A1 A2 A3 A4 A5 A6 A7] El Hw Ec Hn. 
  assert (Hmove : forall q z, EAcc q z ∈ l_log s -> (l_life s <> LOff -> q < l_next s) -> l_life s' <> LOff -> q < l_next s').
  { intros q z Hin Hq Hl. destruct Hn as [[-> Hx]|[-> _]]; [auto|]. specialize (A1 q z Hin). lia. }
  constructor; rewrite ?El, ?Ec.
  - intros q z H. apply acc_plain in H; [|done]. eauto.
  - intros j Hj. destruct (A2 j Hj) as (z & H1 & H2). exists z. split; [by apply acc_plain|]. intros z' H. apply acc_plain in H; [|done]. auto.
  - intros q v H. apply hand_plain in H; [|done]. destruct (A3 q v H) as (H1 & H2 & z & H3 & H4). split; [destruct Hn as [[-> _]|[-> _]]; lia|]. split; [done|]. exists z. split; [by apply acc_plain|done].
  - intros h1 q z h2 E Hup. apply split_plain in E as (h2' & -> & E); [|done|by intros []]. destruct (A4 _ _ _ _ E Hup) as [H1 H2]. split; [intros v H; apply hand_plain in H; [|done]; by eapply H1|].
    apply (Hmove q z); [|done]. rewrite E. apply elem_of_app. right. left.
  - intros h1 q z h2 E Hup Hs Hq. apply split_plain in E as (h2' & -> & E); [|done|by intros []].
    assert (Hs' : EStopped ∉ h2') by (intros Hx; apply Hs, elem_of_app; by left).
    destruct Hn as [[Hn _]|[Hn Hoff]].
    + rewrite Hn in Hq. destruct (A5 _ _ _ _ E Hup Hs' Hq) as [v Hv]. exists v. apply elem_of_app. by left.
    + exfalso. rewrite E in Hoff. rewrite (up_keep h1 (EAcc q z :: h2')) in Hoff; [done|done|]. intros Hx. apply elem_of_cons in Hx as [|]; done.
  - intros h1 h2 E q z Hin. apply split_plain in E as (h2' & -> & E); [|done|by intros []]. destruct (A6 _ _ E q z Hin) as [H1 H2].
    split; [intros v H; apply hand_plain in H; [|done]; by eapply H1|]. apply (Hmove q z); [|done]. rewrite E. apply elem_of_app. by left.
  - intros h1 q v h2 E q' v' Hin. apply split_plain in E as (h2' & -> & E); [|done|by intros []]. apply hand_plain in Hin; [|done]. by eapply A7.
Qed.
Lemma hinv_accept k s s' z : HInv k s -> NInv k s -> l_log s' = l_log s ++ [EAcc (l_cursor s + 1) z] -> l_cursor s' = l_cursor s + 1 -> l_next s' = l_next s -> l_life s' = l_life s -> HInv k s'.
Proof.
  intros [A1 A2 A3 A4 A5 A6 A7] [N1 N2 N3 N4 N5 N6 N7] El Ec En Ef.
  assert (Hin : forall q z', EAcc q z' ∈ l_log s ++ [EAcc (l_cursor s + 1) z] <-> EAcc q z' ∈ l_log s \/ (q = l_cursor s + 1 /\ z' = z)).
  { intros q z'. rewrite elem_of_app, elem_of_list_singleton. split; (intros [H|H]; [by left|right]); [by injection H|destruct H as [-> ->]; done]. }
  assert (Hh : forall q v, EHandle q v ∈ l_log s ++ [EAcc (l_cursor s + 1) z] <-> EHandle q v ∈ l_log s).
  { intros q v. rewrite elem_of_app, elem_of_list_singleton. split; [|by left]. by intros [H|H]. }
  constructor; rewrite ?El, ?Ec, ?En, ?Ef.
  - intros q z' H. apply Hin in H as [H|[-> _]]; [specialize (A1 q z' H)|]; lia.
  - intros j Hj. destruct (decide (j = l_cursor s + 1)) as [->|Hne].
    + exists z. split; [apply Hin; by right|]. intros z' H. apply Hin in H as [H|[_ ->]]; [specialize (A1 _ _ H); lia|done].
    + destruct (A2 j ltac:(lia)) as (y & H1 & H2). exists y. split; [apply Hin; by left|]. intros z' H. apply Hin in H as [H|[H _]]; [auto|lia].
  - intros q v H. apply Hh in H. destruct (A3 q v H) as (H1 & H2 & y & H3 & H4). split; [done|]. split; [lia|]. exists y. split; [apply Hin; by left|done].
  - intros h1 q y h2 E Hup. apply snoc_decomp in E as [(-> & -> & E)|(h2' & -> & E)].
    + injection E as -> ->. split; [intros v H; apply Hh, A3 in H as (_ & H & _); lia|]. intros Hl. exfalso. rewrite N2 in Hup. by destruct (l_life s).
    + destruct (A4 _ _ _ _ E Hup) as [H1 H2]. split; [|done]. intros v H. apply Hh in H. by eapply H1.
  - intros h1 q y h2 E Hup Hs Hq. apply snoc_decomp in E as [(-> & -> & E)|(h2' & -> & E)].
    + injection E as -> ->. exfalso. rewrite N2 in Hup. assert (Hl : l_life s <> LOff) by (by destruct (l_life s)).
      destruct (decide (l_gating s = 0%nat)) as [Hg|Hg]; [by destruct (N3 Hg)|]. specialize (N6 Hg). specialize (N4 Hg). destruct (l_pc s); lia.
    + destruct (A5 _ _ _ _ E Hup) as [v Hv]; [intros Hx; apply Hs, elem_of_app; by left|done|]. exists v. apply elem_of_app. by left.
  - intros h1 h2 E q y Hy. apply snoc_decomp in E as [(_ & _ & E)|(h2' & -> & E)]; [done|]. destruct (A6 _ _ E q y Hy) as [H1 H2]. split; [|done].
    intros v H. apply elem_of_app in H as [H|H%elem_of_list_singleton]; [by eapply H1|done].
  - intros h1 q v h2 E q' v' Hq. apply snoc_decomp in E as [(_ & _ & E)|(h2' & -> & E)]; [done|]. apply elem_of_app in Hq as [Hq|Hq%elem_of_list_singleton]; [by eapply A7|done].
Qed.
Lemma hinv_stopped k s s' : HInv k s -> l_log s' = l_log s ++ [EStopped] -> l_cursor s' = l_cursor s -> l_next s' = l_next s -> l_life s' = LOff -> HInv k s'.
Proof.
  intros [A1 A2 A3 A4 A5 A6 A7] El Ec En Ef.
  assert (Hin : forall q z', EAcc q z' ∈ l_log s ++ [EStopped] <-> EAcc q z' ∈ l_log s) by (intros; rewrite elem_of_app, elem_of_list_singleton; naive_solver).
  assert (Hh : forall q v, EHandle q v ∈ l_log s ++ [EStopped] <-> EHandle q v ∈ l_log s) by (intros; rewrite elem_of_app, elem_of_list_singleton; naive_solver).
  constructor; rewrite ?El, ?Ec, ?En, ?Ef.
  - intros q z H. apply Hin in H. eauto.
  - intros j Hj. destruct (A2 j Hj) as (z & H1 & H2). exists z. split; [by apply Hin|]. intros z' H. apply Hin in H. auto.
  - intros q v H. apply Hh in H. destruct (A3 q v H) as (H1 & H2 & z & H3 & H4). split; [done|]. split; [done|]. exists z. split; [by apply Hin|done].
  - intros h1 q z h2 E Hup. apply snoc_decomp in E as [(_ & _ & E)|(h2' & -> & E)]; [done|]. destruct (A4 _ _ _ _ E Hup) as [H1 H2]. split; [|done]. intros v H. apply Hh in H. by eapply H1.
  - intros h1 q z h2 E Hup Hs. apply snoc_decomp in E as [(_ & _ & E)|(h2' & -> & E)]; [done|]. exfalso. apply Hs, elem_of_app. right. left.
  - intros h1 h2 E q z Hq. apply snoc_decomp in E as [(-> & -> & E)|(h2' & -> & E)]; [split; [intros v; apply not_elem_of_nil|done]|].
    destruct (A6 _ _ E q z Hq) as [H1 H2]. split; [|done]. intros v H. apply elem_of_app in H as [H|H%elem_of_list_singleton]; [by eapply H1|done].
  - intros h1 q v h2 E q' v' Hq. apply snoc_decomp in E as [(_ & _ & E)|(h2' & -> & E)]; [done|]. apply elem_of_app in Hq as [Hq|Hq%elem_of_list_singleton]; [by eapply A7|done].
Qed.
Lemma hinv_handle k s s' v : HInv k s -> l_life s <> LOff -> l_log s' = l_log s ++ [EHandle (l_next s) v] -> 0 <= l_next s <= l_cursor s ->
  (forall z, EAcc (l_next s) z ∈ l_log s -> v = Some z) -> l_cursor s' = l_cursor s -> l_next s' = l_next s + 1 -> HInv k s'.
Proof.
  intros [A1 A2 A3 A4 A5 A6 A7] Hl El Hr Hv Ec En. set (w := EHandle (l_next s) v) in *.
  assert (Hin : forall q z', EAcc q z' ∈ l_log s ++ [w] <-> EAcc q z' ∈ l_log s) by (intros; rewrite elem_of_app, elem_of_list_singleton; unfold w; naive_solver).
  assert (Hh : forall h q v', EHandle q v' ∈ h ++ [w] <-> EHandle q v' ∈ h \/ (q = l_next s /\ v' = v)) by (intros; rewrite elem_of_app, elem_of_list_singleton; unfold w; naive_solver).
  constructor; rewrite ?El, ?Ec, ?En.
  - intros q z H. apply Hin in H. eauto.
  - intros j Hj. destruct (A2 j Hj) as (z & H1 & H2). exists z. split; [by apply Hin|]. intros z' H. apply Hin in H. auto.
  - intros q v' H. apply Hh in H as [H|[-> ->]].
    + destruct (A3 q v' H) as (H1 & H2 & z & H3 & H4). split; [lia|]. split; [done|]. exists z. split; [by apply Hin|done].
    + split; [lia|]. split; [lia|]. destruct (A2 (l_next s) ltac:(lia)) as (z & H1 & _). exists z. split; [by apply Hin|by apply Hv].
  - intros h1 q z h2 E Hup. apply snoc_decomp in E as [(_ & _ & E)|(h2' & -> & E)]; [done|]. destruct (A4 _ _ _ _ E Hup) as [H1 H2]. specialize (H2 Hl). split; [|intros _; lia].
    intros v' H. apply Hh in H as [H|[-> _]]; [by eapply H1|lia].
  - intros h1 q z h2 E Hup Hs Hq. apply snoc_decomp in E as [(_ & _ & E)|(h2' & -> & E)]; [done|]. destruct (decide (q = l_next s)) as [->|Hne]; [exists v; apply Hh; by right|].
    destruct (A5 _ _ _ _ E Hup) as [v' Hv']; [intros Hx; apply Hs, elem_of_app; by left|lia|]. exists v'. apply Hh. by left.
  - intros h1 h2 E q z Hq. apply snoc_decomp in E as [(_ & _ & E)|(h2' & -> & E)]; [done|]. destruct (A6 _ _ E q z Hq) as [H1 H2]. specialize (H2 Hl). split; [|intros _; lia].
    intros v' H. apply Hh in H as [H|[-> _]]; [by eapply H1|lia].
  - intros h1 q v' h2 E q' v'' Hq. apply snoc_decomp in E as [(-> & _ & E)|(h2' & -> & E)]; [by apply elem_of_nil in Hq|].
    apply Hh in Hq as [Hq|[-> _]]; [by eapply A7|]. destruct (A3 q v'); [|lia]. rewrite E. apply elem_of_app. right. left.
Qed.
Lemma taken_snoc h e : taken (h ++ [e]) = taken h ++ match e with EAcc _ z => [z] | _ => [] end.
Proof. rewrite taken_app. by destruct e. Qed.
Lemma not_in_snoc (h : list lev) e x : x ∉ h -> x <> e -> x ∉ h ++ [e].
Proof. intros H1 H2 [H|H%elem_of_list_singleton]%elem_of_app; done. Qed.
Definition LfInv (k : Z) (s : lst) : Prop := HInv k s /\ NInv k s /\ SInv k s.
Lemma lf_publish k s z : 1 <= k <= 30 -> LfInv k s -> LfInv k (l_publish k s z).
Proof.
  intros Hk (H & N & S). pose proof (rsize_pos k ltac:(lia)) as HN. unfold l_publish. pose proof N as [N1 N2 N3 N4 N5 N6 N7 N8].
  set (scan := (l_cache s <? l_cursor s + 1 - rsize k) || (l_cursor s <? l_cache s)).
  set (cache := if scan then l_min s else l_cache s).
  assert (Hcache : l_gating s <> 0%nat -> cache <= l_seq s) by (intros Hg; specialize (N4 Hg); unfold cache, l_min; destruct scan; [destruct (l_gating s); [done|]|]; lia).
  assert (Hcache0 : cache <= l_cursor s) by (unfold cache, l_min; destruct scan; [destruct (l_gating s)|]; lia).
  destruct (scan && (cache <? l_cursor s + 1 - rsize k)) eqn:Er.
  - apply andb_true_iff in Er as [Es Er]. split; [|split].
    + eapply hinv_plain; [exact H|reflexivity|by repeat constructor|done|by left].
    + constructor; cbn [l_cursor l_cache l_gating l_seq l_next l_life l_pc l_slots l_log]; rewrite ?taken_snoc, ?up_snoc, ?app_nil_r; try done.
      * intros Hg. exfalso. unfold cache, l_min in Er. rewrite Es, Hg in Er. lia.
      * intros Hg. specialize (N4 Hg). specialize (Hcache Hg). lia.
    + intros Hl j y Hj Hin. cbn in *. apply acc_plain in Hin; [|by repeat constructor]. by apply S.
  - assert (Hroom : l_cursor s + 1 - rsize k <= cache).
    { apply andb_false_iff in Er as [Es|Er]; [|lia]. unfold cache. rewrite Es. unfold scan in Es. apply orb_false_iff in Es as [Es _]. lia. }
    set (warn := match l_slots s (ring_index k (l_cursor s + 1)) with Some _ => [EWarn (l_cursor s + 1)] | None => [] end).
    assert (Hw : Forall plain warn) by (unfold warn; destruct (l_slots s _); by repeat constructor).
    assert (Hwt : taken (l_log s ++ warn) = taken (l_log s)) by (unfold warn; destruct (l_slots s _); rewrite ?taken_snoc, ?app_nil_r; done).
    assert (Hwu : up (l_log s ++ warn) = up (l_log s)) by (unfold warn; destruct (l_slots s _); rewrite ?up_snoc, ?app_nil_r; done).
    assert (Hwn : forall e, e <> EWarn (l_cursor s + 1) -> e ∉ l_log s -> e ∉ l_log s ++ warn) by (intros e He Hn; unfold warn; destruct (l_slots s _); rewrite ?app_nil_r; [by apply not_in_snoc|done]).
    set (s1 := Lst (l_cursor s) cache (l_gating s) (l_seq s) (l_next s) (l_life s) (l_pc s) (l_slots s) (l_log s ++ warn)).
    assert (H1 : HInv k s1) by (eapply hinv_plain; [exact H|reflexivity|done|done|by left]).
    assert (Nn1 : NInv k s1).
    { constructor; unfold s1; cbn [l_cursor l_cache l_gating l_seq l_next l_life l_pc l_slots l_log]; rewrite ?Hwt, ?Hwu; try done.
      - intros Hg. destruct (N3 Hg) as (B1 & B2 & B3). split; [done|]. split; [by apply Hwn|]. intros y. by apply Hwn.
      - intros Hg. specialize (N4 Hg). specialize (Hcache Hg). lia. }
    split; [|split].
    + eapply (hinv_accept k s1 _ z H1 Nn1); [|done..]. cbn. by rewrite app_assoc.
    + constructor; cbn [l_cursor l_cache l_gating l_seq l_next l_life l_pc l_slots l_log]; rewrite ?app_assoc, ?taken_snoc, ?up_snoc, ?Hwt, ?Hwu; try done.
      * rewrite app_length. cbn [length]. lia.
      * intros Hg. destruct (N3 Hg) as (B1 & B2 & B3). split; [done|]. split; [apply not_in_snoc; [by apply Hwn|done]|]. intros y. apply not_in_snoc; [by apply Hwn|done].
      * intros Hg. specialize (N4 Hg). specialize (Hcache Hg). lia.
      * lia.
      * intros Hg. specialize (N6 Hg). destruct (l_pc s); split_and!; try lia. apply N6.
    + intros Hl j y Hj Hin. cbn in *. rewrite app_assoc in Hin.
      assert (Hg : l_gating s <> 0%nat) by (intros Hg; by destruct (N3 Hg)). specialize (N4 Hg). specialize (N6 Hg). specialize (Hcache Hg).
      apply elem_of_app in Hin as [Hin|Hin].
      * apply acc_plain in Hin; [|done]. pose proof (n_acc _ _ H j y Hin). rewrite fupd_ne; [by apply S; [|lia|]|].
        rewrite !ring_index_mod by lia. intros Hx. apply mod_window in Hx; lia.
      * apply elem_of_list_singleton in Hin as [= -> ->]. by rewrite fupd_eq.
Qed.
(** One event is handled (the listeners may throw). *)
Definition l_handle (k : Z) (s : lst) (throws : bool) : lst :=
  let idx := ring_index k (l_next s) in
  let log := l_log s ++ [EHandle (l_next s) (l_slots s idx)] in
  if throws then Lst (l_cursor s) (l_cache s) (l_gating s) (l_next s) (l_next s + 1) (l_life s) LWait (l_slots s) log
  else Lst (l_cursor s) (l_cache s) (l_gating s) (l_seq s) (l_next s + 1) (l_life s) (l_pc s) (fupd (l_slots s) idx None) log.
Lemma lf_handle k s avail th : 1 <= k <= 30 -> LfInv k s -> l_life s <> LOff -> l_pc s = LBatch avail -> l_next s <= avail -> LfInv k (l_handle k s th).
Proof.
  intros Hk (H & N & S) Hl Ep Ha. pose proof N as [N1 N2 N3 N4 N5 N6 N7 N8]. pose proof (rsize_pos k ltac:(lia)) as HN.
  assert (Hg : l_gating s <> 0%nat) by (intros Hg; by destruct (N3 Hg)). specialize (N6 Hg). specialize (N4 Hg). rewrite Ep in N6.
  destruct N6 as (B1 & B2 & B3 & B4 & B5 & B6).
  assert (Hh : HInv k (l_handle k s th)).
  { eapply (hinv_handle k s _ (l_slots s (ring_index k (l_next s)))); [exact H|done| | | | |].
    - unfold l_handle. by destruct th.
    - lia.
    - intros z Hz. apply S; [done|lia|done].
    - unfold l_handle. by destruct th.
    - unfold l_handle. by destruct th. }
  split; [done|]. split.
  - constructor; unfold l_handle; destruct th; cbn [l_cursor l_cache l_gating l_seq l_next l_life l_pc l_slots l_log]; rewrite ?taken_snoc, ?up_snoc, ?app_nil_r; try done; try (intros; lia).
    all: intros _; rewrite ?Ep; split_and!; try lia; done.
  - intros _ j z Hj Hin. assert (Hin' : EAcc j z ∈ l_log s).
    { unfold l_handle in Hin. destruct th; cbn in Hin; apply elem_of_app in Hin as [Hin|Hin%elem_of_list_singleton]; done. }
    unfold l_handle in Hj |- *. destruct th; cbn in *; [apply S; [done|lia|done]|].
    rewrite fupd_ne; [apply S; [done|lia|done]|]. rewrite !ring_index_mod by lia. intros Hx. apply mod_window in Hx; lia.
Qed.
Lemma lf_step k s a : 1 <= k <= 30 -> LfInv k s -> LfInv k (l_step k s a).
Proof.
  intros Hk I. destruct a as [z| | |th]; [by apply lf_publish|..]; cbn [l_step]; destruct I as (H & N & S); pose proof N as [N1 N2 N3 N4 N5 N6 N7 N8].
  - destruct (l_life s) eqn:El; [|done..]. split; [|split].
    + eapply hinv_plain; [exact H|reflexivity|by repeat constructor|done|right]. done.
    + constructor; cbn [l_cursor l_cache l_gating l_seq l_next l_life l_pc l_slots l_log]; rewrite ?taken_snoc, ?up_snoc, ?app_nil_r; try done; try (intros; lia). pose proof (rsize_pos k ltac:(lia)). lia.
    + intros _ j z Hj Hin. cbn in *. lia.
  - destruct (l_life s) eqn:El; [done| |done]. split; [|split].
    + eapply hinv_plain; [exact H|reflexivity|by repeat constructor|done|left]. cbn. rewrite El. done.
    + constructor; cbn [l_cursor l_cache l_gating l_seq l_next l_life l_pc l_slots l_log]; rewrite ?taken_snoc, ?up_snoc, ?app_nil_r, ?N2; try done. intros Hg. destruct (N3 Hg) as (? & ?). done.
      intros Hg. specialize (N6 Hg). destruct (l_pc s); [done|]. by destruct N6 as (? & ? & _ & ?).
    + intros _ j z Hj Hin. cbn in *. apply acc_plain in Hin; [|by repeat constructor]. apply S; [by rewrite El|done..].
  - assert (Hg : l_life s <> LOff -> l_gating s <> 0%nat) by (intros Hl Hg; by destruct (N3 Hg)).
    destruct (l_life s) eqn:El; [done|..]; destruct (l_pc s) as [|avail] eqn:Ep; specialize (Hg ltac:(done)); specialize (N6 Hg); specialize (N4 Hg).
    all: try (destruct (Z.ltb_spec avail (l_next s))).
    + destruct (Z.ltb_spec (l_cursor s) (l_next s)); [done|]. split; [|split].
      * eapply (hinv_plain k s _ []); [exact H|by rewrite app_nil_r|done|done|left]. cbn. by rewrite El.
      * constructor; cbn [l_cursor l_cache l_gating l_seq l_next l_life l_pc l_slots l_log]; rewrite ?El; try done. intros _. split; [lia|]. split; [lia|]. split; [done|lia].
      * intros _ j z Hj Hin. cbn in *. apply S; [by rewrite El|done..].
    + split; [|split].
      * eapply (hinv_plain k s _ []); [exact H|by rewrite app_nil_r|done|done|left]. cbn. by rewrite El.
      * constructor; cbn [l_cursor l_cache l_gating l_seq l_next l_life l_pc l_slots l_log]; rewrite ?El; try done; intros _; split_and!; lia. 
      * intros _ j z Hj Hin. cbn in *. apply S; [by rewrite El|done..].
    + assert (Hx : LfInv k (l_handle k s th)) by (apply (lf_handle k s avail th); [done|by split_and!|by rewrite El|done|done]). unfold l_handle in Hx. rewrite El, Ep in Hx. exact Hx.
    + split; [|split].
      * eapply (hinv_stopped k s); [exact H|reflexivity|done..].
      * constructor; cbn [l_cursor l_cache l_gating l_seq l_next l_life l_pc l_slots l_log]; rewrite ?taken_snoc, ?up_snoc, ?app_nil_r; try done.
        all: intros _; split_and!; lia.
      * intros Hl. by cbn in Hl.
    + split; [|split].
      * eapply (hinv_plain k s _ []); [exact H|by rewrite app_nil_r|done|done|left]. cbn. by rewrite El.
      * constructor; cbn [l_cursor l_cache l_gating l_seq l_next l_life l_pc l_slots l_log]; rewrite ?El; try done; intros _; split_and!; lia.
      * intros _ j z Hj Hin. cbn in *. apply S; [by rewrite El|done..].
    + assert (Hx : LfInv k (l_handle k s th)) by (apply (lf_handle k s avail th); [done|by split_and!|by rewrite El|done|done]). unfold l_handle in Hx. rewrite El, Ep in Hx. exact Hx.
Qed.
Lemma lf_run k acts : 1 <= k <= 30 -> LfInv k (l_run k acts).
Proof.
  intros Hk. induction acts as [|a acts IH] using rev_ind.
  - unfold l_run. cbn. split; [|split].
    + constructor; cbn; intros; try lia; try (by apply elem_of_nil in H); try (by destruct h1).
    + constructor; cbn; intros; try done; try lia. repeat split; [apply not_elem_of_nil|intros; apply not_elem_of_nil].
    + intros Hl. by cbn in Hl.
  - unfold l_run in *. rewrite fold_left_app. cbn [fold_left]. by apply lf_step.
Qed.

(** * C29 *)
(** C29 as a user reads it: "every publication the loop accepts is handled" -- whether it is made before start(), while it runs, or between stop() and the
    next start(). The code does the opposite outside the running time: whatever the actions before and after, an event accepted while the loop is not running
    is never handled... *)
Theorem C29_not_running_never_handled k acts h1 q z h2 : 1 <= k <= 30 -> l_log (l_run k acts) = h1 ++ EAcc q z :: h2 -> up h1 = false -> ~ was_handled q (l_log (l_run k acts)).
Proof. intros Hk E Hup [v Hv]. destruct (lf_run k acts Hk) as (H & _ & _). by eapply (n_off _ _ H). Qed.
(** ... and what was accepted before a stop() and not handled when it returned is never handled after it. *)
Theorem C29_stop_drops_the_rest k acts h1 h2 q z : 1 <= k <= 30 -> l_log (l_run k acts) = h1 ++ EStopped :: h2 -> EAcc q z ∈ h1 -> ~ was_handled q h2.
Proof. intros Hk E Hin [v Hv]. destruct (lf_run k acts Hk) as (H & _ & _). by destruct (n_lost _ _ H _ _ E q z Hin) as [Hx _]; eapply Hx. Qed.
(** The part that holds: an event accepted while the loop runs is handled with its own data as soon as the loop has caught up, unless it was stopped before. *)
Theorem C29_running_is_handled k acts h1 q z h2 : 1 <= k <= 30 -> let s := l_run k acts in
  l_log s = h1 ++ EAcc q z :: h2 -> up h1 = true -> EStopped ∉ h2 -> l_cursor s < l_next s -> EHandle q (Some z) ∈ h2.
Proof.
  intros Hk s E Hup Hs Hc. destruct (lf_run k acts Hk) as (H & _ & _). fold s in H.
  assert (Hin : EAcc q z ∈ l_log s) by (rewrite E; apply elem_of_app; right; left). pose proof (n_acc _ _ H _ _ Hin) as Hr.
  destruct (n_on _ _ H _ _ _ _ E Hup Hs ltac:(lia)) as [v Hv].
  destruct (n_hand _ _ H q v) as (_ & _ & y & Hy & ->); [rewrite E; apply elem_of_app; right; right; done|].
  destruct (n_val _ _ H q Hr) as (x & _ & Hx). by rewrite (Hx y Hy), <-(Hx z Hin) in Hv.
Qed.
(** The loop catches up: from every reachable state in which it runs, enough undisturbed turns of its thread leave nothing unhandled. *)
Definition l_meas (s : lst) : Z :=
  let rem := 3 * (l_cursor s + 1 - l_next s) in
  match l_pc s with LWait => rem + 1 | LBatch a => if a <? l_next s then rem + 2 else rem end.
Lemma loop_turns k s n : 1 <= k <= 30 -> LfInv k s -> l_life s = LOn -> l_meas s <= Z.of_nat n ->
  exists m, let s' := fold_left (l_step k) (replicate m (LLoop false)) s in l_cursor s' < l_next s' /\ l_life s' = LOn.
Proof.
  intros Hk. revert s. induction n as [|n IH]; intros s I El Hn.
  - exists 0%nat. cbn. split; [|done]. unfold l_meas in Hn. destruct (l_pc s); [lia|]. destruct (Z.ltb_spec avail (l_next s)); [lia|].
    destruct I as (_ & N & _). destruct (f_seq _ _ N) as (_ & _ & Hx); [|lia]. intros Hg. destruct (f_gate _ _ N Hg). congruence.
  - destruct (decide (l_cursor s < l_next s)) as [Hd|Hd]; [exists 0%nat; cbn; done|].
    destruct (IH (l_step k s (LLoop false))) as (m & Hm); [by apply lf_step| | |].
    + cbn [l_step]. rewrite El. destruct (l_pc s); [destruct (_ <? _)|destruct (_ <? _)]; done.
    + unfold l_meas in *. cbn [l_step]. rewrite El. destruct (l_pc s) as [|a] eqn:Ep.
      * destruct (Z.ltb_spec (l_cursor s) (l_next s)); [lia|]. cbn. destruct (Z.ltb_spec (l_cursor s) (l_next s)); lia.
      * destruct (Z.ltb_spec a (l_next s)); cbn; [lia|]. destruct (Z.ltb_spec a (l_next s + 1)); lia.
    + exists (S m). exact Hm.
Qed.
Theorem C29_loop_catches_up k acts : 1 <= k <= 30 -> l_life (l_run k acts) = LOn ->
  exists m, let s := l_run k (acts ++ replicate m (LLoop false)) in l_cursor s < l_next s.
Proof.
  intros Hk El. destruct (loop_turns k (l_run k acts) (Z.to_nat (Z.max 0 (l_meas (l_run k acts)))) Hk (lf_run k acts Hk) El ltac:(lia)) as (m & Hm & _).
  exists m. unfold l_run. rewrite fold_left_app. exact Hm.
Qed.
(** Handled once, in the order of acceptance, over any number of restarts. *)
Theorem C29_handled_in_order k acts h1 q v h2 q' v' : 1 <= k <= 30 -> l_log (l_run k acts) = h1 ++ EHandle q v :: h2 -> EHandle q' v' ∈ h2 -> q < q'.
Proof. intros Hk E Hin. destruct (lf_run k acts Hk) as (H & _ & _). by eapply (n_ord _ _ H). Qed.
(** Before the first start() nothing is refused, however many publications there are: they overwrite each other. *)
Theorem C29_never_refused_before_start k acts z : 1 <= k <= 30 -> EStarted ∉ l_log (l_run k acts) -> ERef z ∉ l_log (l_run k acts).
Proof.
  intros Hk Hs. destruct (lf_run k acts Hk) as (_ & N & _). destruct (decide (l_gating (l_run k acts) = 0%nat)) as [Hg|Hg]; [by apply (f_gate _ _ N Hg)|].
  exfalso. apply Hg. clear Hg N. induction acts as [|a acts IH] using rev_ind; [done|].
  unfold l_run in *. rewrite fold_left_app in *. cbn [fold_left] in *. set (s := fold_left (l_step k) acts _) in *.
  assert (Hs' : EStarted ∉ l_log s).
  { intros Hx. apply Hs. destruct a; cbn [l_step]; unfold l_publish; repeat match goal with |- context [match ?b with _ => _ end] => destruct b end; cbn; rewrite ?elem_of_app; auto. }
  specialize (IH Hs'). destruct a; cbn [l_step] in *; [unfold l_publish; destruct (_ && _); done|..].
  - destruct (l_life s) eqn:El; [|done..]. exfalso. apply Hs. cbn. apply elem_of_app. right. left.
  - by destruct (l_life s).
  - destruct (l_life s), (l_pc s); try done; repeat destruct (_ <? _); try done; by destruct throws.
Qed.
(** Concrete cases. Two publications before start(), three while it runs (one being handled), stop with one unhandled, restart, one more. *)
Definition life_demo : list lact :=
  [LPublish 10; LPublish 11; LStart; LPublish 12; LPublish 13; LLoop false; LLoop false; LStop; LPublish 14; LLoop false; LLoop false; LLoop false; LPublish 15; LStart; LPublish 16; LLoop false; LLoop false; LLoop false].
Example life_demo_log : l_log (l_run 3 life_demo) =
  [EAcc 0 10; EAcc 1 11; EStarted; EAcc 2 12; EAcc 3 13; EHandle 2 (Some 12); EHalt; EAcc 4 14; EHandle 3 (Some 13); EStopped; EAcc 5 15; EStarted; EAcc 6 16; EHandle 6 (Some 16)].
Proof. reflexivity. Qed.
(** The full statement (every accepted event is handled once the loop runs and has caught up) is false of the code: 10, 11, 14 and 15 are lost. *)
Theorem C29_refuted : exists k acts q z, 1 <= k <= 30 /\ let s := l_run k acts in l_life s = LOn /\ l_cursor s < l_next s /\ EAcc q z ∈ l_log s /\ ~ was_handled q (l_log s).
Proof.
  exists 3, life_demo, 0, 10. split; [lia|]. split; [reflexivity|]. split; [reflexivity|]. split; [rewrite life_demo_log; left|].
  exact (C29_not_running_never_handled 3 life_demo [] 0 10 _ ltac:(lia) life_demo_log eq_refl).
Qed.
Example C29_running_case : EHandle 6 (Some 16) ∈ [EHandle 6 (Some 16)].
Proof.
  assert (Hn : EStopped ∉ [EHandle 6 (Some 16)]) by (intros H; apply elem_of_list_singleton in H; discriminate).
  exact (C29_running_is_handled 3 life_demo
    [EAcc 0 10; EAcc 1 11; EStarted; EAcc 2 12; EAcc 3 13; EHandle 2 (Some 12); EHalt; EAcc 4 14; EHandle 3 (Some 13); EStopped; EAcc 5 15; EStarted] 6 16 [EHandle 6 (Some 16)]
    ltac:(lia) life_demo_log eq_refl Hn eq_refl).
Qed.
(** Stopped after a first start: refused once the ring is full (size 2 here), never handled. *)
Example C29_refused_when_stopped : l_log (l_run 1 [LStart; LStop; LLoop false; LPublish 1; LPublish 2; LPublish 3]) = [EStarted; EHalt; EStopped; EAcc 0 1; EAcc 1 2; ERef 3].
Proof. reflexivity. Qed.
(** * C67: what the loop accepts while it runs is handled, with its data, if the loop is then left to run. *)
Lemma loop_log_on k s m : l_life s = LOn -> let s' := fold_left (l_step k) (replicate m (LLoop false)) s in exists w, l_log s' = l_log s ++ w /\ EStopped ∉ w.
Proof.
  revert s. induction m as [|m IH]; intros s El; [exists []; rewrite app_nil_r; split; [done|apply not_elem_of_nil]|].
  cbn [replicate fold_left]. assert (H1 : l_life (l_step k s (LLoop false)) = LOn /\ exists w, l_log (l_step k s (LLoop false)) = l_log s ++ w /\ EStopped ∉ w).
  { cbn [l_step]. rewrite El. destruct (l_pc s) as [|a]; destruct (_ <? _); cbn; (split; [done|]); try (exists []; rewrite app_nil_r; split; [done|apply not_elem_of_nil]).
    exists [EHandle (l_next s) (l_slots s (ring_index k (l_next s)))]. split; [done|]. intros H%elem_of_list_singleton. done. }
  destruct H1 as (E1 & w & Ew & Hw). destruct (IH _ E1) as (w' & Ew' & Hw'). exists (w ++ w'). rewrite Ew', Ew, app_assoc. split; [done|]. intros [H|H]%elem_of_app; done.
Qed.
Theorem C67_running_events_are_handled k acts h1 q z h2 : 1 <= k <= 30 -> l_life (l_run k acts) = LOn -> l_log (l_run k acts) = h1 ++ EAcc q z :: h2 -> up h1 = true -> EStopped ∉ h2 ->
  exists m h3, l_log (l_run k (acts ++ replicate m (LLoop false))) = h1 ++ EAcc q z :: h3 /\ EHandle q (Some z) ∈ h3.
Proof.
  intros Hk El E Hup Hs. destruct (C29_loop_catches_up k acts Hk El) as [m Hm]. destruct (loop_log_on k (l_run k acts) m El) as (w & Ew & Hw).
  assert (El' : l_log (l_run k (acts ++ replicate m (LLoop false))) = h1 ++ EAcc q z :: (h2 ++ w)).
  { unfold l_run at 1. rewrite fold_left_app. fold (l_run k acts). rewrite Ew, E, <-app_assoc. done. }
  exists m, (h2 ++ w). split; [done|]. eapply (C29_running_is_handled k _ h1 q z); [done|exact El'|done| |exact Hm]. intros [H|H]%elem_of_app; done.
Qed.
(** Nothing is handled that was not accepted, and with other data; nothing is handled twice, over all restarts. *)
Theorem C67_handled_was_accepted k acts q v : 1 <= k <= 30 -> EHandle q v ∈ l_log (l_run k acts) -> exists z, v = Some z /\ EAcc q z ∈ l_log (l_run k acts).
Proof. intros Hk Hin. destruct (lf_run k acts Hk) as (H & _ & _). destruct (n_hand _ _ H q v Hin) as (_ & _ & z & Hz & ->). eauto. Qed.
Example C67_case : l_life (l_run 3 [LPublish 1; LStart; LPublish 2; LPublish 3]) = LOn /\ l_log (l_run 3 [LPublish 1; LStart; LPublish 2; LPublish 3]) = [EAcc 0 1; EStarted] ++ EAcc 1 2 :: [EAcc 2 3] /\ up [EAcc 0 1; EStarted] = true.
Proof. split_and!; reflexivity. Qed.
Print Assumptions C29_not_running_never_handled.
Print Assumptions C29_stop_drops_the_rest.
Print Assumptions C29_running_is_handled.
Print Assumptions C29_loop_catches_up.
Print Assumptions C29_handled_in_order.
Print Assumptions C29_never_refused_before_start.
Print Assumptions C29_refuted.
Print Assumptions C67_running_events_are_handled.
Print Assumptions C67_handled_was_accepted.
