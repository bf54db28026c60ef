(** * The vector of consumer sequences: C149, C150. *)
From stdpp Require Import prelude.
From Verif Require Import GatingVec_Model GatingVec_Spec.
Local Open Scope Z_scope.

Arguments registered : simpl never.
Lemma registered_app a b : registered (a ++ b) = registered a ++ registered b.
Proof. unfold registered. apply omap_app. Qed.

Definition mono (before seqs : list Z) : Prop := length before = length seqs /\ forall i p q, before !! i = Some p -> seqs !! i = Some q -> p <= q.
Definition VecOK (start : option nat) (finish : option nat * nat) (cap : nat) (bufs : list (bool * list (option nat))) (added : list nat) : Prop :=
  finish = (start, length added) /\ v_alive start bufs = true /\
  (exists n, v_cells start bufs = (Some <$> added) ++ replicate n None /\ cap = (length added + n)%nat) /\ (start = None -> cap = 0%nat).
Definition filled (bufs : list (bool * list (option nat))) (b : nat) (added : list nat) (i : nat) (n : nat) : Prop :=
  bufs !! b = Some (true, (Some <$> (added ++ [i])) ++ replicate n None).
Definition stage (s : vst) (pc : vpc) : Prop :=
  let added := registered (v_log s) in
  match pc with
  | VAdd1 i | VAdd2 i _ | VAdd3 i => (i < length (v_seqs s))%nat /\ VecOK (v_start s) (v_finish s) (v_cap s) (v_bufs s) added
  | VAdd4 i => (i < length (v_seqs s))%nat /\ exists b n, v_start s = Some b /\ v_finish s = (Some b, length added) /\ filled (v_bufs s) b added i n /\ v_cap s = (length added + 1 + n)%nat
  | VNew i b n => (i < length (v_seqs s))%nat /\ n = length added /\ VecOK (v_start s) (v_finish s) (v_cap s) (v_bufs s) added /\ filled (v_bufs s) b added i (n - 1) /\ v_start s <> Some b
  | VSetS i b n => (i < length (v_seqs s))%nat /\ n = length added /\ filled (v_bufs s) b added i (n - 1)
  | VSetF i b n => (i < length (v_seqs s))%nat /\ n = length added /\ filled (v_bufs s) b added i (n - 1) /\ v_start s = Some b
  | VSetE i b n => (i < length (v_seqs s))%nat /\ n = length added /\ filled (v_bufs s) b added i (n - 1) /\ v_start s = Some b /\ v_finish s = (Some b, S n)
  | _ => False
  end.
Definition scanner_ok (start : option nat) (finish : option nat * nat) (seqs : list Z) (added : list nat) (pc : vpc) : Prop :=
  match pc with
  | VIdle => True
  | VScan1 m0 m before => m = m0 /\ mono before seqs
  | VScan2 m0 m before b => m = m0 /\ b = start /\ mono before seqs
  | VScan m0 m before b k e => b = start /\ e = finish /\ (k <= length added)%nat /\ mono before seqs /\ scan_ok (take k added) m0 m before seqs
  | _ => False
  end.
Record VInv (s : vst) : Prop := {
  vi_ub : v_ub s = false;
  vi_log : scans_ok (v_log s);
  vi_regs : Forall (fun i => (i < length (v_seqs s))%nat) (registered (v_log s));
  vi_vec : (VecOK (v_start s) (v_finish s) (v_cap s) (v_bufs s) (registered (v_log s)) /\
            Forall (scanner_ok (v_start s) (v_finish s) (v_seqs s) (registered (v_log s))) (v_thr s)) \/
           (exists t pc, v_thr s !! t = Some pc /\ stage s pc /\ forall u pc', u <> t -> v_thr s !! u = Some pc' -> pc' = VIdle)
}.

Lemma mono_refl l : mono l l.
Proof. split; [done|]. intros i p q H1 H2. rewrite H1 in H2. injection H2 as ->. lia. Qed.
Lemma mono_insert b l i q0 q : l !! i = Some q0 -> q0 <= q -> mono b l -> mono b (<[i := q]> l).
Proof.
  intros Hi Hq [H1 H2]. split; [by rewrite insert_length|]. intros j p p' Hp Hp'.
  apply list_lookup_insert_Some in Hp' as [(<- & <- & _)|[Hne Hx]]; [|by eapply H2]. specialize (H2 _ _ _ Hp Hi). lia.
Qed.
Lemma scan_ok_insert regs m0 r before l i q0 q : l !! i = Some q0 -> q0 <= q -> scan_ok regs m0 r before l -> scan_ok regs m0 r before (<[i := q]> l).
Proof.
  intros Hi Hq (H1 & H2 & H3). split; [done|]. split; [|done]. intros j p Hj Hp.
  apply list_lookup_insert_Some in Hp as [(<- & <- & _)|[Hne Hx]]; [|by eapply H2]. specialize (H2 _ _ Hj Hi). lia.
Qed.
Lemma scans_ok_snoc h e : scans_ok h -> (forall m0 r before after, e = VScanned m0 r before after -> scan_ok (registered h) m0 r before after) -> scans_ok (h ++ [e]).
Proof.
  intros H He h1 h2 m0 r before after E. destruct h2 as [|x h2 _] using rev_ind.
  - apply app_inj_tail in E as [<- ->]. by apply He.
  - rewrite app_comm_cons, app_assoc in E. apply app_inj_tail in E as [E _]. by eapply H.
Qed.
Lemma only_insert (l : list vpc) t pc : (forall u pc', u <> t -> l !! u = Some pc' -> pc' = VIdle) -> forall u pc', u <> t -> <[t := pc]> l !! u = Some pc' -> pc' = VIdle.
Proof. intros H u pc' Hu Hl. rewrite list_lookup_insert_ne in Hl by done. by eapply H. Qed.
Lemma only_idle (P : vpc -> Prop) (l : list vpc) t : P VIdle -> (forall u pc', u <> t -> l !! u = Some pc' -> pc' = VIdle) -> Forall P (<[t := VIdle]> l).
Proof.
  intros HP H. apply Forall_lookup. intros u pc Hu. apply list_lookup_insert_Some in Hu as [(_ & <- & _)|[Hne Hx]]; [done|]. by rewrite (H u pc).
Qed.
Lemma filled_vec s b added i n : v_start s = Some b -> filled (v_bufs s) b added i n ->
  VecOK (Some b) (Some b, length (added ++ [i])) (length added + 1 + n) (v_bufs s) (added ++ [i]).
Proof.
  intros Hs Hf. unfold filled in Hf. split; [done|]. split; [cbn; by rewrite Hf|]. split; [|done].
  exists n. cbn. rewrite Hf. split; [done|]. rewrite app_length. cbn. lia.
Qed.

Lemma vi_step s a : VInv s -> (match a with VBegin _ (OAdd _) => all_idle s | VBegin _ (OScan _) => none_adding s | _ => True end) -> VInv (v_step s a).
Proof.
  intros [Hub Hlog Hreg Hvec] Hc. unfold v_step. rewrite Hub. destruct a as [t o|t|i q|q].
  - destruct (v_thr s !! t) as [pc|] eqn:Et; [|by constructor]. destruct pc; try by constructor. constructor; cbn [v_ub v_log v_seqs v_thr v_bufs v_start v_finish v_cap]; try done.
    destruct o as [i|m].
    + unfold all_idle in Hc. rewrite Forall_lookup in Hc.
      assert (HV : VecOK (v_start s) (v_finish s) (v_cap s) (v_bufs s) (registered (v_log s))).
      { destruct Hvec as [[HV _]|(u & pc & Hu & Hs & _)]; [done|]. by rewrite (Hc u pc Hu) in Hs. }
      destruct (Nat.ltb_spec i (length (v_seqs s))) as [Hi|Hi].
      * right. exists t, (VAdd1 i). split; [apply list_lookup_insert; by eapply lookup_lt_Some|]. split; [by split|].
        apply only_insert. intros u pc' _ Hu. by eapply Hc.
      * left. split; [done|]. apply only_idle; [done|]. intros u pc' _ Hu. by eapply Hc.
    + destruct Hvec as [[HV HF]|(u & pc & Hu & Hs & _)].
      * left. split; [done|]. apply Forall_insert; [done|]. split; [done|]. apply mono_refl.
      * exfalso. unfold none_adding in Hc. rewrite Forall_lookup in Hc. specialize (Hc u pc Hu). by destruct pc.
  - destruct (v_thr s !! t) as [pc|] eqn:Et; [|by constructor]. assert (Hlt := lookup_lt_Some _ _ _ Et).
    destruct Hvec as [[HV HF]|(u & pc' & Hu & Hs & Ho)].
    + (* scanners *)
      assert (Hp : scanner_ok (v_start s) (v_finish s) (v_seqs s) (registered (v_log s)) pc) by (rewrite Forall_lookup in HF; by eapply HF).
      destruct pc as [ | | | | | | | | |m0 m before|m0 m before b|m0 m before b k e]; cbn [scanner_ok] in Hp; try done; cbn [v_step1].
      * constructor; try done. by left.
      * destruct Hp as [-> Hm]. constructor; cbn; try done. left. split; [done|]. apply Forall_insert; [done|]. by split.
      * destruct Hp as (-> & -> & Hm). constructor; cbn; try done. left. split; [done|]. apply Forall_insert; [done|].
        split_and!; try done; [lia|]. split; [lia|]. split; [|by left]. intros i q Hi. by apply elem_of_nil in Hi.
      * destruct Hp as (-> & -> & Hk & Hm & Hsc). destruct HV as (Hfin & Hal & (n & Hcells & Hcap) & Hnone). rewrite Hfin. case_decide as Hd.
        -- injection Hd as ->. rewrite firstn_all in Hsc. constructor; cbn; try done.
           ++ apply scans_ok_snoc; [done|]. intros m1 r b1 a1 [= <- <- <- <-]. done.
           ++ rewrite registered_app. cbn. by rewrite app_nil_r.
           ++ rewrite registered_app. cbn. rewrite app_nil_r. left. rewrite <- Hfin. split; [split; [done|]; split; [done|]; split; [by exists n|done]|].
              apply Forall_insert; [done|]. done.
        -- assert (Hlk : (k < length (registered (v_log s)))%nat).
           { assert (k <> length (registered (v_log s))) by congruence. lia. }
           destruct (lookup_lt_is_Some_2 _ _ Hlk) as [i Hi].
           assert (Hrd : v_read (v_bufs s) (v_start s) k = Some i).
           { unfold v_read. destruct (v_start s) as [b|] eqn:Es.
             - unfold v_cells in Hcells. unfold v_alive in Hal. destruct (v_bufs s !! b) as [[al cs]|] eqn:Eb; [|done]. subst al cs.
               rewrite lookup_app_l by (by rewrite fmap_length). by rewrite list_lookup_fmap, Hi.
             - exfalso. cbn in Hcells. destruct (registered (v_log s)); cbn in *; [lia|done]. }
           rewrite Hrd. constructor; cbn; try done. left. split; [by split; [|split; [|split; [by exists n|]]]|].
           rewrite <- Hfin. apply Forall_insert; [by rewrite Hfin in *|].
           assert (Hil : (i < length (v_seqs s))%nat) by (rewrite Forall_lookup in Hreg; by eapply Hreg).
           destruct (lookup_lt_is_Some_2 _ _ Hil) as [q Hq]. rewrite Hq. change (default 0 (Some q)) with q.
           split_and!; try done. rewrite (take_S_r _ _ i) by done. destruct Hsc as (S1 & S2 & S3).
           destruct Hm as [Hml Hmm]. destruct (lookup_lt_is_Some_2 before i) as [p Hp]; [lia|]. specialize (Hmm _ _ _ Hp Hq).
           destruct (Z.ltb_spec q m) as [Hqm|Hqm].
           ++ split; [lia|]. split.
              ** intros j q' Hj Hq'. apply elem_of_app in Hj as [Hj|Hj]; [specialize (S2 _ _ Hj Hq'); lia|].
                 apply elem_of_list_singleton in Hj as ->. rewrite Hq in Hq'. injection Hq' as ->. lia.
              ** right. exists i, p. split; [apply elem_of_app; right; constructor|]. done.
           ++ split; [lia|]. split.
              ** intros j q' Hj Hq'. apply elem_of_app in Hj as [Hj|Hj]; [specialize (S2 _ _ Hj Hq'); lia|].
                 apply elem_of_list_singleton in Hj as ->. rewrite Hq in Hq'. injection Hq' as ->. lia.
              ** destruct S3 as [->|(j & p' & J1 & J2 & J3)]; [by left|]. right. exists j, p'. split; [apply elem_of_app; by left|done].
    + destruct (decide (u = t)) as [->|Hne].
      2:{ rewrite (Ho t pc) by done. constructor; try done. right. by exists u, pc'. }
      rewrite Hu in Et. injection Et as ->.
      destruct pc as [ |i|i c|i|i|i b n|i b n|i b n|i b n| | | ]; cbn [stage] in Hs; try done; cbn [v_step1].
      * constructor; cbn; try done. right. exists t, (VAdd2 i (v_cursor s)). split; [by apply list_lookup_insert|]. split; [done|]. by apply only_insert.
      * destruct Hs as [Hi HV]. constructor; cbn; try done; [by rewrite insert_length|]. right. exists t, (VAdd3 i). split; [by apply list_lookup_insert|].
        split; [cbn; by rewrite insert_length|]. by apply only_insert.
      * destruct Hs as [Hi HV]. pose proof HV as (Hfin & Hal & (n & Hcells & Hcap) & Hnone). rewrite Hfin, Hcap, Hal. cbn [snd].
        case_decide as Hd.
        -- constructor; cbn; try done. right. eexists t, _. split; [by apply list_lookup_insert|]. split; [|by apply only_insert].
           assert (n = 0%nat) as -> by lia. rewrite app_nil_r in Hcells.
           split; [done|]. split; [done|]. split; [|split].
           ++ rewrite <- Hfin, <- Hcap. unfold VecOK. cbn. split; [done|].
              assert (Hb : forall b, v_start s = Some b -> (v_bufs s ++ [(true, take (length (registered (v_log s))) (v_cells (v_start s) (v_bufs s)) ++ [Some i] ++ replicate (length (registered (v_log s)) - 1) None)]) !! b = v_bufs s !! b).
              { intros b Hb. rewrite Hb in Hal. cbn in Hal. destruct (v_bufs s !! b) eqn:Eb; [|done]. rewrite lookup_app_l; [done|by eapply lookup_lt_Some]. }
              destruct (v_start s) as [b|] eqn:Es.
              ** cbn in *. specialize (Hb b eq_refl). cbn in Hb. rewrite Hb. split; [done|]. split; [|done]. exists 0%nat. rewrite app_nil_r. split; [done|lia].
              ** cbn in *. split; [done|]. split; [|done]. exists 0%nat. rewrite app_nil_r. split; [done|lia].
           ++ unfold filled. cbn. rewrite lookup_app_r, Nat.sub_diag by lia. cbn. rewrite Hcells. do 2 f_equal.
              rewrite take_ge by (by rewrite fmap_length). rewrite fmap_app. cbn. by rewrite <- app_assoc.
           ++ cbn. intros Hb. rewrite Hb in Hal. cbn in Hal. by rewrite lookup_ge_None_2 in Hal.
        -- destruct (v_start s) as [b|] eqn:Es; [|specialize (Hnone eq_refl); lia]. cbn in Hal, Hcells.
           destruct (v_bufs s !! b) as [[al cs]|] eqn:Eb; [|done]. subst al cs.
           destruct n as [|n]; [lia|].
           assert (Hl : length ((Some <$> registered (v_log s)) ++ replicate (S n) None) = (length (registered (v_log s)) + S n)%nat) by (by rewrite app_length, fmap_length, replicate_length).
           rewrite Hl. destruct (Nat.ltb_spec (length (registered (v_log s))) (length (registered (v_log s)) + S n)); [|lia].
           constructor; cbn [v_ub v_log v_seqs v_thr v_bufs v_start v_finish v_cap]; try done. right. exists t, (VAdd4 i). split; [by apply list_lookup_insert|]. split; [|by apply only_insert].
           cbn [stage v_ub v_log v_seqs v_thr v_bufs v_start v_finish v_cap]. split; [done|]. exists b, n. split; [done|]. split; [done|]. split; [|lia].
           unfold filled. rewrite list_lookup_insert by (by eapply lookup_lt_Some). do 2 f_equal.
           rewrite insert_app_r_alt by (by rewrite fmap_length). rewrite fmap_length, Nat.sub_diag. cbn [replicate]. cbn. rewrite fmap_app, <- app_assoc. done.
      * destruct Hs as (Hi & b & n & Hst & Hfin & Hf & Hcap). constructor; cbn; try done.
        -- apply scans_ok_snoc; [done|]. by intros.
        -- rewrite registered_app. cbn. apply Forall_app. split; [done|]. by repeat constructor.
        -- left. rewrite registered_app. cbn. rewrite Hst, Hfin, Hcap. cbn [fst snd]. split; [|apply only_idle; [done|exact Ho]].
           assert (Hx := filled_vec s b _ i n Hst Hf). rewrite app_length in Hx. cbn in Hx.
           replace (S (length (registered (v_log s)))) with (length (registered (v_log s)) + 1)%nat by lia. done.
      * destruct Hs as (Hi & -> & HV & Hf & Hne). pose proof HV as (Hfin & Hal & (n & Hcells & Hcap) & Hnone). rewrite Hal. constructor; cbn; try done. right.
        eexists t, _. split; [by apply list_lookup_insert|]. split; [|by apply only_insert]. split; [done|]. split; [done|].
        unfold filled in *. cbn. unfold v_free. destruct (v_start s) as [b'|]; [|done]. rewrite list_lookup_alter_ne by congruence. done.
      * destruct Hs as (Hi & -> & Hf). constructor; cbn; try done. right. eexists t, _. split; [by apply list_lookup_insert|]. split; [|by apply only_insert].
        split; [done|]. split; [done|]. done.
      * destruct Hs as (Hi & -> & Hf & Hst). constructor; cbn; try done. right. eexists t, _. split; [by apply list_lookup_insert|]. split; [|by apply only_insert].
        split; [done|]. split; [done|]. done.
      * destruct Hs as (Hi & -> & Hf & Hst & Hfin). constructor; cbn; try done.
        -- apply scans_ok_snoc; [done|]. by intros.
        -- rewrite registered_app. cbn. apply Forall_app. split; [done|]. by repeat constructor.
        -- left. rewrite registered_app. cbn. rewrite Hst, Hfin. split; [|apply only_idle; [done|exact Ho]].
           assert (Hx := filled_vec s b _ i _ Hst Hf). rewrite app_length in Hx. cbn in Hx.
           replace (S (length (registered (v_log s)))) with (length (registered (v_log s)) + 1)%nat by lia. done.
  - destruct (v_seqs s !! i) as [q0|] eqn:Ei; [|by constructor]. case_decide as Hq; [|by constructor].
    constructor; cbn; try done; [by rewrite insert_length|]. destruct Hvec as [[HV HF]|(u & pc' & Hu & Hs & Ho)].
    + left. split; [done|]. eapply Forall_impl; [exact HF|]. intros pc Hp. destruct pc; cbn in *; try done.
      * destruct Hp as [-> Hm]. split; [done|]. by eapply mono_insert.
      * destruct Hp as (-> & -> & Hm). split; [done|]. split; [done|]. by eapply mono_insert.
      * destruct Hp as (-> & -> & Hk & Hm & Hsc). split_and!; try done; [by eapply mono_insert|by eapply scan_ok_insert].
    + right. exists u, pc'. split; [done|]. split; [|done]. destruct pc'; cbn in *; rewrite ?insert_length; done.
  - by constructor.
Qed.
Lemma vi_new n c : VInv (v_new n c).
Proof.
  constructor.
  - done.
  - intros h1 h2 m0 r b a E. by destruct h1.
  - constructor.
  - left. split; [|by apply Forall_replicate]. split; [done|]. split; [done|]. split; [by exists 0%nat|done].
Qed.
Lemma vi_run s acts : VInv s -> calm_starts s acts -> VInv (v_run s acts).
Proof. revert s. induction acts as [|a acts IH]; intros s H Hc; [done|]. destruct Hc as [H1 H2]. apply IH; [by apply vi_step|done]. Qed.

(** ** C149. With consumers started one at a time while nobody publishes: no access to memory that is gone, and every scan takes every registered consumer into account. *)
Theorem C149_scans n c acts : calm_starts (v_new n c) acts -> let s := v_run (v_new n c) acts in v_ub s = false /\ scans_ok (v_log s).
Proof. intros H s. destruct (vi_run _ _ (vi_new n c) H) as [H1 H2 _ _]. done. Qed.
Print Assumptions C149_scans.

(** Two publishing threads and three consumers; the second consumer is started between publications, the first is restarted, scans and consumers overlap. *)
Definition scan_steps (t k : nat) : list vact := replicate (3 + k) (VStep t).
Definition calm_demo : list vact :=
  [VBegin 0 (OAdd 0)] ++ replicate 7 (VStep 0) ++ [VConsume 0 4; VCursor 5; VBegin 0 (OAdd 1)] ++ replicate 7 (VStep 0) ++ [VBegin 0 (OAdd 0)] ++ replicate 7 (VStep 0) ++
  [VBegin 1 (OScan 9); VBegin 2 (OScan 8); VStep 1; VStep 1; VStep 1; VConsume 1 7; VConsume 0 6] ++ scan_steps 1 2 ++ scan_steps 2 3.
Fixpoint calm_startsb (s : vst) (acts : list vact) : bool :=
  match acts with
  | [] => true
  | a :: acts' => (match a with VBegin _ (OAdd _) => forallb (fun pc => match pc with VIdle => true | _ => false end) (v_thr s)
                              | VBegin _ (OScan _) => forallb (fun pc => negb (adding pc)) (v_thr s) | _ => true end) && calm_startsb (v_step s a) acts'
  end.
Lemma calm_startsb_ok acts : forall s, calm_startsb s acts = true -> calm_starts s acts.
Proof.
  induction acts as [|a acts IH]; intros s H; [done|]. cbn [calm_startsb] in H. apply andb_true_iff in H as [H1 H2]. split; [|by apply IH].
  destruct a as [t [i|m]| | |]; [| |done..]; rewrite forallb_forall in H1; unfold all_idle, none_adding; apply Forall_forall; intros pc Hpc; apply elem_of_list_In in Hpc; specialize (H1 pc Hpc).
  - by destruct pc.
  - by destruct (adding pc).
Qed.
Example C149_case : calm_starts (v_new 3 2) calm_demo /\
  v_log (v_run (v_new 3 2) calm_demo) = [VAdded 0; VAdded 1; VAdded 0; VScanned 9 5 [5; 5] [6; 7]; VScanned 8 6 [5; 5] [6; 7]].
Proof. split; [apply calm_startsb_ok; by vm_compute|by vm_compute]. Qed.

(** ** C150. A consumer that is started while another thread publishes, or together with another one. *)
Definition C150_statement : Prop := forall n c acts, let s := v_run (v_new n c) acts in v_ub s = false /\ scans_ok (v_log s).
(** Whenever the vector is full (after the first, second, fourth, ... registration), starting one more consumer frees the memory that a publishing thread is reading:
    from every state reached by calm starts in which it is full, for any two threads. *)
Lemma v_sizes s a : length (v_thr (v_step s a)) = length (v_thr s) /\ length (v_seqs (v_step s a)) = length (v_seqs s).
Proof. unfold v_step, v_step1. repeat (case_match; cbn [v_thr v_seqs]; rewrite ?insert_length; try done). Qed.
Lemma v_sizes_run acts : forall s, length (v_thr (v_run s acts)) = length (v_thr s) /\ length (v_seqs (v_run s acts)) = length (v_seqs s).
Proof.
  induction acts as [|a acts IH]; intros s; [done|]. change (v_run s (a :: acts)) with (v_run (v_step s a) acts).
  destruct (IH (v_step s a)) as [-> ->]. apply v_sizes.
Qed.
Lemma v_begin s t o : v_ub s = false -> v_thr s !! t = Some VIdle ->
  v_step s (VBegin t o) = Vst (v_cursor s) (v_seqs s) (v_bufs s) (v_start s) (v_finish s) (v_cap s)
    (<[t := match o with OAdd i => if (i <? length (v_seqs s))%nat then VAdd1 i else VIdle | OScan m => VScan1 m m (v_seqs s) end]> (v_thr s)) (v_ub s) (v_log s).
Proof. intros H1 H2. unfold v_step. by rewrite H1, H2. Qed.
Lemma v_go s t pc : v_ub s = false -> v_thr s !! t = Some pc -> v_step s (VStep t) = v_step1 s t pc.
Proof. intros H1 H2. unfold v_step. by rewrite H1, H2. Qed.
Lemma v_run_cons s a l : v_run s (a :: l) = v_run (v_step s a) l.
Proof. reflexivity. Qed.
Ltac nx := rewrite v_run_cons.
Theorem C150_start_while_publishing_refuted n c acts t u i m :
  calm_starts (v_new n c) acts -> let s := v_run (v_new n c) acts in
  all_idle s -> registered (v_log s) <> [] -> v_cap s = length (registered (v_log s)) -> (t < n)%nat -> (u < n)%nat -> t <> u -> (i < c)%nat ->
  v_ub (v_run s ([VBegin t (OScan m); VStep t; VStep t; VBegin u (OAdd i)] ++ replicate 4 (VStep u) ++ [VStep t])) = true.
Proof.
  intros Hc s Hidle Hreg Hcap Ht Hu Htu Hi.
  destruct (vi_run _ _ (vi_new n c) Hc) as [Hub _ _ Hvec]. fold s in Hub, Hvec.
  destruct (v_sizes_run acts (v_new n c)) as [Hn Hl]. fold s in Hn, Hl. cbn [v_new v_thr v_seqs] in Hn, Hl. rewrite replicate_length in Hn. rewrite replicate_length in Hl.
  unfold all_idle in Hidle. rewrite Forall_lookup in Hidle.
  destruct Hvec as [[HV _]|(w & pc & Hw & Hs & _)]; [|by rewrite (Hidle w pc Hw) in Hs].
  assert (Tt : v_thr s !! t = Some VIdle).
  { destruct (lookup_lt_is_Some_2 (v_thr s) t) as [pc Hpc]; [lia|]. by rewrite (Hidle t pc Hpc) in Hpc. }
  assert (Tu : v_thr s !! u = Some VIdle).
  { destruct (lookup_lt_is_Some_2 (v_thr s) u) as [pc Hpc]; [lia|]. by rewrite (Hidle u pc Hpc) in Hpc. }
  clear Hc. clearbody s. destruct HV as (Hfin & Hal & (k & Hcells & Hcap') & Hnone).
  destruct s as [cur seqs bufs start fin cap thr ub lg]. cbn [v_cursor v_seqs v_bufs v_start v_finish v_cap v_thr v_ub v_log] in *. subst ub fin cap.
  destruct start as [b|]; [|cbn in Hcells; destruct (registered lg); done]. cbn in Hal.
  destruct (bufs !! b) as [[al cells]|] eqn:Eb; [|done]. subst al.
  set (added := registered lg) in *.
  cbn [app replicate].
  assert (Lt := lookup_lt_Some _ _ _ Tt). assert (Lu := lookup_lt_Some _ _ _ Tu).
  nx. rewrite (v_begin _ t); [|done|exact Tt]. cbn [v_cursor v_seqs v_bufs v_start v_finish v_cap v_thr v_ub v_log].
  nx. erewrite v_go; [|done|cbn [v_thr]; by apply list_lookup_insert]. cbn [v_step1 v_cursor v_seqs v_bufs v_start v_finish v_cap v_thr v_ub v_log]. rewrite list_insert_insert.
  nx. erewrite v_go; [|done|cbn [v_thr]; by apply list_lookup_insert]. cbn [v_step1 v_cursor v_seqs v_bufs v_start v_finish v_cap v_thr v_ub v_log]. rewrite list_insert_insert.
  set (T := <[t := _]> thr).
  assert (TT : T !! t = Some (VScan m m seqs (Some b) 0 (Some b, length added))) by (by apply list_lookup_insert).
  assert (TU : T !! u = Some VIdle) by (unfold T; by rewrite list_lookup_insert_ne).
  assert (LU : (u < length T)%nat) by (unfold T; by rewrite insert_length).
  clearbody T.
  nx. rewrite (v_begin _ u); [|done|exact TU]. cbn [v_cursor v_seqs v_bufs v_start v_finish v_cap v_thr v_ub v_log].
  destruct (Nat.ltb_spec i (length seqs)); [|lia].
  nx. erewrite v_go; [|done|cbn [v_thr]; by apply list_lookup_insert]. cbn [v_step1 v_cursor v_seqs v_bufs v_start v_finish v_cap v_thr v_ub v_log]. rewrite list_insert_insert.
  nx. erewrite v_go; [|done|cbn [v_thr]; by apply list_lookup_insert]. cbn [v_step1 v_cursor v_seqs v_bufs v_start v_finish v_cap v_thr v_ub v_log]. rewrite list_insert_insert.
  nx. erewrite v_go; [|done|cbn [v_thr]; by apply list_lookup_insert]. cbn [v_step1 v_cursor v_seqs v_bufs v_start v_finish v_cap v_thr v_ub v_log snd].
  rewrite decide_True by lia. cbn [v_alive]. rewrite Eb. rewrite list_insert_insert.
  nx. erewrite v_go; [|done|cbn [v_thr]; by apply list_lookup_insert]. cbn [v_step1 v_cursor v_seqs v_bufs v_start v_finish v_cap v_thr v_ub v_log snd v_alive].
  rewrite lookup_app_l, Eb by (by eapply lookup_lt_Some). rewrite list_insert_insert.
  nx. erewrite v_go; [|done|cbn [v_thr]; rewrite list_lookup_insert_ne by done; exact TT]. cbn [v_step1 v_cursor v_seqs v_bufs v_start v_finish v_cap v_thr v_ub v_log].
  rewrite decide_False by (intros [= E]; destruct added; done).
  unfold v_read, v_free. rewrite list_lookup_alter, lookup_app_l, Eb by (by eapply lookup_lt_Some). done.
Qed.
Print Assumptions C150_start_while_publishing_refuted.
(** In particular when the second consumer of a ring is started. *)
Example C150_second_listener : let s := v_run (v_new 2 2) ([VBegin 0 (OAdd 0)] ++ replicate 7 (VStep 0)) in
  calm_starts (v_new 2 2) ([VBegin 0 (OAdd 0)] ++ replicate 7 (VStep 0)) /\ all_idle s /\ registered (v_log s) = [0%nat] /\ v_cap s = 1%nat.
Proof. split; [apply calm_startsb_ok; by vm_compute|]. split; [by repeat constructor|]. by vm_compute. Qed.
(** The first two consumers of a ring started at the same time: one registration is lost, and no later scan takes it into account (so its events are overwritten before it reads them). *)
Definition lost_demo : list vact :=
  [VBegin 0 (OAdd 0); VBegin 1 (OAdd 1)] ++ concat (replicate 7 [VStep 0; VStep 1]) ++ [VConsume 1 9; VBegin 0 (OScan 9)] ++ scan_steps 0 1.
Theorem C150_two_starts_refuted : v_log (v_run (v_new 2 2) lost_demo) = [VAdded 0; VAdded 1; VScanned 9 9 [-1; 9] [-1; 9]] /\ ~ C150_statement.
Proof.
  assert (E : v_log (v_run (v_new 2 2) lost_demo) = [VAdded 0; VAdded 1; VScanned 9 9 [-1; 9] [-1; 9]]) by by vm_compute.
  split; [done|]. intros H. destruct (H 2%nat 2%nat lost_demo) as [_ Hs]. rewrite E in Hs.
  destruct (Hs [VAdded 0; VAdded 1] [] 9 9 [-1; 9] [-1; 9] eq_refl) as (_ & Hr & _).
  specialize (Hr 0%nat (-1) ltac:(left) eq_refl). lia.
Qed.
Print Assumptions C150_two_starts_refuted.
(** Two more consumers started at the same time on a full vector: its memory is freed twice. *)
Theorem C150_double_free_refuted : v_ub (v_run (v_new 2 3) ([VBegin 0 (OAdd 0)] ++ replicate 7 (VStep 0) ++ [VBegin 0 (OAdd 1); VBegin 1 (OAdd 2)] ++ concat (replicate 4 [VStep 0; VStep 1]))) = true.
Proof. by vm_compute. Qed.
Print Assumptions C150_double_free_refuted.
