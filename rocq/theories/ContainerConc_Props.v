(** * C113, C114: a container used by several threads. *)
From Coq Require Import Lia.
From stdpp Require Import prelude strings pretty.
From Verif Require Import Container_Model ContainerConc_Model Forward_Props.
(** ** Specification. The vectors of the sequential container (Container_Model). *)
Definition vec_of (s : cst) (v : vid) : list cobj :=
  match v with VMan => c_services s | VSvc => c_svc_stats s | VFun => c_fun_stats s | VPub => c_pub_stats s | VSub => c_sub_stats s end.
(** The calls of thread t in a list of calls. *)
Definition calls_of (t : nat) (l : list (nat * cact)) : list cact := (List.filter (fun x => Nat.eqb (x.1) t) l).*2.
(** Programs for which the mutexes suffice: no start() or stop(), no detach of publication statistics, and not both services and bare service statistics. *)
Definition good_call (bare : bool) (c : cact) : bool :=
  match c with
  | CStart | CStop | CDetach (KPublication, _) | CDetach (KServiceStats, _) => false
  | CAttach (KService, _) | CDetach (KService, _) => negb bare
  | CAttach (KServiceStats, _) => bare
  | _ => true
  end.
Definition good (progs : list (list cact)) : Prop := exists bare, forall p c, p ∈ progs -> c ∈ p -> good_call bare c = true.
Section P.
  Context (name : cobj -> string) (bare : bool).
  Definition lockof (v : vid) : mid := match v with VMan => MSvc | VSvc => if bare then MSvcStats else MSvc | VFun => MFun | VPub => MPub | VSub => MSub end.
  Lemma good_guarded c : good_call bare c = true -> exists m, cc_mutex c = Some m /\ forall v a, (v, a) ∈ cc_accs c -> lockof v = m.
  Proof.
    unfold good_call, lockof. destruct c as [| |[[] i]|[[] i]]; cbn; try done; destruct bare; try done; intros _; eexists; (split; [done|]);
      intros v a; rewrite ?elem_of_cons, ?elem_of_nil; intros Hx; repeat destruct Hx as [Hx|Hx]; simplify_eq; done.
  Qed.
  (** The effect of the accesses of a call, one after the other. *)
  Definition accs_eff (l : list (vid * acc)) (f : vid -> list cobj) : vid -> list cobj := fold_left (fun f x => if writes x.2 then fset f x.1 (do_acc name x.2 (f x.1)) else f) l f.
  Lemma eff_spec s c v : good_call bare c = true -> vec_of (c_step name s c) v = accs_eff (cc_accs c) (vec_of s) v.
  Proof. intros H. destruct c as [| |[[] i]|[[] i]]; try done; destruct v; cbn; unfold fset; cbn; done. Qed.
  Lemma eff_frame l (f : vid -> list cobj) v : (forall a, (v, a) ∉ l) -> accs_eff l f v = f v.
  Proof.
    revert f. induction l as [|[w a] l IH]; intros f H; [done|]. cbn. unfold accs_eff in IH. rewrite IH by (intros b Hb; apply (H b); by right).
    destruct (writes a); [|done]. unfold fset. rewrite decide_False; [done|]. intros ->. apply (H a). left.
  Qed.
  Lemma eff_local l (f g : vid -> list cobj) v : f v = g v -> accs_eff l f v = accs_eff l g v.
  Proof.
    revert f g. induction l as [|[w a] l IH]; intros f g H; [done|]. cbn. apply IH. destruct (writes a); [|done]. unfold fset. case_decide; [subst; by rewrite H|done].
  Qed.
  (** Which mutex a thread holds, and what is left of its call. *)
  Definition in_call (st : tst) : option (cact * list (vid * acc)) := match st with TOut => None | TIn c r => Some (c, r) | TAcc c v a _ r => Some (c, (v, a) :: r) end.
  Definition seqst (s : ccst) : cst := c_run name ((cc_done s).*2).
  Record CI (progs : list (list cact)) (s : ccst) : Prop := {
    ci_race : cc_race s = false;
    ci_good : forall t th c, cc_thr s !! t = Some th -> c ∈ ct_todo th -> good_call bare c = true;
    ci_in : forall t th c left, cc_thr s !! t = Some th -> in_call (ct_st th) = Some (c, left) -> good_call bare c = true /\ (exists m, cc_mutex c = Some m /\ cc_held s m = true /\
      (forall v a, (v, a) ∈ left -> lockof v = m) /\ (forall v, lockof v = m -> accs_eff left (cc_vec s) v = vec_of (c_step name (seqst s) c) v));
    ci_held : forall m, cc_held s m = true -> exists t th c left, cc_thr s !! t = Some th /\ in_call (ct_st th) = Some (c, left) /\ cc_mutex c = Some m;
    ci_one : forall t th c left u uh d k, cc_thr s !! t = Some th -> in_call (ct_st th) = Some (c, left) -> cc_thr s !! u = Some uh -> in_call (ct_st uh) = Some (d, k) -> cc_mutex c = cc_mutex d -> t = u;
    ci_free : forall v, cc_held s (lockof v) = false -> cc_vec s v = vec_of (seqst s) v;
    ci_found : forall t todo c v a found rest, cc_thr s !! t = Some (CThr todo (TAcc c v a found rest)) -> found = cc_vec s v;
    ci_calls : forall t p, progs !! t = Some p -> exists th, cc_thr s !! t = Some th /\ calls_of t (cc_done s) ++ (match in_call (ct_st th) with Some (c, _) => [c] | None => [] end) ++ ct_todo th = p;
    ci_len : length (cc_thr s) = length progs
  }.
  Lemma frame_call s c m v : good_call bare c = true -> cc_mutex c = Some m -> lockof v <> m -> vec_of (c_step name s c) v = vec_of s v.
  Proof. intros Hg Hm Hv. destruct (good_guarded c Hg) as (m' & Hm' & Hgd). rewrite Hm in Hm'. injection Hm' as <-. rewrite eff_spec by done. apply eff_frame. intros a Ha. by apply Hv, (Hgd v a). Qed.
  Lemma calls_app t l x : calls_of t (l ++ [x]) = calls_of t l ++ (if Nat.eqb (x.1) t then [x.2] else []).
  Proof. unfold calls_of. rewrite List.filter_app, fmap_app. cbn. by destruct (Nat.eqb (x.1) t). Qed.
  Lemma ci_step progs s t : CI progs s -> CI progs (cc_step name s t).
  Proof.
    intros I. destruct I as [I1 I2 I3 I4 I5 I6 I7 I8 I9]. unfold cc_step. destruct (cc_thr s !! t) as [[todo st]|] eqn:Et; [|by constructor].
    assert (Hlt : t < length (cc_thr s)) by (by eapply lookup_lt_Some).
    destruct st as [|c [|[v a] rest]|c v a found rest].
    - (* the beginning of a call *)
      destruct todo as [|c r]; [by constructor|]. assert (Hgc : good_call bare c = true) by (apply (I2 t _ c Et); left). destruct (good_guarded c Hgc) as (m & Hm & Hgd). rewrite Hm.
      destruct (cc_held s m) eqn:Ehm; [by constructor|].
      constructor; cbn [cc_vec cc_held cc_thr cc_done cc_race].
      + done.
      + intros u th d Hu Hd. apply list_lookup_insert_Some in Hu as [(<- & <- & _)|[Hne Hu]]; [apply (I2 t _ d Et); by right|by apply (I2 u th)].
      + intros u th d left Hu Hd. apply list_lookup_insert_Some in Hu as [(<- & <- & _)|[Hne Hu]].
        * cbn in Hd. injection Hd as <- <-. split; [done|]. exists m. split; [done|]. split; [unfold fset; by rewrite decide_True|]. split; [done|].
          intros v Hv. rewrite eff_spec by done. apply eff_local. apply I6. by rewrite Hv.
        * destruct (I3 u th d left Hu Hd) as (H1 & m' & H2 & H3 & H4 & H5). split; [done|]. exists m'. split; [done|]. split; [unfold fset; by case_decide|]. split; [done|]. done.
      + intros m' Hh. unfold fset in Hh. case_decide as Hd; [subst m'; exists t, (CThr r (TIn c (cc_accs c))), c, (cc_accs c); rewrite list_lookup_insert by done; done|].
        destruct (I4 m' Hh) as (u & th & d & left & H1 & H2 & H3). exists u, th, d, left. split; [|done]. rewrite list_lookup_insert_ne; [done|]. intros <-. rewrite Et in H1. injection H1 as <-. done.
      + intros u uh d left w wh e k Hu Hud Hw Hwd Hmm.
        assert (Hex : forall u th d left, cc_thr s !! u = Some th -> in_call (ct_st th) = Some (d, left) -> cc_mutex d = Some m -> False). { intros u' th d' l' Hu' Hd' Hm'. destruct (I3 _ _ _ _ Hu' Hd') as (_ & m' & Hm2 & Hh & _). congruence. }
        apply list_lookup_insert_Some in Hu as [(<- & <- & _)|[Hne Hu]]; apply list_lookup_insert_Some in Hw as [(<- & <- & _)|[Hne' Hw]]; cbn in *; simplify_eq; try done.
        * exfalso. eapply (Hex w); [done..|congruence].
        * exfalso. eapply (Hex u); [done..|congruence].
        * by eapply (I5 u uh d left w wh e k).
      + intros v Hh. unfold fset in Hh. case_decide; [done|]. by apply I6.
      + intros u todo d v a found rest Hu. apply list_lookup_insert_Some in Hu as [(<- & ? & _)|[Hne Hu]]; [done|]. by apply (I7 u todo d v a found rest).
      + intros u p Hp. destruct (I8 u p Hp) as (th & Hth & E). destruct (decide (u = t)) as [->|Hne].
        * rewrite Et in Hth. injection Hth as <-. cbn in E. eexists. split; [by apply list_lookup_insert|]. done.
        * exists th. split; [by rewrite list_lookup_insert_ne|done].
      + by rewrite insert_length.
    - (* the end of a call *)
      destruct (I3 t _ c [] Et eq_refl) as (Hgc & m & Hm & Hh & _ & Hv). rewrite Hm.
      assert (Hseq : c_run name ((cc_done s ++ [(t, c)]).*2) = c_step name (seqst s) c) by (unfold seqst, c_run; rewrite fmap_app, fold_left_app; done).
      constructor; cbn [cc_vec cc_held cc_thr cc_done cc_race].
      + done.
      + intros u th d Hu Hd. apply list_lookup_insert_Some in Hu as [(<- & <- & _)|[Hne Hu]]; [by apply (I2 t _ d Et)|by apply (I2 u th)].
      + intros u th d left Hu Hd. apply list_lookup_insert_Some in Hu as [(<- & <- & _)|[Hne Hu]]; [done|].
        destruct (I3 u th d left Hu Hd) as (H1 & m' & H2 & H3 & H4 & H5). split; [done|]. exists m'. assert (Hmm : m' <> m) by (intros ->; apply Hne; symmetry; eapply (I5 u th d left t); try done; congruence).
        split; [done|]. split; [unfold fset; by rewrite decide_False|]. split; [done|]. intros v Hvm. unfold seqst. cbn [cc_done]. rewrite Hseq. rewrite H5 by done. rewrite !eff_spec by done. apply eff_local. symmetry. apply (frame_call _ c m); [done|done|congruence].
      + intros m' Hh'. unfold fset in Hh'. case_decide; [done|]. destruct (I4 m' Hh') as (u & th & d & left & H1 & H2 & H3). exists u, th, d, left. split; [|done]. rewrite list_lookup_insert_ne; [done|]. intros <-. rewrite Et in H1. injection H1 as <-. cbn in H2. congruence.
      + intros u uh d left w wh e k Hu Hud Hw Hwd Hmm. apply list_lookup_insert_Some in Hu as [(<- & <- & _)|[Hne Hu]]; [done|]. apply list_lookup_insert_Some in Hw as [(<- & <- & _)|[Hne' Hw]]; [done|]. by eapply (I5 u uh d left w wh e k).
      + intros v Hh'. unfold seqst. cbn [cc_done]. rewrite Hseq. unfold fset in Hh'. case_decide as Hd; [apply (Hv v Hd)|]. rewrite (frame_call _ c m) by done. by apply I6.
      + intros u todo' d v a found rest Hu. apply list_lookup_insert_Some in Hu as [(<- & ? & _)|[Hne Hu]]; [done|]. by apply (I7 u todo' d v a found rest).
      + intros u p Hp. destruct (I8 u p Hp) as (th & Hth & E). rewrite calls_app. cbn [fst snd]. destruct (decide (u = t)) as [->|Hne].
        * rewrite Et in Hth. injection Hth as <-. cbn in E. eexists. split; [by apply list_lookup_insert|]. rewrite Nat.eqb_refl. cbn. rewrite <- (assoc_L (++)). exact E.
        * exists th. split; [by rewrite list_lookup_insert_ne|]. replace (Nat.eqb t u) with false by (symmetry; by apply Nat.eqb_neq). rewrite app_nil_r. exact E.
      + by rewrite insert_length.
    - (* the beginning of an access *)
      destruct (I3 t _ c _ Et eq_refl) as (Hgc & m & Hm & Hh & Hl & Hv).
      assert (Hnc : existsb (conflicts v a) (cc_thr s) = false).
      { apply not_true_iff_false. intros (th & Hin & Hc)%existsb_exists. apply elem_of_list_In, elem_of_list_lookup in Hin as [u Hu]. unfold conflicts in Hc. destruct th as [todo' [| |d v' a' found rest']]; try done. cbn in Hc. apply andb_true_iff in Hc as [Hvv _]. apply bool_decide_eq_true in Hvv as <-.
        destruct (I3 u _ d _ Hu eq_refl) as (_ & m' & Hm' & _ & Hl' & _). assert (m' = m). { rewrite <- (Hl' v a') by left. apply (Hl v a). left. } subst m'.
        assert (u = t). { eapply (I5 u _ d _ t _ c); try done; congruence. } subst u. congruence. }
      constructor; cbn [cc_vec cc_held cc_thr cc_done cc_race].
      + by rewrite I1, Hnc.
      + intros u th d Hu Hd. apply list_lookup_insert_Some in Hu as [(<- & <- & _)|[Hne Hu]]; [by apply (I2 t _ d Et)|by apply (I2 u th)].
      + intros u th d left Hu Hd. apply list_lookup_insert_Some in Hu as [(<- & <- & _)|[Hne Hu]]; [cbn in Hd; injection Hd as <- <-; apply (I3 t _ c _ Et eq_refl)|by apply (I3 u th d left)].
      + intros m' Hh'. destruct (I4 m' Hh') as (u & th & d & left & H1 & H2 & H3). destruct (decide (u = t)) as [->|Hne]; [|exists u, th, d, left; by rewrite list_lookup_insert_ne].
        rewrite Et in H1. injection H1 as <-. cbn in H2. injection H2 as <- <-. eexists t, _, c, _. rewrite list_lookup_insert by done. done.
      + intros u uh d left w wh e k Hu Hud Hw Hwd Hmm. apply list_lookup_insert_Some in Hu as [(<- & <- & _)|[Hne Hu]]; apply list_lookup_insert_Some in Hw as [(<- & <- & _)|[Hne' Hw]]; cbn in *; simplify_eq; try done.
        * by eapply (I5 t _ d _ w wh e k).
        * by eapply (I5 u uh d left t _ e _).
        * by eapply (I5 u uh d left w wh e k).
      + done.
      + intros u todo' d v' a' found rest' Hu. apply list_lookup_insert_Some in Hu as [(<- & Hx & _)|[Hne Hu]]; [by simplify_eq|]. by apply (I7 u todo' d v' a' found rest').
      + intros u p Hp. destruct (I8 u p Hp) as (th & Hth & E). destruct (decide (u = t)) as [->|Hne].
        * rewrite Et in Hth. injection Hth as <-. cbn in E. eexists. split; [by apply list_lookup_insert|]. exact E.
        * exists th. split; [by rewrite list_lookup_insert_ne|done].
      + by rewrite insert_length.
    - (* the end of an access *)
      destruct (I3 t _ c _ Et eq_refl) as (Hgc & m & Hm & Hh & Hl & Hv). pose proof (I7 _ _ _ _ _ _ _ Et) as Hf. assert (Hvm : lockof v = m) by (apply (Hl v a); left).
      set (vec' := if writes a then fset (cc_vec s) v (do_acc name a found) else cc_vec s).
      assert (Hoth : forall w, lockof w <> m -> vec' w = cc_vec s w). { intros w Hw. unfold vec'. destruct (writes a); [|done]. unfold fset. rewrite decide_False; [done|]. intros ->. done. }
      assert (Hown : forall w, accs_eff rest vec' w = accs_eff ((v, a) :: rest) (cc_vec s) w). { intros w. cbn. subst found. done. }
      constructor; cbn [cc_vec cc_held cc_thr cc_done cc_race].
      + done.
      + intros u th d Hu Hd. apply list_lookup_insert_Some in Hu as [(<- & <- & _)|[Hne Hu]]; [by apply (I2 t _ d Et)|by apply (I2 u th)].
      + intros u th d left Hu Hd. apply list_lookup_insert_Some in Hu as [(<- & <- & _)|[Hne Hu]].
        * cbn in Hd. injection Hd as <- <-. split; [done|]. exists m. split; [done|]. split; [done|]. split; [intros v' a' Hx; apply (Hl v' a'); by right|]. intros w Hw. rewrite Hown. by apply Hv.
        * destruct (I3 u th d left Hu Hd) as (H1 & m' & H2 & H3 & H4 & H5). split; [done|]. exists m'. assert (Hmm : m' <> m) by (intros ->; apply Hne; symmetry; eapply (I5 u th d left t); try done; congruence).
          split; [done|]. split; [done|]. split; [done|]. intros w Hw. transitivity (vec_of (c_step name (seqst s) d) w); [|done]. rewrite <- (H5 w Hw). apply eff_local. apply Hoth. congruence.
      + intros m' Hh'. destruct (I4 m' Hh') as (u & th & d & left & H1 & H2 & H3). destruct (decide (u = t)) as [->|Hne]; [|exists u, th, d, left; by rewrite list_lookup_insert_ne].
        rewrite Et in H1. injection H1 as <-. cbn in H2. injection H2 as <- <-. eexists t, _, c, _. rewrite list_lookup_insert by done. done.
      + intros u uh d left w wh e k Hu Hud Hw Hwd Hmm. apply list_lookup_insert_Some in Hu as [(<- & <- & _)|[Hne Hu]]; apply list_lookup_insert_Some in Hw as [(<- & <- & _)|[Hne' Hw]]; cbn in *; simplify_eq; try done.
        * by eapply (I5 t _ d _ w wh e k).
        * by eapply (I5 u uh d left t _ e _).
        * by eapply (I5 u uh d left w wh e k).
      + intros w Hw. rewrite Hoth; [by apply I6|]. congruence.
      + intros u todo' d v' a' found' rest' Hu. apply list_lookup_insert_Some in Hu as [(<- & Hx & _)|[Hne Hu]]; [done|]. rewrite (I7 u todo' d v' a' found' rest' Hu). symmetry. apply Hoth.
        destruct (I3 u _ d _ Hu eq_refl) as (_ & m' & Hm' & _ & Hl' & _). rewrite (Hl' v' a') by left. intros ->. apply Hne. symmetry. eapply (I5 u _ d _ t _ c); try done. congruence.
      + intros u p Hp. destruct (I8 u p Hp) as (th & Hth & E). destruct (decide (u = t)) as [->|Hne].
        * rewrite Et in Hth. injection Hth as <-. cbn in E. eexists. split; [by apply list_lookup_insert|]. exact E.
        * exists th. split; [by rewrite list_lookup_insert_ne|done].
      + by rewrite insert_length.
  Qed.
  Lemma ci_new progs : (forall p c, p ∈ progs -> c ∈ p -> good_call bare c = true) -> CI progs (cc_new progs).
  Proof.
    intros Hg. constructor; cbn; try done.
    - intros t th c Ht Hc. apply list_lookup_fmap_inv in Ht as (p & -> & Hp). apply (Hg p); [by eapply elem_of_list_lookup_2|done].
    - intros t th c left Ht. apply list_lookup_fmap_inv in Ht as (p & -> & Hp). done.
    - intros t th c left u uh d k Ht. apply list_lookup_fmap_inv in Ht as (p & -> & Hp). done.
    - intros v _. by destruct v.
    - intros t todo c v a found rest Ht. apply list_lookup_fmap_inv in Ht as (p & ? & Hp). done.
    - intros t p Hp. exists (CThr p TOut). by rewrite list_lookup_fmap, Hp.
    - by rewrite fmap_length.
  Qed.
  Lemma ci_run progs sched : (forall p c, p ∈ progs -> c ∈ p -> good_call bare c = true) -> CI progs (cc_run name progs sched).
  Proof.
    intros Hg. unfold cc_run. pose proof (ci_new progs Hg) as H. revert H. generalize (cc_new progs). induction sched as [|t l IH]; intros s H; [done|]. cbn. apply IH. by apply ci_step.
  Qed.
End P.
(** ** C113: with those programs there is no data race, and what the vectors hold is what the calls leave behind when made one after the other in the order in which they returned:
    each thread's calls in its own order. *)
Definition finished (s : ccst) : Prop := forall t th, cc_thr s !! t = Some th -> th = CThr [] TOut.
Theorem C113_no_race name progs sched : good progs -> cc_race (cc_run name progs sched) = false.
Proof. intros [bare H]. by destruct (ci_run name bare progs sched H). Qed.
Theorem C113_serialisable name progs sched : good progs -> finished (cc_run name progs sched) ->
  exists order : list (nat * cact), (forall t p, progs !! t = Some p -> calls_of t order = p) /\ (forall t c, (t, c) ∈ order -> t < length progs) /\
    forall v, cc_vec (cc_run name progs sched) v = vec_of (c_run name (order.*2)) v.
Proof.
  intros [bare Hg] Hf. pose proof (ci_run name bare progs sched Hg) as I.
  assert (Hd : forall t c, (t, c) ∈ cc_done (cc_run name progs sched) -> t < length progs).
  { clear Hf I. induction sched as [|u sched IH] using rev_ind; intros t c; [intros H; by apply elem_of_nil in H|]. pose proof (ci_len _ _ _ _ (ci_run name bare progs sched Hg)) as Hl. unfold cc_run in *. rewrite fold_left_app. cbn [fold_left]. set (s := fold_left _ sched _) in *. unfold cc_step.
    destruct (cc_thr s !! u) as [[todo [|d [|[v a] rest]|d v a found rest]]|] eqn:Eu; cbn [cc_done]; try apply IH.
    - destruct todo as [|d r]; [apply IH|]. destruct (cc_mutex d); [destruct (cc_held s m)|]; apply IH.
    - rewrite elem_of_app, elem_of_list_singleton. intros [H|H]; [by eapply IH|]. injection H as -> ->. apply lookup_lt_Some in Eu. lia. }
  exists (cc_done (cc_run name progs sched)). split_and!; [|done|].
  - intros t p Hp. destruct (ci_calls _ _ _ _ I t p Hp) as (th & Hth & E). rewrite (Hf t th Hth) in E. cbn in E. by rewrite app_nil_r in E.
  - intros v. apply (ci_free _ _ _ _ I). destruct (cc_held _ (lockof bare v)) eqn:Eh; [|done]. exfalso. destruct (ci_held _ _ _ _ I _ Eh) as (t & th & c & left & Hth & Hin & _). by rewrite (Hf t th Hth) in Hin.
Qed.
(** What every thread has completed so far is in order as well. *)
Theorem C113_in_order name progs sched t p : good progs -> progs !! t = Some p -> calls_of t (cc_done (cc_run name progs sched)) `prefix_of` p.
Proof. intros [bare Hg] Hp. destruct (ci_calls _ _ _ _ (ci_run name bare progs sched Hg) t p Hp) as (th & _ & E). by exists ((match in_call (ct_st th) with Some (c, _) => [c] | None => [] end) ++ ct_todo th). Qed.
(** *** No deadlock: under every schedule of fair rounds (every thread in each) all calls return. *)
Definition call_cost (c : cact) : nat := 2 + 2 * length (cc_accs c).
Definition st_cost (st : tst) : nat := match st with TOut => 0 | TIn _ r => 1 + 2 * length r | TAcc _ _ _ _ r => 2 + 2 * length r end.
Definition thr_cost (th : cthr) : nat := sum_list_with call_cost (ct_todo th) + st_cost (ct_st th).
Definition cost (s : ccst) : nat := sum_list_with thr_cost (cc_thr s).
Definition round_of (n : nat) (r : list nat) : Prop := forall t, t < n -> t ∈ r.
Lemma sum_insert (l : list cthr) (t : nat) x y : l !! t = Some x -> thr_cost y < thr_cost x -> sum_list_with thr_cost (<[t := y]> l) < sum_list_with thr_cost l.
Proof. revert t. induction l as [|z l IH]; intros [|t] H Hc; simpl in *; [done|done|injection H as ->; lia|]. specialize (IH _ H Hc). lia. Qed.
Lemma cost_step name s t : cc_step name s t = s \/ cost (cc_step name s t) < cost s.
Proof.
  unfold cc_step, cost. destruct (cc_thr s !! t) as [[todo [|c [|[v a] rest]|c v a found rest]]|] eqn:Et; [| | | |by left].
  - destruct todo as [|c r]; [by left|]. destruct (cc_mutex c) as [m|]; [destruct (cc_held s m); [by left|]|]; right; cbn [cc_thr]; apply (sum_insert _ _ _ _ Et); unfold thr_cost; cbn [ct_todo ct_st sum_list_with st_cost]; unfold call_cost; lia.
  - right. cbn [cc_thr]. apply (sum_insert _ _ _ _ Et). unfold thr_cost. cbn. lia.
  - right. cbn [cc_thr]. apply (sum_insert _ _ _ _ Et). unfold thr_cost. cbn. lia.
  - right. cbn [cc_thr]. apply (sum_insert _ _ _ _ Et). unfold thr_cost. cbn. lia.
Qed.
Theorem C113_all_return name progs rounds : good progs -> Forall (round_of (length progs)) rounds -> cost (cc_new progs) < length rounds -> finished (cc_run name progs (concat rounds)).
Proof.
  intros [bare Hg] Hr Hlt.
  destruct (rounds_stuck (cc_step name) cost (CI name bare progs) (round_of (length progs))) with (rounds := rounds) (s := cc_new progs) as [I Hst]; try done.
  - intros s a. apply ci_step.
  - intros s a _. apply cost_step.
  - intros s r I Hround Hn t. destruct (decide (t < length progs)) as [Ht|Ht]; [by apply Hn, Hround|]. unfold cc_step. rewrite <- (ci_len _ _ _ _ I) in Ht. rewrite lookup_ge_None_2 by lia. done.
  - by apply ci_new.
  - fold (cc_run name progs (concat rounds)) in *. set (s := cc_run name progs (concat rounds)) in *. clearbody s.
    assert (Hx : forall t th, cc_thr s !! t = Some th -> ct_st th = TOut).
    { intros t [todo st] Ht. specialize (Hst t). apply (f_equal cost) in Hst. unfold cc_step, cost in Hst. rewrite Ht in Hst. destruct st as [|c [|[v a] rest]|c v a found rest]; [done|exfalso..].
      all: cbn [cc_thr] in Hst; match type of Hst with sum_list_with _ (<[_ := ?y]> _) = _ => pose proof (sum_insert (cc_thr s) t _ y Ht) as Hc end; rewrite Hst in Hc; unfold thr_cost in Hc; cbn in Hc; lia. }
    assert (Hfree : forall m, cc_held s m = false). { intros m. destruct (cc_held s m) eqn:E; [|done]. exfalso. destruct (ci_held _ _ _ _ I m E) as (t & th & c & left & Ht & Hin & _). by rewrite (Hx t th Ht) in Hin. }
    intros t [todo st] Ht. pose proof (Hx t _ Ht) as E. cbn in E. subst st. destruct todo as [|c r]; [done|]. exfalso. specialize (Hst t). apply (f_equal cost) in Hst. unfold cc_step, cost in Hst. rewrite Ht in Hst.
    destruct (cc_mutex c) as [m|]; [rewrite Hfree in Hst|]; cbn [cc_thr] in Hst; match type of Hst with sum_list_with _ (<[_ := ?y]> _) = _ => pose proof (sum_insert (cc_thr s) t _ y Ht) as Hc end; rewrite Hst in Hc; unfold thr_cost in Hc; cbn in Hc; unfold call_cost in Hc; lia.
Qed.
(** ** C114: "attach and detach can be called from several threads" is false in general: *)
Definition nm (o : cobj) : string := pretty (o.2).
(** a service and bare service statistics attached at the same time: both change _serviceStats, under different mutexes, and one is lost; *)
Theorem C114_service_refuted : exists progs sched, let s := cc_run nm progs sched in progs = [[CAttach (KService, 0)]; [CAttach (KServiceStats, 1)]] /\ finished s /\ cc_race s = true /\ (KService, 0) ∉ cc_vec s VSvc.
Proof.
  exists [[CAttach (KService, 0)]; [CAttach (KServiceStats, 1)]], [0; 0; 0; 0; 1; 1; 0; 1; 0; 1]. cbv zeta. split; [done|]. split; [|split; [by vm_compute|]].
  - intros [|[|t]] th H; vm_compute in H; by simplify_eq.
  - intros H. vm_compute in H. by apply elem_of_list_singleton in H.
Qed.
(** publication statistics detached beside an attach: no mutex; what was attached may be lost, or what was detached may stay; *)
Theorem C114_publication_refuted : exists progs sched, let s := cc_run nm progs sched in progs = [[CAttach (KPublication, 0); CDetach (KPublication, 0)]; [CAttach (KPublication, 1)]] /\ finished s /\ cc_race s = true /\ (KPublication, 0) ∈ cc_vec s VPub.
Proof.
  exists [[CAttach (KPublication, 0); CDetach (KPublication, 0)]; [CAttach (KPublication, 1)]], [0; 0; 0; 0; 1; 1; 0; 0; 0; 0; 1; 1]. cbv zeta. split; [done|]. split; [|split; [by vm_compute|]].
  - intros [|[|t]] th H; vm_compute in H; by simplify_eq.
  - vm_compute. left.
Qed.
(** start() or stop() runs over the vectors while an attach changes them. *)
Theorem C114_start_refuted : exists sched, cc_race (cc_run nm [[CStart]; [CAttach (KFunction, 0)]] sched) = true.
Proof. exists [1; 1; 0; 0; 0; 0]. by vm_compute. Qed.
(** Four threads, all kinds. *)
Definition cprogs : list (list cact) := [[CAttach (KService, 0); CDetach (KService, 0)]; [CAttach (KService, 1); CAttach (KFunction, 2)]; [CAttach (KFunction, 3); CDetach (KFunction, 3)]; [CAttach (KPublication, 4); CAttach (KSubscription, 5)]].
Definition csched : list nat := concat (replicate 40 [0; 3; 1; 2; 1]).
Example C113_case : good cprogs /\ finished (cc_run nm cprogs csched) /\ cc_vec (cc_run nm cprogs csched) VSvc = [(KService, 1)] /\ cc_vec (cc_run nm cprogs csched) VFun = [(KFunction, 2)] /\
  Forall (round_of (length cprogs)) (replicate 40 [0; 3; 1; 2; 1]) /\ cost (cc_new cprogs) < length (replicate 40 [0; 3; 1; 2; 1]).
Proof.
  split_and!; [| |by vm_compute|by vm_compute| |].
  - exists false. intros p c Hp Hc. repeat (apply elem_of_cons in Hp as [->|Hp]; [repeat (apply elem_of_cons in Hc as [->|Hc]; [done|]); by apply elem_of_nil in Hc|]). by apply elem_of_nil in Hp.
  - intros [|[|[|[|t]]]] th H; vm_compute in H; by simplify_eq.
  - apply Forall_replicate. intros t Ht. change (length cprogs) with 4 in Ht. rewrite !elem_of_cons. lia.
  - vm_compute. lia.
Qed.
Print Assumptions C113_no_race.
Print Assumptions C113_serialisable.
Print Assumptions C113_in_order.
Print Assumptions C113_all_return.
Print Assumptions C114_service_refuted.
Print Assumptions C114_publication_refuted.
Print Assumptions C114_start_refuted.
