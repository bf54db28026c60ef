(** * C204, C205: the single-listener emitter used by several threads. *)
From stdpp Require Import prelude strings.
From Coq Require Import ZArith Lia.
From Verif Require Import WeakMem SingleConc_Model.
Local Open Scope Z_scope.
(** ** Vocabulary *)
(** The first registration among some calls. *)
Fixpoint first_on (l : list sop) : option (string * nat) := match l with [] => None | On n cb :: _ => Some (n, cb) | _ :: l => first_on l end.
(** The listener registered after some calls: a registration counts only while none is registered. *)
Definition reg_after (l : list sop) : option (string * nat) :=
  fold_left (fun r o => match o, r with On n cb, None => Some (n, cb) | Off, _ => None | _, _ => r end) l None.
(** What an emission of [n] should do then. *)
Definition expected (r : option (string * nat)) (n : string) : eres :=
  match r with Some (m, cb) => if decide (n = m) then Called (Fun cb) else Skipped | None => Skipped end.
Definition accesses (tr : list sev) (x : sobj) (i : nat) : Prop := exists t o, tr !! i = Some (Ev t o) /\ ((exists v, o = DRead x v) \/ exists v, o = DWrite x v).
Definition race_on (tr : list sev) (x : sobj) (i j : nat) : Prop := race tr i j /\ accesses tr x i /\ accesses tr x j.
Definition emits (l : list eop) : list string := omap (fun o => match o with Emit n => Some n | Acquire => None end) l.
(** What thread e has emitted, in order. *)
Definition emitted (e : nat) (log : list (nat * string * eres)) : list string := omap (fun '(u, n, _) => if decide (u = e) then Some n else None) log.

(** ** Orders *)
Lemma snoc_inv (tr : list sev) e i x : (tr ++ [e]) !! i = Some x -> tr !! i = Some x \/ (i = length tr /\ x = e).
Proof. intros H. apply lookup_app_Some in H as [H|[Hl H]]; [by left|right]. apply list_lookup_singleton_Some in H as [H <-]. split; [lia|done]. Qed.
(** Conflicting accesses to the objects of P are ordered. *)
Definition Ord (P : sobj -> Prop) (tr : list sev) : Prop :=
  forall i j a b, (i < j)%nat -> tr !! i = Some a -> tr !! j = Some b -> conflict (ev_op a) (ev_op b) -> (forall x v, ev_op a = DRead x v \/ ev_op a = DWrite x v -> P x) -> hb tr i j.
Lemma ord_snoc P tr e : Ord P tr ->
  (forall i a, tr !! i = Some a -> conflict (ev_op a) (ev_op e) -> (forall x v, ev_op a = DRead x v \/ ev_op a = DWrite x v -> P x) -> hb (tr ++ [e]) i (length tr)) -> Ord P (tr ++ [e]).
Proof.
  intros H Hn i j a b Hij Ha Hb Hc HP. apply snoc_inv in Ha as [Ha|[-> _]].
  2:{ apply lookup_lt_Some in Hb. rewrite app_length in Hb. cbn in Hb. lia. }
  apply snoc_inv in Hb as [Hb|[-> ->]]; [apply hb_app; by eapply H|by eapply Hn].
Qed.
Lemma ord_race P tr x i j : Ord P tr -> P x -> ~ race_on tr x i j.
Proof.
  intros H HP [(Hij & (a & b & Ha & Hb & Hc) & Hn) [(t & o & E & Ho) _]]. apply Hn. eapply H; [done|exact Ha|exact Hb|done|]. intros y v Hy. rewrite E in Ha. injection Ha as <-. cbn [ev_op] in Hy.
  destruct Ho as [[w ->]|[w ->]], Hy as [Hy|Hy]; by simplify_eq.
Qed.
Lemma same_thread (tr : list sev) i a o t : tr !! i = Some a -> ev_tid a = t -> hb (tr ++ [Ev t o]) i (length tr).
Proof. intros Ha Et. eapply po_intro; [by eapply lookup_lt_Some|by apply lookup_app_l_Some|by apply list_lookup_middle|done]. Qed.
Lemma sc_read (tr : list sev) i t l v t' v' : tr !! i = Some (Ev t (AWrite l v)) -> hb (tr ++ [Ev t' (ARead l i v')]) i (length tr).
Proof. intros H. apply hb_sw. exists (Ev t (AWrite l v)), (Ev t' (ARead l i v')). split; [by apply lookup_app_l_Some|]. split; [by apply list_lookup_middle|]. exists l, v. split; [by left|]. left. by exists v'. Qed.
Definition is_write (tr : list sev) (i : nat) : Prop := exists t x v, tr !! i = Some (Ev t (DWrite x v)).

(** ** C204 (first part): registering while others emit. *)
Definition goes (rprog : list sop) (n : string) : Prop := n = EmptyString \/ exists cb, first_on rprog = Some (n, cb).
Definition prog_ok (rprog : list sop) (s : sst) : Prop :=
  if s_flag s then s_pc s = RIdle /\ exists n cb, first_on rprog = Some (n, cb) /\ s_listener s = Fun cb /\ s_name s = n /\ s_wrapper s = true
  else first_on rprog = first_on (s_todo s) /\
    match s_pc s with
    | RIdle => s_name s = EmptyString
    | RListener => s_name s = EmptyString /\ exists n cb rest, s_todo s = On n cb :: rest
    | RName => s_name s = EmptyString /\ exists n cb rest, s_todo s = On n cb :: rest /\ s_listener s = Fun cb
    | RWrapper => exists n cb rest, s_todo s = On n cb :: rest /\ s_listener s = Fun cb /\ s_name s = n
    | RFlag => exists n cb rest, s_todo s = On n cb :: rest /\ s_listener s = Fun cb /\ s_name s = n /\ s_wrapper s = true
    | ROff => False
    end.
Definition em_ok (rprog : list sop) (tr : list sev) (flag : bool) (flagw : nat) (e : nat) (em : emitter) : Prop :=
  match em_pc em with
  | EIdle => True
  | EFlag => exists n rest, em_todo em = Emit n :: rest /\ goes rprog n
  | _ => flag = true /\ (exists n rest, em_todo em = Emit n :: rest /\ goes rprog n) /\ exists k o, tr !! k = Some (Ev (etid e) o) /\ hb tr flagw k
  end.
Definition log_ok (rprog : list sop) (x : nat * string * eres) : Prop :=
  let '(_, n, r) := x in r = Skipped \/ exists m cb, first_on rprog = Some (m, cb) /\ r = Called (Fun cb) /\ (n = m \/ n = EmptyString).
Record A (rprog : list sop) (s : sst) : Prop := {
  a_flagw : s_tr s !! s_flagw s = Some (Ev 0 (AWrite LFlag (b2z (s_flag s))));
  a_w0 : forall i t x v, s_tr s !! i = Some (Ev t (DWrite x v)) -> t = 0%nat;
  a_off : Off ∉ s_todo s;
  a_wr : s_flag s = true -> forall i, is_write (s_tr s) i -> (i < s_flagw s)%nat;
  a_rd : s_flag s = false -> forall i t x v, s_tr s !! i = Some (Ev t (DRead x v)) -> x = XName;
  a_em : forall e em, s_ems s !! e = Some em -> em_ok rprog (s_tr s) (s_flag s) (s_flagw s) e em;
  a_ord : Ord (fun x => x <> XName) (s_tr s);
  a_prog : prog_ok rprog s;
  a_log : Forall (log_ok rprog) (s_log s)
}.
Lemma em_ok_mono rprog tr e0 flag flagw e em : em_ok rprog tr flag flagw e em -> em_ok rprog (tr ++ [e0]) flag flagw e em.
Proof.
  unfold em_ok. destruct (em_pc em); try done; intros (H1 & H2 & k & o & H3 & H4); (split; [done|]; split; [done|]; exists k, o; split; [by apply lookup_app_l_Some|by apply hb_app]).
Qed.
Lemma snoc_write tr e i : is_write (tr ++ [e]) i -> is_write tr i \/ (i = length tr /\ exists t x v, e = Ev t (DWrite x v)).
Proof. intros (t & x & v & H). apply snoc_inv in H as [H|[-> <-]]; [left; by exists t, x, v|right; split; [done|by exists t, x, v]]. Qed.
(** A plain write of thread 0 while nothing is registered. *)
Lemma A_write rprog s x v pc l nm w : A rprog s -> s_flag s = false -> let s' := Sst (s_tr s ++ [Ev 0 (DWrite x v)]) (s_flagw s) (s_flag s) l nm w (s_start s) pc (s_todo s) (s_ems s) (s_log s) in
  prog_ok rprog s' -> A rprog s'.
Proof.
  intros [F W O Wr Rd Em Or Pr Lg] Hf s' Hp. constructor; cbn [s' s_tr s_flagw s_flag s_todo s_ems s_log]; try done.
  - by apply lookup_app_l_Some.
  - intros i t y u H. apply snoc_inv in H as [H|[_ H]]; [by eapply W|by injection H as -> _ _].
  - congruence.
  - intros _ i t y u H. apply snoc_inv in H as [H|[_ H]]; [by eapply Rd|done].
  - intros e em H. apply em_ok_mono. by apply Em.
  - apply ord_snoc; [done|]. intros i a Ha Hc HP. apply (same_thread _ _ _ _ _ Ha). destruct a as [t [| | |y u|y u]]; cbn [ev_op ev_tid] in *; try done; [|by eapply W].
    exfalso. apply (HP y u); [by left|]. by eapply Rd.
Qed.
Lemma A_emit rprog s e o em em' log : A rprog s -> s_ems s !! e = Some em -> match o with ARead _ _ _ => True | DRead x _ => x = XName \/ (s_flag s = true /\ exists k o', s_tr s !! k = Some (Ev (etid e) o') /\ hb (s_tr s) (s_flagw s) k) | _ => False end ->
  em_ok rprog (s_tr s ++ [Ev (etid e) o]) (s_flag s) (s_flagw s) e em' -> Forall (log_ok rprog) log -> A rprog (e_emit s e o em' log).
Proof.
  intros [F W O Wr Rd Em Or Pr Lg] He Ho Hem Hl. constructor; cbn [e_emit s_tr s_flagw s_flag s_todo s_ems s_log]; try done.
  - by apply lookup_app_l_Some.
  - intros i t y u H. apply snoc_inv in H as [H|[_ H]]; [by eapply W|]. injection H as -> <-. done.
  - intros Hf i Hi. apply snoc_write in Hi as [Hi|[_ (t & x & v & [= _ ->])]]; [by apply Wr|done].
  - intros Hf i t y u H. apply snoc_inv in H as [H|[_ H]]; [by eapply Rd|]. injection H as -> <-. destruct Ho as [->|[Ho _]]; [done|congruence].
  - intros e1 em1 H. apply list_lookup_insert_Some in H as [(<- & <- & _)|[_ H]]; [done|]. apply em_ok_mono. by apply Em.
  - apply ord_snoc; [done|]. intros i a Ha Hc HP. destruct o as [| | |x v|]; try done; [destruct a as [t []]; done|]. destruct a as [t [| | |y u|y u]]; cbn [ev_op] in *; try done. cbn in Hc. subst y.
    destruct Ho as [->|(Hf & k & o' & Hk & Hh)]; [exfalso; apply (HP XName u); [by right|done]|].
    eapply hb_trans; [|eapply same_thread; [exact Hk|done]]. apply hb_app. eapply hb_trans; [|exact Hh]. eapply po_intro; [apply Wr; [done|by exists t, x, u]|exact Ha|exact F|]. cbn. by eapply W.
  - apply Forall_app. by split.
Qed.
Lemma A_step rprog s a : A rprog s -> A rprog (s_step s a).
Proof.
  intros I. destruct a as [|e]; cbn [s_step].
  - unfold r_step. destruct (s_todo s) as [|o rest] eqn:Et; [done|]. pose proof (a_prog _ _ I) as Hp. unfold prog_ok in Hp. rewrite Et in Hp.
    pose proof (a_off _ _ I) as Hoff. rewrite Et in Hoff. apply not_elem_of_cons in Hoff as [Hoff1 Hoff2].
    destruct (s_flag s) eqn:Ef.
    + destruct Hp as [Epc Hp]. rewrite Epc. destruct o as [n cb| |]; [|done|].
      * destruct I as [F W O Wr Rd Em Or Pr Lg]. rewrite Ef in *. constructor; cbn [s_tr s_flagw s_flag s_todo s_ems s_log]; try done.
        -- by apply lookup_app_l_Some.
        -- intros i t y u H. apply snoc_inv in H as [H|[_ H]]; [by eapply W|done].
        -- intros Hf i Hi. apply snoc_write in Hi as [Hi|[_ (t & x & v & H)]]; [by apply Wr|done].
        -- intros e1 em1 H. apply em_ok_mono. by apply Em.
        -- apply ord_snoc; [done|]. intros i a Ha Hc. by destruct a as [t []].
      * destruct I as [F W O Wr Rd Em Or Pr Lg]. rewrite Ef in *. constructor; cbn [s_tr s_flagw s_flag s_todo s_ems s_log]; try done.
        -- by apply lookup_app_l_Some.
        -- intros i t y u H. apply snoc_inv in H as [H|[_ H]]; [by eapply W|done].
        -- intros Hf i Hi. apply snoc_write in Hi as [Hi|[_ (t & x & v & H)]]; [by apply Wr|done].
        -- intros e1 em1 H. apply em_ok_mono. by apply Em.
        -- apply ord_snoc; [done|]. intros i a Ha Hc. by destruct a as [t []].
    + destruct Hp as [Ep Hp]. destruct (s_pc s) eqn:Epc.
      * destruct o as [n cb| |]; [|done|].
        -- destruct I as [F W O Wr Rd Em Or Pr Lg]. rewrite Ef, Et in *. constructor; cbn [s_tr s_flagw s_flag s_todo s_ems s_log]; try done.
           ++ by apply lookup_app_l_Some.
           ++ intros i t y u H. apply snoc_inv in H as [H|[_ H]]; [by eapply W|done].
           ++ intros Hf i t x v H. apply snoc_inv in H as [H|[_ H]]; [by eapply Rd|done].
           ++ intros e1 em1 H. apply em_ok_mono. by apply Em.
           ++ apply ord_snoc; [done|]. intros i a Ha Hc. by destruct a as [t []].
           ++ unfold prog_ok. cbn. split; [done|]. split; [done|]. by eexists _, _, _.
        -- destruct I as [F W O Wr Rd Em Or Pr Lg]. rewrite Ef in *. constructor; cbn [s_tr s_flagw s_flag s_todo s_ems s_log]; try done.
           ++ by apply lookup_app_l_Some.
           ++ intros i t y u H. apply snoc_inv in H as [H|[_ H]]; [by eapply W|done].
           ++ intros Hf i t x v H. apply snoc_inv in H as [H|[_ H]]; [by eapply Rd|done].
           ++ intros e1 em1 H. apply em_ok_mono. by apply Em.
           ++ apply ord_snoc; [done|]. intros i a Ha Hc. by destruct a as [t []].
      * destruct Hp as (Hn & n & cb & r & [= -> ->]). rewrite <-Et, <-Ef. apply A_write; [done|done|]. unfold prog_ok. cbn. rewrite Ef, Et. split; [done|]. split; [done|]. by eexists _, _, _.
      * destruct Hp as (Hn & n & cb & r & [= -> ->] & Hl). rewrite <-Et, <-Ef. apply A_write; [done|done|]. unfold prog_ok. cbn. rewrite Ef, Et. split; [done|]. by eexists _, _, _.
      * destruct Hp as (n & cb & r & [= -> ->] & Hl & Hn). rewrite <-Et, <-Ef. apply A_write; [done|done|]. unfold prog_ok. cbn. rewrite Ef, Et. split; [done|]. by eexists _, _, _.
      * destruct Hp as (n & cb & r & [= -> ->] & Hl & Hn & Hw). destruct I as [F W O Wr Rd Em Or Pr Lg]. rewrite Ef in *. constructor; cbn [s_tr s_flagw s_flag s_todo s_ems s_log]; try done.
        -- by apply list_lookup_middle.
        -- intros i t y u H. apply snoc_inv in H as [H|[_ H]]; [by eapply W|done].
        -- intros _ i Hi. apply snoc_write in Hi as [(t & x & v & Hi)|[_ (t & x & v & H)]]; [by eapply lookup_lt_Some|done].
        -- intros e1 em1 H. apply Em in H. unfold em_ok in *. destruct (em_pc em1); [done|done|by destruct H..].
        -- apply ord_snoc; [done|]. intros i a Ha Hc. by destruct a as [t []].
        -- unfold prog_ok. cbn. split; [done|]. by eexists _, _.
      * done.
  - unfold e_step. destruct (s_ems s !! e) as [[pc [|o rest]]|] eqn:He; try done. pose proof (a_em _ _ I _ _ He) as Hem. unfold em_ok in Hem. cbn [em_pc em_todo] in Hem.
    pose proof (a_prog _ _ I) as Hp. unfold prog_ok in Hp.
    destruct pc; [destruct o as [|n]|destruct Hem as (n & r & [= -> ->] & Hg)|destruct Hem as (Hf & (n & r & [= -> ->] & Hg) & k & o' & Hk & Hh)..].
    + destruct (s_start s); [|done]. eapply A_emit; [done|exact He|done|done|done].
    + assert (Hg : n = s_name s -> goes rprog n).
      { intros ->. destruct (s_flag s); [destruct Hp as (_ & m & cb & H1 & _ & -> & _); right; by exists cb|]. destruct Hp as [Ep Hp].
        destruct (s_pc s); [by left|destruct Hp as [? _]; by left|destruct Hp as [? _]; by left| | |done].
        - destruct Hp as (m & cb & r & E & _ & ->). right. exists cb. by rewrite Ep, E.
        - destruct Hp as (m & cb & r & E & _ & -> & _). right. exists cb. by rewrite Ep, E. }
      case_decide as Hd; (eapply A_emit; [done|exact He|by left| |]); try done.
      * unfold em_ok. cbn. exists n, rest. auto.
      * repeat constructor.
    + destruct (s_flag s) eqn:Ef; (eapply A_emit; [done|exact He|done| |]); try done.
      * unfold em_ok. cbn [em_pc em_todo]. split; [done|]. split; [by exists n, r|]. exists (length (s_tr s)), (ARead LFlag (s_flagw s) 1). split; [by apply list_lookup_middle|].
        eapply sc_read. exact (a_flagw _ _ I).
      * repeat constructor.
    + rewrite Hf in Hp. destruct Hp as (_ & m & cb & H1 & H2 & H3 & H4). rewrite H4. eapply A_emit; [done|exact He|right; split; [done|by exists k, o']| |done].
      unfold em_ok. cbn [em_pc em_todo]. split; [done|]. split; [by exists n, r|]. exists k, o'. split; [by apply lookup_app_l_Some|by apply hb_app].
    + rewrite Hf in Hp. destruct Hp as (_ & m & cb & H1 & H2 & H3 & H4). eapply A_emit; [done|exact He|right; split; [done|by exists k, o']|done|].
      constructor; [|done]. cbn. right. exists m, cb. split; [done|]. split; [by rewrite H2|]. destruct Hg as [->|[cb' Hg]]; [by right|left; congruence].
Qed.
Lemma A_new rprog eprogs : Off ∉ rprog -> A rprog (s_new rprog eprogs).
Proof.
  intros Ho. constructor; cbn [s_new s_tr s_flagw s_flag s_todo s_ems s_log]; try done.
  - intros i t x v H. by destruct i as [|[|]].
  - intros _ i t x v H. by destruct i as [|[|]].
  - intros e em H. rewrite list_lookup_fmap in H. apply fmap_Some in H as (p & _ & ->). done.
  - intros i j a b Hij Ha Hb Hc. destruct i as [|[|]]; [|done..]. injection Ha as <-. done.
Qed.
Lemma A_run rprog eprogs acts : Off ∉ rprog -> A rprog (s_run rprog eprogs acts).
Proof.
  intros Ho. unfold s_run. pose proof (A_new rprog eprogs Ho) as H. revert H. generalize (s_new rprog eprogs). induction acts as [|a acts IH]; intros s H; [done|]. cbn [fold_left]. by apply IH, A_step.
Qed.
(** One thread registers, as often as it likes but without removing, while any others emit: neither the callback nor its wrapper has a data race; no emission fails, and one that calls a callback calls the
    first that was registered, for its event (or for the empty name, which is what a new emitter has). *)
Theorem C204_register_any_time rprog eprogs acts : Off ∉ rprog -> let s := s_run rprog eprogs acts in
  (forall i j, ~ race_on (s_tr s) XListener i j /\ ~ race_on (s_tr s) XWrapper i j) /\
  forall e n r, (e, n, r) ∈ s_log s -> r = Skipped \/ exists m cb, first_on rprog = Some (m, cb) /\ r = Called (Fun cb) /\ (n = m \/ n = EmptyString).
Proof.
  intros Ho s. pose proof (A_run rprog eprogs acts Ho) as I. fold s in I. split.
  - intros i j. split; (eapply ord_race; [exact (a_ord _ _ I)|done]).
  - intros e n r H. pose proof (a_log _ _ I) as HL. rewrite Forall_forall in HL. exact (HL _ H).
Qed.
Print Assumptions C204_register_any_time.

(** ** C204 (second part): everything is registered before the emitter is handed over. *)
Definition prog2_ok (pre past : list sop) (s : sst) : Prop :=
  match s_pc s with
  | RIdle => match reg_after past with Some (n, cb) => s_flag s = true /\ s_listener s = Fun cb /\ s_name s = n /\ s_wrapper s = true | None => s_flag s = false end
  | pc => reg_after past = None /\ s_flag s = false /\
      match pc with
      | RListener => exists n cb rest, s_todo s = On n cb :: rest
      | RName => exists n cb rest, s_todo s = On n cb :: rest /\ s_listener s = Fun cb
      | RWrapper => exists n cb rest, s_todo s = On n cb :: rest /\ s_listener s = Fun cb /\ s_name s = n
      | RFlag => exists n cb rest, s_todo s = On n cb :: rest /\ s_listener s = Fun cb /\ s_name s = n /\ s_wrapper s = true
      | _ => False
      end \/ pc = ROff /\ s_flag s = false /\ exists rest, s_todo s = Off :: rest
  end.
Definition em2_ok (s : sst) (i : nat) (e : nat) (em : emitter) : Prop :=
  (em_pc em = EIdle /\ exists rest, em_todo em = Acquire :: rest) \/
  (exists k o, s_tr s !! k = Some (Ev (etid e) o) /\ hb (s_tr s) i k) /\
  match em_pc em with EIdle => True | EFlag => exists rest, em_todo em = Emit (s_name s) :: rest | _ => s_flag s = true /\ exists rest, em_todo em = Emit (s_name s) :: rest end.
Record B (pre : list sop) (s : sst) : Prop := {
  b_w0 : forall i t x v, s_tr s !! i = Some (Ev t (DWrite x v)) -> t = 0%nat;
  b_ord : Ord (fun _ => True) (s_tr s);
  b_log : Forall (fun '(_, n, r) => r = expected (reg_after pre) n) (s_log s);
  b_phase : match s_start s with
    | None => (forall i t o, s_tr s !! i = Some (Ev t o) -> t = 0%nat) /\ (forall e em, s_ems s !! e = Some em -> em_pc em = EIdle /\ exists rest, em_todo em = Acquire :: rest) /\
              exists past todo, pre = past ++ todo /\ s_todo s = todo ++ [Release] /\ prog2_ok pre past s
    | Some i => s_tr s !! i = Some (Ev 0 (AWrite LStart 1)) /\ (forall j, is_write (s_tr s) j -> (j < i)%nat) /\ s_todo s = [] /\ s_pc s = RIdle /\ prog2_ok pre pre s /\
                forall e em, s_ems s !! e = Some em -> em2_ok s i e em
    end
}.
Lemma reg_after_snoc l o : reg_after (l ++ [o]) = match o, reg_after l with On n cb, None => Some (n, cb) | Off, _ => None | _, r => r end.
Proof. unfold reg_after. rewrite fold_left_app. cbn [fold_left]. set (r := fold_left _ l None). clearbody r. by destruct o, r. Qed.
Lemma ord_thread0 tr o : (forall i t o', tr !! i = Some (Ev t o') -> t = 0%nat) -> Ord (fun _ => True) tr -> Ord (fun _ => True) (tr ++ [Ev 0 o]).
Proof. intros H0 H. apply ord_snoc; [done|]. intros i [t o'] Ha _ _. eapply same_thread; [exact Ha|]. cbn. by eapply H0. Qed.
Lemma B_reg pre s : Release ∉ pre -> B pre s -> B pre (r_step s).
Proof.
  intros Hpre I. destruct (s_start s) as [i0|] eqn:Es.
  { pose proof (b_phase _ _ I) as H. rewrite Es in H. destruct H as (_ & _ & H & _). unfold r_step. by rewrite H. }
  pose proof (b_phase _ _ I) as H. rewrite Es in H. destruct H as (H0 & Hem & past & todo & Hp & Ht & Hok).
  assert (K : forall o fw fl li na wr pc td past' todo', pre = past' ++ todo' -> td = todo' ++ [Release] -> 
     prog2_ok pre past' (Sst (s_tr s ++ [Ev 0 o]) fw fl li na wr None pc td (s_ems s) (s_log s)) -> B pre (Sst (s_tr s ++ [Ev 0 o]) fw fl li na wr None pc td (s_ems s) (s_log s))).
  { intros o fw fl li na wr pc td past' todo' E1 E2 E3. constructor; cbn [s_tr s_log s_start].
    - intros i t x v H. apply snoc_inv in H as [H|[_ H]]; [by eapply H0|by injection H].
    - apply ord_thread0; [done|exact (b_ord _ _ I)].
    - exact (b_log _ _ I).
    - split; [|split; [exact Hem|by exists past', todo']]. intros i t o' H. apply snoc_inv in H as [H|[_ H]]; [by eapply H0|by injection H]. }
  unfold r_step. rewrite Ht. destruct todo as [|o todo].
  - rewrite app_nil_r in Hp. subst past. cbn [app]. unfold prog2_ok in Hok. rewrite Ht in Hok. destruct (s_pc s) eqn:Epc.
    + constructor; cbn [s_tr s_log s_start].
      * intros i t x v H. apply snoc_inv in H as [H|[_ H]]; [by eapply H0|by injection H].
      * apply ord_thread0; [done|exact (b_ord _ _ I)].
      * exact (b_log _ _ I).
      * split; [by apply list_lookup_middle|]. split; [|split; [done|split; [done|split]]].
        -- intros j Hj. apply snoc_write in Hj as [(t & x & v & Hj)|[_ (t & x & v & Hj)]]; [by eapply lookup_lt_Some|done].
        -- unfold prog2_ok. cbn. exact Hok.
        -- intros e em He. left. cbn [s_ems] in He. by eapply Hem.
    + by destruct Hok as [(_ & _ & n & cb & r & ?)|(? & _)].
    + by destruct Hok as [(_ & _ & n & cb & r & ? & _)|(? & _)].
    + by destruct Hok as [(_ & _ & n & cb & r & ? & _)|(? & _)].
    + by destruct Hok as [(_ & _ & n & cb & r & ? & _)|(? & _)].
    + destruct Hok as [(_ & _ & ?)|(_ & _ & r & ?)]; done.
  - cbn [app]. rewrite cons_middle in Hp. assert (Hr : o <> Release). { intros ->. apply Hpre. rewrite Hp. rewrite !elem_of_app. right. left. by left. }
    unfold prog2_ok in Hok. rewrite Ht in Hok. cbn [app] in Hok. rewrite Es. destruct (s_pc s) eqn:Epc.
    + destruct o as [n cb| |]; [| |done].
      * destruct (reg_after past) as [[m cb']|] eqn:Er; [destruct Hok as (-> & H2 & H3 & H4)|rewrite Hok].
        -- eapply (K _ _ _ _ _ _ _ _ (past ++ [On n cb]) todo); [by rewrite <-app_assoc|done|]. unfold prog2_ok. cbn [s_pc s_flag s_listener s_name s_wrapper]. rewrite reg_after_snoc, Er. done.
        -- eapply (K _ _ _ _ _ _ _ _ past (On n cb :: todo)); [exact Hp|done|]. unfold prog2_ok. cbn [s_pc s_flag s_todo]. left. split; [done|]. split; [done|]. by eexists _, _, _.
      * eapply (K _ _ _ _ _ _ _ _ past (Off :: todo)); [exact Hp|done|]. unfold prog2_ok. cbn [s_pc s_flag s_todo]. right. split; [done|]. split; [done|]. by eexists.
    + destruct Hok as [(Hr' & Hf & n & cb & r & [= -> <-])|(? & _)]; [|done]. eapply (K _ _ _ _ _ _ _ _ past (On n cb :: todo)); [exact Hp|done|].
      unfold prog2_ok. cbn [s_pc s_flag s_todo s_listener]. left. split; [done|]. split; [done|]. by eexists _, _, _.
    + destruct Hok as [(Hr' & Hf & n & cb & r & [= -> <-] & Hl)|(? & _)]; [|done]. eapply (K _ _ _ _ _ _ _ _ past (On n cb :: todo)); [exact Hp|done|].
      unfold prog2_ok. cbn [s_pc s_flag s_todo s_listener s_name]. left. split; [done|]. split; [done|]. by eexists _, _, _.
    + destruct Hok as [(Hr' & Hf & n & cb & r & [= -> <-] & Hl & Hn)|(? & _)]; [|done]. eapply (K _ _ _ _ _ _ _ _ past (On n cb :: todo)); [exact Hp|done|].
      unfold prog2_ok. cbn [s_pc s_flag s_todo s_listener s_name s_wrapper]. left. split; [done|]. split; [done|]. by eexists _, _, _.
    + destruct Hok as [(Hr' & Hf & n & cb & r & [= -> <-] & Hl & Hn & Hw)|(? & _)]; [|done]. eapply (K _ _ _ _ _ _ _ _ (past ++ [On n cb]) todo); [by rewrite <-app_assoc|done|].
      unfold prog2_ok. cbn [s_pc s_flag s_listener s_name s_wrapper]. rewrite reg_after_snoc, Hr'. done.
    + destruct Hok as [(_ & _ & ?)|(_ & Hf & r & [= -> <-])]; [done|]. eapply (K _ _ _ _ _ _ _ _ (past ++ [Off]) todo); [by rewrite <-app_assoc|done|].
      unfold prog2_ok. cbn [s_pc s_flag s_listener s_name s_wrapper]. by rewrite reg_after_snoc.
Qed.
Lemma B_emit pre s i e o em em' log : B pre s -> s_start s = Some i -> s_ems s !! e = Some em ->
  match o with ARead l f _ => l = LStart /\ f = i \/ (exists k o', s_tr s !! k = Some (Ev (etid e) o') /\ hb (s_tr s) i k) | DRead _ _ => exists k o', s_tr s !! k = Some (Ev (etid e) o') /\ hb (s_tr s) i k | _ => False end ->
  match em_pc em' with EIdle => True | EFlag => exists rest, em_todo em' = Emit (s_name s) :: rest | _ => s_flag s = true /\ exists rest, em_todo em' = Emit (s_name s) :: rest end ->
  Forall (fun '(_, n, r) => r = expected (reg_after pre) n) log -> B pre (e_emit s e o em' log).
Proof.
  intros [W O L P] Hs He Ho Hem Hl. rewrite Hs in P. destruct P as (P1 & P2 & P3 & P4 & P5 & P6).
  assert (Hlast : hb (s_tr s ++ [Ev (etid e) o]) i (length (s_tr s))).
  { destruct o as [|l f v| |x v|]; try done.
    - destruct Ho as [[-> ->]|(k & o' & Hk & Hh)]; [by eapply sc_read|]. eapply hb_trans; [apply hb_app; exact Hh|by eapply same_thread].
    - destruct Ho as (k & o' & Hk & Hh). eapply hb_trans; [apply hb_app; exact Hh|by eapply same_thread]. }
  constructor; cbn [e_emit s_tr s_log s_start].
  - intros j t x v H. apply snoc_inv in H as [H|[_ H]]; [by eapply W|]. injection H as _ Eo. by rewrite <-Eo in Ho.
  - apply ord_snoc; [done|]. intros j a Ha Hc _. destruct o as [| | |x v|]; try done; [destruct a as [t []]; done|]. destruct a as [t [| | |y u|y u]]; cbn [ev_op] in *; try done.
    eapply hb_trans; [|exact Hlast]. apply hb_app. eapply po_intro; [apply P2; by exists t, y, u|exact Ha|exact P1|]. cbn. by eapply W.
  - apply Forall_app. by split.
  - rewrite Hs. split; [by apply lookup_app_l_Some|]. split; [|split; [done|split; [done|split; [exact P5|]]]].
    + intros j Hj. apply snoc_write in Hj as [Hj|[_ (t & x & v & [= _ Eo])]]; [by apply P2|]. by rewrite Eo in Ho.
    + cbn [s_ems]. intros e1 em1 H. apply list_lookup_insert_Some in H as [(<- & <- & _)|[_ H]].
      * right. cbn [s_tr s_flag s_name]. split; [|exact Hem]. exists (length (s_tr s)), o. split; [by apply list_lookup_middle|done].
      * destruct (P6 _ _ H) as [?|[(k & o' & Hk & Hh) ?]]; [by left|right]. cbn [s_tr s_flag s_name]. split; [|done]. exists k, o'. split; [by apply lookup_app_l_Some|by apply hb_app].
Qed.
Lemma B_em pre s e : B pre s -> B pre (e_step s e).
Proof.
  intros I. unfold e_step. destruct (s_ems s !! e) as [[pc [|o rest]]|] eqn:He; try done.
  destruct (s_start s) as [i|] eqn:Es.
  2:{ pose proof (b_phase _ _ I) as H. rewrite Es in H. destruct H as (_ & H & _). destruct (H _ _ He) as [E1 [r E2]]. cbn in E1, E2. injection E2 as -> ->. by rewrite E1. }
  pose proof (b_phase _ _ I) as H. rewrite Es in H. destruct H as (P1 & P2 & P3 & P4 & P5 & P6). unfold prog2_ok in P5. rewrite P4 in P5.
  destruct (P6 _ _ He) as [[E1 [r E2]]|[Hk Hpc]]; cbn [em_pc em_todo] in *.
  - injection E2 as -> ->. rewrite E1. eapply B_emit; [done|done|exact He|by left|done|done].
  - destruct pc.
    + destruct o as [|n]; [eapply B_emit; [done|done|exact He|by right|done|done]|].
      case_decide as Hd; (eapply B_emit; [done|done|exact He|done| |]); try done.
      * cbn. exists rest. by rewrite Hd.
      * repeat constructor. unfold expected. destruct (reg_after pre) as [[m cb]|]; [|done]. destruct P5 as (_ & _ & <- & _). by rewrite decide_False.
    + destruct Hpc as [r [= -> ->]]. destruct (s_flag s) eqn:Ef; (eapply B_emit; [done|done|exact He|by right| |]); try done.
      * cbn. split; [done|by exists r].
      * repeat constructor. unfold expected. destruct (reg_after pre) as [[m cb]|]; [by destruct P5|done].
    + destruct Hpc as (Hf & r & [= -> ->]). destruct (reg_after pre) as [[m cb]|] eqn:Er; [|congruence]. destruct P5 as (_ & _ & _ & ->). eapply B_emit; [done|done|exact He|done| |done].
      cbn. split; [done|by exists r].
    + destruct Hpc as (Hf & r & [= -> ->]). eapply B_emit; [done|done|exact He|done|done|]. constructor; [|done].
      destruct (reg_after pre) as [[m cb]|] eqn:Er; [|congruence]. destruct P5 as (_ & -> & -> & _). unfold expected. by rewrite decide_True.
Qed.
Lemma B_run pre eprogs acts : Release ∉ pre -> Forall (fun p => exists rest, p = Acquire :: rest) eprogs -> B pre (s_run (pre ++ [Release]) eprogs acts).
Proof.
  intros Hr He. unfold s_run. assert (H : B pre (s_new (pre ++ [Release]) eprogs)).
  { constructor; cbn [s_new s_tr s_log s_start].
    - intros i t x v H. by destruct i as [|[|]].
    - intros i j a b Hij Ha Hb Hc. destruct i as [|[|]]; [|done..]. injection Ha as <-. done.
    - done.
    - split; [|split].
      + intros i t o H. destruct i as [|[|]]; [by injection H|done..].
      + intros e em H. cbn [s_new s_ems] in H. rewrite list_lookup_fmap in H. apply fmap_Some in H as (p & Hp & ->). split; [done|]. by eapply Forall_lookup_1 in He.
      + by exists [], pre. }
  revert H. generalize (s_new (pre ++ [Release]) eprogs). induction acts as [|a acts IH]; intros s H; [done|]. cbn [fold_left]. apply IH.
  destruct a; cbn [s_step]; [by apply B_reg|by apply B_em].
Qed.
(** If a thread makes all its registrations and removals before it hands the emitter over, and any number of other threads emit after that, there is no data race, and each emission does what it should:
    it calls the callback of the listener that is registered, exactly if its event is that of the listener. *)
Theorem C204_set_up_first pre eprogs acts : Release ∉ pre -> Forall (fun p => exists rest, p = Acquire :: rest) eprogs -> let s := s_run (pre ++ [Release]) eprogs acts in
  (forall i j, ~ race (s_tr s) i j) /\ forall e n r, (e, n, r) ∈ s_log s -> r = expected (reg_after pre) n.
Proof.
  intros Hr He s. pose proof (B_run pre eprogs acts Hr He) as I. fold s in I. split.
  - intros i j (Hij & (a & b & Ha & Hb & Hc) & Hn). apply Hn. eapply (b_ord _ _ I); [done|exact Ha|exact Hb|done|done].
  - intros e n r H. pose proof (b_log _ _ I) as HL. rewrite Forall_forall in HL. exact (HL _ H).
Qed.
Print Assumptions C204_set_up_first.
(** *** Every emission returns once, in the order of the thread's calls. *)
Lemma emitted_snoc e u n r log : emitted e (log ++ [(u, n, r)]) = emitted e log ++ (if decide (u = e) then [n] else []).
Proof. unfold emitted. rewrite omap_app. f_equal. cbn. by case_decide. Qed.
Definition Em (eprogs : list (list eop)) (s : sst) : Prop :=
  forall e em, s_ems s !! e = Some em -> exists p past, eprogs !! e = Some p /\ p = past ++ em_todo em /\ emits past = emitted e (s_log s).
Lemma Em_emit eprogs s e o em em' : Em eprogs s -> s_ems s !! e = Some em -> em_todo em' = em_todo em -> Em eprogs (e_emit s e o em' []).
Proof.
  intros H He E e1 em1 H1. cbn [e_emit s_ems s_log] in *. rewrite app_nil_r. apply list_lookup_insert_Some in H1 as [(<- & <- & _)|[_ H1]]; [|by apply H]. destruct (H _ _ He) as (p & past & ? & ? & ?).
  exists p, past. by rewrite E.
Qed.
Lemma Em_done eprogs s e o pc n rest r : Em eprogs s -> s_ems s !! e = Some (Emitter pc (Emit n :: rest)) -> Em eprogs (e_emit s e o (Emitter EIdle rest) [(e, n, r)]).
Proof.
  intros H He e1 em1 H1. cbn [e_emit s_ems s_log] in *. rewrite emitted_snoc. apply list_lookup_insert_Some in H1 as [(<- & <- & _)|[Hne H1]].
  - destruct (H _ _ He) as (p & past & ? & ? & Hq). rewrite decide_True by done. exists p, (past ++ [Emit n]). cbn [em_todo] in *. split; [done|]. split; [by rewrite <-app_assoc|].
    unfold emits in *. by rewrite omap_app, Hq.
  - rewrite decide_False by done. rewrite app_nil_r. by apply H.
Qed.
Theorem C204_answers rprog eprogs acts e em : let s := s_run rprog eprogs acts in s_ems s !! e = Some em ->
  exists p past, eprogs !! e = Some p /\ p = past ++ em_todo em /\ emits past = emitted e (s_log s).
Proof.
  cbn zeta. revert e em. change (Em eprogs (s_run rprog eprogs acts)). unfold s_run. assert (H : Em eprogs (s_new rprog eprogs)).
  { intros e em H. cbn [s_new s_ems s_log] in *. rewrite list_lookup_fmap in H. apply fmap_Some in H as (p & Hp & ->). by exists p, []. }
  revert H. generalize (s_new rprog eprogs). induction acts as [|a acts IH]; intros s H; [done|]. cbn [fold_left]. apply IH. clear IH acts.
  destruct a as [|e]; cbn [s_step].
  - assert (E : s_ems (r_step s) = s_ems s /\ s_log (r_step s) = s_log s).
    { unfold r_step. destruct (s_todo s) as [|o rest]; [done|]. by destruct (s_pc s), o. }
    destruct E as [E1 E2]. intros e em. rewrite E1, E2. apply H.
  - unfold e_step. destruct (s_ems s !! e) as [[pc [|o rest]]|] eqn:He; try done. destruct pc, o as [|n]; try done; try (repeat case_match; first [done|by eapply Em_emit|by eapply Em_done]).
    destruct (s_start s); [|done]. intros e1 em1 H1. cbn [e_emit s_ems s_log] in *. rewrite app_nil_r. apply list_lookup_insert_Some in H1 as [(<- & <- & _)|[_ H1]]; [|by apply H].
    destruct (H _ _ He) as (p & past & ? & ? & Hq). exists p, (past ++ [Acquire]). cbn [em_todo] in *. split; [done|]. split; [by rewrite <-app_assoc|]. unfold emits in *. rewrite omap_app, Hq. by rewrite app_nil_r.
Qed.
Print Assumptions C204_answers.
(** Concrete executions. Two emitting threads wait; thread 0 registers, removes, registers again and hands over; both emit "b", one of them "a" too. *)
Definition ex_pre : list sop := [On "a" 1; Off; On "b" 2; On "c" 3].
Definition ex_em : list (list eop) := [[Acquire; Emit "b"; Emit "a"]; [Acquire; Emit "b"]].
Definition ex_acts : list sact := [SEmit 0; SReg; SEmit 1] ++ repeat SReg 13 ++ [SEmit 0; SEmit 1; SEmit 0; SEmit 1; SEmit 0; SEmit 1; SEmit 1; SEmit 0; SEmit 0; SEmit 1; SEmit 0].
Example C204_case : let s := s_run (ex_pre ++ [Release]) ex_em ex_acts in
  s_log s = [(0%nat, "b"%string, Called (Fun 2)); (1%nat, "b"%string, Called (Fun 2)); (0%nat, "a"%string, Skipped)] /\ reg_after ex_pre = Some ("b"%string, 2%nat) /\
  Release ∉ ex_pre /\ Forall (fun p => exists rest, p = Acquire :: rest) ex_em.
Proof.
  split; [by vm_compute|]. split; [done|]. split.
  - unfold ex_pre. rewrite !elem_of_cons, elem_of_nil. intros [|[|[|[|]]]]; done.
  - unfold ex_em. repeat constructor; by eexists.
Qed.
(** Thread 0 registers twice while another emits: nothing, and then the first callback. *)
Example C204_register_case : let s := s_run [On "a" 1; On "b" 2] [[Emit "a"; Emit "b"; Emit "a"]] ([SEmit 0] ++ repeat SReg 6 ++ [SEmit 0; SEmit 0; SEmit 0; SEmit 0; SEmit 0]) in
  s_log s = [(0%nat, "a"%string, Skipped); (0%nat, "b"%string, Skipped); (0%nat, "a"%string, Called (Fun 1))] /\ s_todo s = [] /\ Off ∉ [On "a" 1; On "b" 2].
Proof. split; [by vm_compute|]. split; [by vm_compute|]. rewrite !elem_of_cons, elem_of_nil. intros [|[|]]; done. Qed.

(** ** C205 (refuted): listeners may be registered and removed while others emit. *)
Definition C205_statement : Prop := forall rprog eprogs acts, let s := s_run rprog eprogs acts in
  (forall i j, ~ race (s_tr s) i j) /\ (forall e n r, (e, n, r) ∈ s_log s -> r = Skipped \/ exists cb, r = Called (Fun cb) /\ On n cb ∈ rprog).
Ltac find_race mark := split; [split; [lia|split; [do 2 eexists; split_and!; [done|done|done]|apply (not_hb _ mark); [by vm_compute|done|done]]]|].
(** While a listener is registered, an emission reads the event name that is being written. *)
Theorem C205_name_race_refuted : let s := s_run [On "a" 1] [[Emit "a"]] [SReg; SReg; SReg; SEmit 0] in race_on (s_tr s) XName 3 4.
Proof.
  assert (E : s_tr (s_run [On "a" 1] [[Emit "a"]] [SReg; SReg; SReg; SEmit 0]) = [Ev 0%nat (AWrite LFlag 0); Ev 0%nat (ARead LFlag 0 0); Ev 0%nat (DWrite XListener (VListener (Fun 1)));
    Ev 0%nat (DWrite XName (VName "a")); Ev 1%nat (DRead XName (VName "a"))]) by reflexivity.
  cbv zeta. rewrite E. find_race (fun i => (i =? 3)%nat). split; do 2 eexists; (split; [done|]); [right|left]; by eexists.
Qed.
Print Assumptions C205_name_race_refuted.
(** A removal replaces the callback that an emission is calling. *)
Definition C205_off_acts : list sact := repeat SReg 6 ++ [SEmit 0; SEmit 0; SEmit 0; SEmit 0; SReg; SReg; SEmit 0].
Theorem C205_callback_race_refuted : let s := s_run [On "a" 1; Release; Off] [[Acquire; Emit "a"]] C205_off_acts in
  race_on (s_tr s) XListener 12 13 /\ s_log s = [(0%nat, "a"%string, Called Noop)].
Proof.
  cbv zeta. split; [|by vm_compute].
  assert (E : s_tr (s_run [On "a" 1; Release; Off] [[Acquire; Emit "a"]] C205_off_acts) = [Ev 0%nat (AWrite LFlag 0); Ev 0%nat (ARead LFlag 0 0); Ev 0%nat (DWrite XListener (VListener (Fun 1)));
    Ev 0%nat (DWrite XName (VName "a")); Ev 0%nat (DWrite XWrapper (VWrapper true)); Ev 0%nat (AWrite LFlag 1); Ev 0%nat (AWrite LStart 1); Ev 1%nat (ARead LStart 6 1); Ev 1%nat (DRead XName (VName "a"));
    Ev 1%nat (ARead LFlag 5 1); Ev 1%nat (DRead XWrapper (VWrapper true)); Ev 0%nat (AWrite LFlag 0); Ev 0%nat (DWrite XListener (VListener Noop)); Ev 1%nat (DRead XListener (VListener Noop))]) by reflexivity.
  rewrite E. find_race (fun i => (i =? 12)%nat). split; do 2 eexists; (split; [done|]); [right|left]; by eexists.
Qed.
Print Assumptions C205_callback_race_refuted.
(** Whatever the memory: an event of one name reaches the listener of another, which was registered between the comparison of the names and the call. *)
Definition C205_wrong_acts : list sact := repeat SReg 6 ++ [SEmit 0; SEmit 0] ++ repeat SReg 7 ++ [SEmit 0; SEmit 0; SEmit 0].
Theorem C205_wrong_listener_refuted : let s := s_run [On "a" 1; Release; Off; On "b" 2] [[Acquire; Emit "a"]] C205_wrong_acts in s_log s = [(0%nat, "a"%string, Called (Fun 2))].
Proof. by vm_compute. Qed.
Print Assumptions C205_wrong_listener_refuted.
Theorem C205_refuted : ~ C205_statement.
Proof. intros H. destruct (H [On "a"%string 1] [[Emit "a"%string]] [SReg; SReg; SReg; SEmit 0]) as [H1 _]. apply (H1 3%nat 4%nat). apply C205_name_race_refuted. Qed.
Print Assumptions C205_refuted.
