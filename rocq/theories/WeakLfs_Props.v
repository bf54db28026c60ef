(** * C200, C201: the lock-free stack (and so the object pool) on the C++ memory model. *)
From stdpp Require Import prelude.
From Coq Require Import ZArith Lia.
From Verif Require Import WeakMem WeakLfs_Model.
Local Open Scope Z_scope.

(** ** C201: what is handed over through the stack is ordered. *)
Definition on_content (tr : list lev) (x : Z) (d : nat) : Prop := exists t o, tr !! d = Some (Ev t o) /\ ((exists v, o = DRead (XData x) v) \/ exists v, o = DWrite (XData x) v).
(** The node an operation has taken from one list and not yet put on the other. *)
Definition holds (th : lthread) : option Z :=
  match lt_pc th with LData x | LMoved x _ | LGive x _ | LSet x _ _ | LGcas x _ _ => Some x | LIdle | LNext _ | LCas _ _ => None end.
(** Where a node is. An execution is consistent if every node an operation takes from a list is there: it is where it was put last, and no one holds it. (On sequentially consistent memory every execution
    in which no call overlaps 65536 others is, see C01.) *)
Inductive place := At (l : lloc) | Held.
Definition put (pl : Z -> place) (x : Z) (p : place) : Z -> place := fun y => if decide (y = x) then p else pl y.
Fixpoint consistent (cap : Z) (pl : Z -> place) (s : lst) (acts : list lact) : Prop :=
  match acts with
  | [] => True
  | LStep t from ok :: rest =>
      let s' := l_step cap s (LStep t from ok) in
      match l_thr s !! t, l_thr s' !! t with
      | Some (Lthread pc (o :: ops)), Some th' =>
          match holds (Lthread pc (o :: ops)), holds th' with
          | None, Some x => pl x = At (takes_from o) /\ consistent cap (put pl x Held) s' rest
          | Some x, None => consistent cap (put pl x (At (gives_to o))) s' rest
          | _, _ => consistent cap pl s' rest
          end
      | _, _ => consistent cap pl s' rest
      end
  end.
(** A new stack: the nodes there are, are on the stack. *)
Definition stack_of (cap : Z) : Z -> place := fun x => if decide (0 <= x < cap) then At LHead else Held.

(** *** The compare-exchanges of one list happen one after the other. *)
Definition is_cas (tr : list lev) (l : lloc) (i : nat) : Prop := exists t f v, tr !! i = Some (Ev t (ARmw l f v)).
Record Chain (s : lst) : Prop := {
  ch_last : forall l, exists t o v, l_tr s !! l_last s l = Some (Ev t o) /\ writes_to o l v;
  ch_before : forall l i, is_cas (l_tr s) l i -> hbe (l_tr s) i (l_last s l);
  ch_pair : forall l i j, (i < j)%nat -> is_cas (l_tr s) l i -> is_cas (l_tr s) l j -> hb (l_tr s) i j
}.
Lemma is_cas_snoc tr e l i : is_cas (tr ++ [e]) l i -> is_cas tr l i \/ (i = length tr /\ exists t f v, e = Ev t (ARmw l f v)).
Proof.
  intros (t & f & v & H). apply lookup_app_Some in H as [H|[Hl H]]; [left; by exists t, f, v|right]. apply list_lookup_singleton_Some in H as [H ->]. split; [lia|by exists t, f, v].
Qed.
Lemma is_cas_lt tr l i : is_cas tr l i -> (i < length tr)%nat.
Proof. intros (t & f & v & H). by eapply lookup_lt_Some. Qed.
Definition neutral (o : option lev) : Prop := match o with Some (Ev _ (ARmw _ _ _)) => False | _ => True end.
Lemma chain_emit s o t th : neutral o -> Chain s -> Chain (l_emit s o t th).
Proof.
  intros Hn [C1 C2 C3]. destruct o as [e|]; unfold l_emit; [|rewrite app_nil_r; constructor; assumption].
  assert (E : forall l i, is_cas (l_tr s ++ [e]) l i -> is_cas (l_tr s) l i). { intros l i H. apply is_cas_snoc in H as [H|(_ & t' & f & v & ->)]; [done|done]. }
  constructor; cbn [l_tr l_last l_head l_free].
  - intros l. destruct (C1 l) as (t' & o & v & H1 & H2). exists t', o, v. split; [|done]. apply lookup_app_l_Some. by destruct l.
  - intros l i H. apply E in H. apply hbe_app. specialize (C2 l i H). by destruct l.
  - intros l i j Hij Hi Hj. apply hb_app. apply (C3 l); auto.
Qed.
Lemma last_cas s t l v th log l' : l_last (l_cas s t l v th log) l' = if decide (l' = l) then length (l_tr s) else l_last s l'.
Proof. by destruct l, l'. Qed.
Lemma sw_last s t l v : Chain s -> hb (l_tr s ++ [Ev t (ARmw l (l_last s l) v)]) (l_last s l) (length (l_tr s)).
Proof.
  intros C. destruct (ch_last s C l) as (t' & o & w & H1 & H2). apply hb_sw. exists (Ev t' o), (Ev t (ARmw l (l_last s l) v)). split; [by apply lookup_app_l_Some|]. split; [by apply list_lookup_middle|].
  exists l, w. split; [done|]. right. by exists v.
Qed.
Lemma chain_new_hb s t l v i : Chain s -> is_cas (l_tr s) l i -> hb (l_tr s ++ [Ev t (ARmw l (l_last s l) v)]) i (length (l_tr s)).
Proof. intros C H. eapply hbe_hb; [apply hbe_app, (ch_before s C l i H)|by apply sw_last]. Qed.
Lemma chain_cas s t l v th log : Chain s -> Chain (l_cas s t l v th log).
Proof.
  intros C. constructor.
  - intros l'. rewrite last_cas. cbn [l_cas l_tr]. destruct (decide (l' = l)) as [->|Hne].
    + exists (l_tid t), (ARmw l (l_last s l) v), v. split; [by apply list_lookup_middle|]. right. by eexists.
    + destruct (ch_last s C l') as (t' & o & w & H1 & H2). exists t', o, w. split; [by apply lookup_app_l_Some|done].
  - intros l' i H. rewrite last_cas. cbn [l_cas l_tr] in *. apply is_cas_snoc in H as [H|[-> (t' & f & w & [= _ -> _ _])]].
    + destruct (decide (l' = l)) as [->|Hne]; [right; by apply chain_new_hb|]. apply hbe_app. by apply C.
    + rewrite decide_True by done. by left.
  - intros l' i j Hij Hi Hj. cbn [l_cas l_tr] in *. apply is_cas_snoc in Hi as [Hi|[-> _]].
    2:{ apply is_cas_snoc in Hj as [Hj|[-> _]]; [apply is_cas_lt in Hj; lia|lia]. }
    apply is_cas_snoc in Hj as [Hj|[-> (t' & f & w & [= _ -> _ _])]]; [apply hb_app; by apply (ch_pair s C l')|]. by apply chain_new_hb.
Qed.
Lemma chain_idle s h log : Chain s -> Chain (Lst (l_tr s) (l_head s) (l_free s) h log).
Proof. intros [C1 C2 C3]. constructor; assumption. Qed.
Lemma chain_step cap s a : Chain s -> Chain (l_step cap s a).
Proof.
  intros C. destruct a as [t from ok]. cbn [l_step]. destruct (l_thr s !! t) as [[pc [|o rest]]|]; try done. destruct pc; cbn [l_tstep]; repeat case_match; try done;
    try (by apply chain_cas); try (by apply chain_idle); try (by apply chain_emit).
Qed.
Lemma chain_new progs : Chain (l_new progs).
Proof.
  constructor.
  - intros []; cbn; eexists _, _, _; (split; [done|]); by left.
  - intros l i (t & f & v & H). cbn in H. destruct i as [|[|]]; cbn in H; done.
  - intros l i j _ (t & f & v & H). cbn in H. destruct i as [|[|]]; cbn in H; done.
Qed.
Lemma chain_run cap progs acts : Chain (l_run cap progs acts).
Proof.
  unfold l_run. pose proof (chain_new progs) as H. revert H. generalize (l_new progs). induction acts as [|a acts IH]; intros s H; [done|]. cbn [fold_left]. by apply IH, chain_step.
Qed.
(** Whatever a thread did before it updated a list happens before whatever another does after a later update of that list: in particular what was written to an element before it was pushed is seen by the
    thread that pops it. *)
Theorem C201_handed_over cap progs acts l i j k m t t' oi om : let tr := l_tr (l_run cap progs acts) in
  tr !! i = Some (Ev t oi) -> (i < j)%nat -> (exists f v, tr !! j = Some (Ev t (ARmw l f v))) ->
  (j < k)%nat -> (exists f v, tr !! k = Some (Ev t' (ARmw l f v))) -> (k < m)%nat -> tr !! m = Some (Ev t' om) -> hb tr i m /\ ~ race tr i m.
Proof.
  intros tr Hi Hij (f & v & Hj) Hjk (f' & v' & Hk) Hkm Hm.
  assert (H : hb tr i m); [|split; [done|intros (_ & _ & Hr); by apply Hr]].
  eapply hb_trans; [eapply po_intro; [exact Hij|exact Hi|exact Hj|done]|]. eapply hb_trans; [|eapply po_intro; [exact Hkm|exact Hk|exact Hm|done]].
  apply (ch_pair _ (chain_run cap progs acts) l); [done|by exists t, f, v|by exists t', f', v'].
Qed.
Print Assumptions C201_handed_over.
(** *** Accesses to the elements in consistent executions. *)
Definition content_op (x : Z) (o : wop lloc lobj Z) : Prop := (exists v, o = DRead (XData x) v) \/ exists v, o = DWrite (XData x) v.
Record J (pl : Z -> place) (s : lst) : Prop := {
  j_chain : Chain s;
  j_at : forall x d l, on_content (l_tr s) x d -> pl x = At l -> exists g, is_cas (l_tr s) l g /\ hb (l_tr s) d g;
  j_held : forall t th x, l_thr s !! t = Some th -> holds th = Some x -> pl x = Held;
  j_uniq : forall t t' th th' x, l_thr s !! t = Some th -> l_thr s !! t' = Some th' -> holds th = Some x -> holds th' = Some x -> t = t';
  j_owner : forall t th x d, l_thr s !! t = Some th -> holds th = Some x -> on_content (l_tr s) x d -> exists e o, l_tr s !! e = Some (Ev (l_tid t) o) /\ hbe (l_tr s) d e;
  j_ord : forall x i j, (i < j)%nat -> on_content (l_tr s) x i -> on_content (l_tr s) x j -> hb (l_tr s) i j
}.
Lemma content_snoc tr e x d : on_content (tr ++ [e]) x d -> on_content tr x d \/ (d = length tr /\ content_op x (ev_op e)).
Proof.
  intros (t & o & H & Ho). apply lookup_app_Some in H as [H|[Hl H]]; [left; by exists t, o|right]. apply list_lookup_singleton_Some in H as [H ->]. split; [lia|done].
Qed.
Lemma content_lt tr x d : on_content tr x d -> (d < length tr)%nat.
Proof. intros (t & o & H & _). by eapply lookup_lt_Some. Qed.
Lemma cas_app tr tr' l g : is_cas tr l g -> is_cas (tr ++ tr') l g.
Proof. intros (t & f & v & H). exists t, f, v. by apply lookup_app_l_Some. Qed.
Lemma thr_insert (ths : list lthread) t (th' : lthread) t1 th1 : <[t := th']> ths !! t1 = Some th1 -> (t1 = t /\ th1 = th' /\ (t < length ths)%nat) \/ (t1 <> t /\ ths !! t1 = Some th1).
Proof. intros H. apply list_lookup_insert_Some in H as [(<- & <- & ?)|[? ?]]; [left|right]; auto. Qed.
(** Nothing but a thread that goes on. *)
Lemma J_idle pl s t th th' log : J pl s -> l_thr s !! t = Some th -> holds th' = None -> J pl (Lst (l_tr s) (l_head s) (l_free s) (<[t := th']> (l_thr s)) log).
Proof.
  intros [C A H U O R] Ht Hh. constructor; cbn [l_tr l_thr]; try assumption.
  - by apply chain_idle.
  - intros t1 th1 x H1 H2. apply thr_insert in H1 as [(-> & -> & _)|[_ H1]]; [congruence|eauto].
  - intros t1 t2 th1 th2 x H1 H2 E1 E2. apply thr_insert in H1 as [(-> & -> & _)|[_ H1]]; [congruence|]. apply thr_insert in H2 as [(-> & -> & _)|[_ H2]]; [congruence|eauto].
  - intros t1 th1 x d H1 H2. apply thr_insert in H1 as [(-> & -> & _)|[_ H1]]; [congruence|eauto].
Qed.
(** An event that touches no element. *)
Lemma J_neutral pl s o t th th' : neutral o -> (forall x e, o = Some e -> ~ content_op x (ev_op e)) -> J pl s -> l_thr s !! t = Some th -> holds th' = holds th -> J pl (l_emit s o t th').
Proof.
  intros Hn Hc I Ht Hh. pose proof (chain_emit s o t th' Hn (j_chain _ _ I)) as C'. destruct I as [C A H U O R].
  assert (E : forall x d, on_content (l_tr (l_emit s o t th')) x d -> on_content (l_tr s) x d).
  { intros x d Hd. cbn [l_emit l_tr] in Hd. destruct o as [e|]; [|by rewrite app_nil_r in Hd]. apply content_snoc in Hd as [Hd|[_ Hd]]; [done|]. by destruct (Hc x e eq_refl). }
  assert (T : forall t1 th1 x, l_thr (l_emit s o t th') !! t1 = Some th1 -> holds th1 = Some x -> exists th2, l_thr s !! t1 = Some th2 /\ holds th2 = Some x).
  { intros t1 th1 x H1 H2. cbn [l_emit l_thr] in H1. apply thr_insert in H1 as [(-> & -> & _)|[_ H1]]; [exists th; split; [done|congruence]|eauto]. }
  constructor.
  - done.
  - intros x d l Hd Hp. destruct (A x d l (E _ _ Hd) Hp) as (g & G1 & G2). exists g. cbn [l_emit l_tr]. split; [by apply cas_app|by apply hb_app].
  - intros t1 th1 x H1 H2. destruct (T _ _ _ H1 H2) as (th2 & ? & ?). eauto.
  - intros t1 t2 th1 th2 x H1 H2 E1 E2. destruct (T _ _ _ H1 E1) as (? & ? & ?), (T _ _ _ H2 E2) as (? & ? & ?). eauto.
  - intros t1 th1 x d H1 H2 Hd. destruct (T _ _ _ H1 H2) as (th2 & K1 & K2). destruct (O _ _ _ _ K1 K2 (E _ _ Hd)) as (e & op & F1 & F2). exists e, op. cbn [l_emit l_tr]. split; [by apply lookup_app_l_Some|by apply hbe_app].
  - intros x i j Hij Hi Hj. cbn [l_emit l_tr]. apply hb_app. eauto.
Qed.
(** The holder touches the element. *)
Lemma J_access pl s op t th th' x : content_op x op -> J pl s -> l_thr s !! t = Some th -> holds th = Some x -> holds th' = Some x -> J pl (l_emit s (Some (Ev (l_tid t) op)) t th').
Proof.
  intros Hc I Ht Hh Hh'. assert (Hn : neutral (Some (Ev (l_tid t) op))) by (destruct Hc as [[v ->]|[v ->]]; done).
  pose proof (chain_emit s _ t th' Hn (j_chain _ _ I)) as C'. destruct I as [C A H U O R]. set (n := length (l_tr s)).
  assert (E : forall y d, on_content (l_tr s ++ [Ev (l_tid t) op]) y d -> on_content (l_tr s) y d \/ (d = n /\ y = x)).
  { intros y d Hd. apply content_snoc in Hd as [Hd|[-> Hd]]; [by left|right]. split; [done|]. cbn [ev_op] in Hd. destruct Hc as [[v ->]|[v ->]], Hd as [[w Hd]|[w Hd]]; congruence. }
  assert (T : forall t1 th1 y, l_thr (l_emit s (Some (Ev (l_tid t) op)) t th') !! t1 = Some th1 -> holds th1 = Some y -> exists th2, l_thr s !! t1 = Some th2 /\ holds th2 = Some y).
  { intros t1 th1 y H1 H2. cbn [l_emit l_thr] in H1. apply thr_insert in H1 as [(-> & -> & _)|[_ H1]]; [exists th; split; [done|congruence]|eauto]. }
  assert (L : forall d, on_content (l_tr s) x d -> hb (l_tr s ++ [Ev (l_tid t) op]) d n).
  { intros d Hd. destruct (O _ _ _ _ Ht Hh Hd) as (e & o & F1 & F2). eapply hbe_hb; [apply hbe_app, F2|]. pose proof (lookup_lt_Some _ _ _ F1).
    eapply po_intro; [|by apply lookup_app_l_Some|by apply list_lookup_middle|done]. done. }
  constructor.
  - done.
  - intros y d l Hd Hp. cbn [l_emit l_tr] in *. apply E in Hd as [Hd|[-> ->]]; [|rewrite (H _ _ _ Ht Hh) in Hp; done]. destruct (A y d l Hd Hp) as (g & G1 & G2). exists g. split; [by apply cas_app|by apply hb_app].
  - intros t1 th1 y H1 H2. destruct (T _ _ _ H1 H2) as (th2 & ? & ?). eauto.
  - intros t1 t2 th1 th2 y H1 H2 E1 E2. destruct (T _ _ _ H1 E1) as (? & ? & ?), (T _ _ _ H2 E2) as (? & ? & ?). eauto.
  - intros t1 th1 y d H1 H2 Hd. destruct (T _ _ _ H1 H2) as (th2 & K1 & K2). cbn [l_emit l_tr] in *. apply E in Hd as [Hd|[-> ->]].
    + destruct (O _ _ _ _ K1 K2 Hd) as (e & o & F1 & F2). exists e, o. split; [by apply lookup_app_l_Some|by apply hbe_app].
    + rewrite (U _ _ _ _ _ K1 Ht K2 Hh). exists n, op. split; [by apply list_lookup_middle|by left].
  - intros y i j Hij Hi Hj. cbn [l_emit l_tr] in *. apply E in Hi as [Hi|[-> ->]].
    2:{ apply E in Hj as [Hj|[-> _]]; [apply content_lt in Hj; unfold n in Hij; lia|lia]. }
    apply E in Hj as [Hj|[-> ->]]; [apply hb_app; eauto|by apply L].
Qed.
Lemma cas_content s t l v th log x d : on_content (l_tr (l_cas s t l v th log)) x d -> on_content (l_tr s) x d.
Proof. intros Hd. cbn [l_cas l_tr] in Hd. apply content_snoc in Hd as [Hd|[_ [[w Hd]|[w Hd]]]]; done. Qed.
Lemma J_take pl s t th th' l v x : J pl s -> l_thr s !! t = Some th -> holds th = None -> holds th' = Some x -> pl x = At l -> J (put pl x Held) (l_cas s t l v th' []).
Proof.
  intros I Ht Hh Hh' Hp. pose proof (chain_cas s t l v th' [] (j_chain _ _ I)) as C'. destruct I as [C A H U O R]. set (n := length (l_tr s)).
  assert (X : forall t1 th1, l_thr s !! t1 = Some th1 -> holds th1 = Some x -> False). { intros t1 th1 H1 H2. pose proof (H _ _ _ H1 H2). congruence. }
  constructor.
  - done.
  - intros y d l' Hd Hy. apply cas_content in Hd. unfold put in Hy. destruct (decide (y = x)); [done|]. destruct (A y d l' Hd Hy) as (g & G1 & G2). exists g. cbn [l_cas l_tr]. split; [by apply cas_app|by apply hb_app].
  - intros t1 th1 y H1 H2. cbn [l_cas l_thr] in H1. unfold put. destruct (decide (y = x)); [done|]. apply thr_insert in H1 as [(-> & -> & _)|[_ H1]]; [congruence|eauto].
  - intros t1 t2 th1 th2 y H1 H2 E1 E2. cbn [l_cas l_thr] in *. apply thr_insert in H1 as [(-> & -> & _)|[N1 H1]]; apply thr_insert in H2 as [(-> & -> & _)|[N2 H2]]; try done.
    + exfalso. eapply X; [exact H2|congruence].
    + exfalso. eapply X; [exact H1|congruence].
    + eauto.
  - intros t1 th1 y d H1 H2 Hd. apply cas_content in Hd. cbn [l_cas l_thr l_tr] in *. apply thr_insert in H1 as [(-> & -> & _)|[_ H1]].
    + assert (y = x) as -> by congruence. destruct (A x d l Hd Hp) as (g & G1 & G2). exists n, (ARmw l (l_last s l) v). split; [by apply list_lookup_middle|]. right. eapply hb_trans; [apply hb_app, G2|by apply chain_new_hb].
    + destruct (O _ _ _ _ H1 H2 Hd) as (e & o & F1 & F2). exists e, o. split; [by apply lookup_app_l_Some|by apply hbe_app].
  - intros y i j Hij Hi Hj. apply cas_content in Hi, Hj. cbn [l_cas l_tr]. apply hb_app. eauto.
Qed.
Lemma J_give pl s t th th' l v x log : J pl s -> l_thr s !! t = Some th -> holds th = Some x -> holds th' = None -> J (put pl x (At l)) (l_cas s t l v th' log).
Proof.
  intros I Ht Hh Hh'. pose proof (chain_cas s t l v th' log (j_chain _ _ I)) as C'. destruct I as [C A H U O R]. set (n := length (l_tr s)).
  constructor.
  - done.
  - intros y d l' Hd Hy. apply cas_content in Hd. unfold put in Hy. cbn [l_cas l_tr]. destruct (decide (y = x)) as [->|].
    + injection Hy as <-. destruct (O _ _ _ _ Ht Hh Hd) as (e & o & F1 & F2). pose proof (lookup_lt_Some _ _ _ F1) as Hlt. exists n. split; [exists (l_tid t), (l_last s l), v; by apply list_lookup_middle|].
      eapply hbe_hb; [apply hbe_app, F2|]. eapply po_intro; [exact Hlt|by apply lookup_app_l_Some|by apply list_lookup_middle|done].
    + destruct (A y d l' Hd Hy) as (g & G1 & G2). exists g. split; [by apply cas_app|by apply hb_app].
  - intros t1 th1 y H1 H2. cbn [l_cas l_thr] in H1. unfold put. apply thr_insert in H1 as [(-> & -> & _)|[N1 H1]]; [congruence|]. destruct (decide (y = x)) as [->|]; [|eauto]. destruct N1. eauto.
  - intros t1 t2 th1 th2 y H1 H2 E1 E2. cbn [l_cas l_thr] in *. apply thr_insert in H1 as [(-> & -> & _)|[N1 H1]]; [congruence|]. apply thr_insert in H2 as [(-> & -> & _)|[N2 H2]]; [congruence|eauto].
  - intros t1 th1 y d H1 H2 Hd. apply cas_content in Hd. cbn [l_cas l_thr l_tr] in *. apply thr_insert in H1 as [(-> & -> & _)|[_ H1]]; [congruence|].
    destruct (O _ _ _ _ H1 H2 Hd) as (e & o & F1 & F2). exists e, o. split; [by apply lookup_app_l_Some|by apply hbe_app].
  - intros y i j Hij Hi Hj. apply cas_content in Hi, Hj. cbn [l_cas l_tr]. apply hb_app. eauto.
Qed.
Definition step_place (pl : Z -> place) (s s' : lst) (t : nat) (pl' : Z -> place) : Prop :=
  match l_thr s !! t, l_thr s' !! t with
  | Some (Lthread pc (o :: ops)), Some th' =>
      match holds (Lthread pc (o :: ops)), holds th' with
      | None, Some x => pl x = At (takes_from o) /\ pl' = put pl x Held
      | Some x, None => pl' = put pl x (At (gives_to o))
      | _, _ => pl' = pl
      end
  | _, _ => pl' = pl
  end.
Lemma J_step cap pl pl' s t from ok : J pl s -> step_place pl s (l_step cap s (LStep t from ok)) t pl' -> J pl' (l_step cap s (LStep t from ok)).
Proof.
  intros I Hp. unfold step_place in Hp. cbn [l_step] in *. destruct (l_thr s !! t) as [[pc [|o rest]]|] eqn:Ht; [by subst pl'| |by subst pl'].
  assert (Lt : (t < length (l_thr s))%nat) by by eapply lookup_lt_Some.
  assert (E1 : forall e th', l_thr (l_emit s e t th') !! t = Some th') by (intros; by apply list_lookup_insert).
  assert (E2 : forall l v th' log, l_thr (l_cas s t l v th' log) !! t = Some th') by (intros; by apply list_lookup_insert).
  assert (Q : forall l e' x (e'' : lev), Some (Ev (l_tid t) (ARead l from e')) = Some e'' -> ~ content_op x (ev_op e'')).
  { intros l e' x e'' [= <-] [[w Hw]|[w Hw]]; done. }
  destruct pc as [|orig|orig nxt|node|node v|node v|node v orig|node v orig]; cbn [l_tstep] in *.
  - destruct (l_value _ _ _) as [v|]; [|rewrite Ht in Hp; cbn in Hp; by subst pl']. rewrite E1 in Hp. cbn in Hp. subst pl'. eapply J_neutral; [done|done|exact I|exact Ht|done].
  - destruct (idx_of orig =? undef).
    + cbn [l_thr] in Hp. rewrite list_lookup_insert in Hp by done. cbn in Hp. subst pl'. by eapply J_idle.
    + rewrite E1 in Hp. cbn [holds lt_pc] in Hp. subst pl'. eapply J_neutral; [done| |exact I|exact Ht|done]. intros x e [= <-] [[w Hw]|[w Hw]]; done.
  - destruct (ok && _).
    + rewrite E2 in Hp. cbn [holds lt_pc] in Hp. destruct Hp as [Hp ->]. by eapply J_take.
    + destruct (l_value _ _ _) as [v|]; [|rewrite Ht in Hp; cbn in Hp; by subst pl']. rewrite E1 in Hp. cbn [holds lt_pc] in Hp. subst pl'. eapply J_neutral; [done|by apply Q|exact I|exact Ht|done].
  - destruct o as [v|]; rewrite E1 in Hp; cbn [holds lt_pc] in Hp; subst pl'; (eapply J_access; [|exact I|exact Ht|done|done]); [right|left]; by eexists.
  - rewrite E1 in Hp; cbn [holds lt_pc] in Hp; subst pl'. eapply J_access; [|exact I|exact Ht|done|done]. right; by eexists.
  - destruct (l_value _ _ _) as [w|]; [|rewrite Ht in Hp; cbn in Hp; by subst pl']. rewrite E1 in Hp. cbn [holds lt_pc] in Hp. subst pl'. eapply J_neutral; [done|done|exact I|exact Ht|done].
  - rewrite E1 in Hp; cbn [holds lt_pc] in Hp; subst pl'. eapply J_neutral; [done| |exact I|exact Ht|done]. intros x e [= <-] [[w Hw]|[w Hw]]; done.
  - destruct (ok && _).
    + rewrite E2 in Hp. cbn [holds lt_pc] in Hp. subst pl'. by eapply J_give.
    + destruct (l_value _ _ _) as [w|]; [|rewrite Ht in Hp; cbn in Hp; by subst pl']. rewrite E1 in Hp. cbn [holds lt_pc] in Hp. subst pl'. eapply J_neutral; [done|by apply Q|exact I|exact Ht|done].
Qed.
Lemma J_run cap acts : forall pl s, J pl s -> consistent cap pl s acts -> exists pl', J pl' (fold_left (l_step cap) acts s).
Proof.
  induction acts as [|[t from ok] acts IH]; intros pl s I Hc; [by exists pl|]. cbn [fold_left]. cbn [consistent] in Hc.
  assert (exists pl', step_place pl s (l_step cap s (LStep t from ok)) t pl' /\ consistent cap pl' (l_step cap s (LStep t from ok)) acts) as (pl' & H1 & H2).
  { unfold step_place. destruct (l_thr s !! t) as [[pc [|o ops]]|]; [by exists pl| |by exists pl]. destruct (l_thr _ !! t) as [th'|]; [|by exists pl]. destruct (holds (Lthread pc (o :: ops))) as [x|], (holds th') as [y|].
    - by exists pl.
    - by eexists.
    - destruct Hc as [Hc1 Hc2]. by eexists.
    - by exists pl. }
  eapply IH; [by eapply J_step|exact H2].
Qed.
Lemma J_new pl progs : J pl (l_new progs).
Proof.
  constructor.
  + apply chain_new.
  + intros y d l (t & o & H & Ho). exfalso. destruct d as [|[|]]; cbn in H; try done; injection H as _ <-; destruct Ho as [[? ?]|[? ?]]; done.
  + intros t th y H1 H2. cbn [l_new l_thr] in H1. rewrite list_lookup_fmap in H1. apply fmap_Some in H1 as (p & _ & ->). done.
  + intros t t' th th' y H1 _ H2. cbn [l_new l_thr] in H1. rewrite list_lookup_fmap in H1. apply fmap_Some in H1 as (p & _ & ->). done.
  + intros t th y d H1 H2. cbn [l_new l_thr] in H1. rewrite list_lookup_fmap in H1. apply fmap_Some in H1 as (p & _ & ->). done.
  + intros y i' j' _ (t & o & H & Ho). exfalso. destruct i' as [|[|]]; cbn in H; try done; injection H as _ <-; destruct Ho as [[? ?]|[? ?]]; done.
Qed.
(** In a consistent execution any two accesses to one element are ordered: whatever races there are concern the links between the nodes, not what the users put into the pool. *)
Theorem C201_content_race_free cap pl progs acts : consistent cap pl (l_new progs) acts ->
  forall x i j, let tr := l_tr (l_run cap progs acts) in (i < j)%nat -> on_content tr x i -> on_content tr x j -> hb tr i j /\ ~ race tr i j.
Proof.
  intros Hc x i j tr Hij Hi Hj. destruct (J_run cap acts pl (l_new progs)) as [pl' I]; [apply J_new|done|].
  - assert (H : hb tr i j) by exact (j_ord _ _ I x i j Hij Hi Hj). split; [done|]. intros (_ & _ & Hr). by apply Hr.
Qed.
Print Assumptions C201_content_race_free.
(** *** Every call gets its answer. *)
Definition answers (t : nat) (log : list (nat * lres)) : list lres := omap (fun '(u, r) => if decide (u = t) then Some r else None) log.
Definition fits (o : lop) (r : lres) : Prop := match o, r with LPush _, (Pushed | Full) | LPop, (Popped _ | Empty) => True | _, _ => False end.
Definition Ans (progs : list (list lop)) (s : lst) : Prop :=
  forall t th, l_thr s !! t = Some th -> exists p past, progs !! t = Some p /\ p = past ++ lt_todo th /\ Forall2 fits past (answers t (l_log s)).
Lemma answers_snoc t u r log : answers t (log ++ [(u, r)]) = answers t log ++ (if decide (u = t) then [r] else []).
Proof. unfold answers. rewrite omap_app. f_equal. cbn. by case_decide. Qed.
Lemma ans_same progs s s' t th th' : Ans progs s -> l_thr s !! t = Some th -> l_thr s' = <[t := th']> (l_thr s) -> lt_todo th' = lt_todo th -> l_log s' = l_log s -> Ans progs s'.
Proof.
  intros A Ht E1 E2 E3 u th1 H. rewrite E3. rewrite E1 in H. apply thr_insert in H as [(-> & -> & _)|[_ H]]; [rewrite E2; by apply A|by apply A].
Qed.
Lemma ans_done progs s s' t pc o rest pc' r : Ans progs s -> l_thr s !! t = Some (Lthread pc (o :: rest)) -> fits o r -> l_thr s' = <[t := Lthread pc' rest]> (l_thr s) ->
  l_log s' = l_log s ++ [(t, r)] -> Ans progs s'.
Proof.
  intros A Ht Hf E1 E3 u th1 H. rewrite E3, answers_snoc. rewrite E1 in H. apply thr_insert in H as [(-> & -> & _)|[Hne H]].
  - rewrite decide_True by done. destruct (A _ _ Ht) as (p & past & H1 & H2 & H3). exists p, (past ++ [o]). split; [done|]. cbn [lt_todo] in *. split; [by rewrite <-app_assoc|].
    apply Forall2_app; [done|by repeat constructor].
  - rewrite decide_False by done. rewrite app_nil_r. by apply A.
Qed.
Lemma ans_step progs cap s a : Ans progs s -> Ans progs (l_step cap s a).
Proof.
  intros A. destruct a as [t from ok]. cbn [l_step]. destruct (l_thr s !! t) as [[pc [|o rest]]|] eqn:Ht; try done. destruct pc; cbn [l_tstep]; repeat case_match; try done;
    try (by (eapply ans_same; [exact A|exact Ht|reflexivity|done|]; cbn [l_emit l_cas l_log]; by rewrite ?app_nil_r));
    by (eapply ans_done; [exact A|exact Ht| |reflexivity|reflexivity]; done).
Qed.
(** The calls a thread has completed have each one answer, in order: a push says that it pushed or that the stack is full, a pop gives an element or says that it is empty. *)
Theorem C201_answers cap progs acts t th : let s := l_run cap progs acts in l_thr s !! t = Some th ->
  exists p past, progs !! t = Some p /\ p = past ++ lt_todo th /\ Forall2 fits past (answers t (l_log s)).
Proof.
  cbn zeta. revert t th. change (Ans progs (l_run cap progs acts)). unfold l_run.
  assert (H : Ans progs (l_new progs)).
  { intros t th H. cbn [l_new l_thr l_log] in *. rewrite list_lookup_fmap in H. apply fmap_Some in H as (p & Hp & ->). exists p, []. split; [done|]. split; [done|constructor]. }
  revert H. generalize (l_new progs). induction acts as [|a acts IH]; intros s H; [done|]. cbn [fold_left]. by apply IH, ans_step.
Qed.
Print Assumptions C201_answers.
(** *** The tags: a list's head has an earlier value again only after 65536 updates. *)
Definition updates (l : lloc) (tr : list lev) : nat := length (List.filter (fun e => match ev_op e with ARmw l' _ _ => bool_decide (l' = l) | _ => false end) tr).
Definition is_idx (x : Z) : Prop := 0 <= x < 65536.
Definition pc_idx (pc : lpc) : Prop :=
  match pc with LIdle | LNext _ => True | LCas _ x | LData x | LMoved x _ | LGive x _ | LSet x _ _ | LGcas x _ _ => is_idx x end.
Definition first_of (l : lloc) : nat := match l with LHead => 0 | LFree => 1 end.
Record Tags (s : lst) : Prop := {
  tg_val : forall l i v, l_value (l_tr s) l i = Some v -> tag_of v = Z.of_nat (updates l (take (S i) (l_tr s))) mod 65536;
  tg_last : forall l, (l_last s l < length (l_tr s))%nat /\ updates l (take (S (l_last s l)) (l_tr s)) = updates l (l_tr s);
  tg_next : forall x i v, l_plain (l_tr s) (XNext x) i = Some v -> is_idx v;
  tg_pc : forall t th, l_thr s !! t = Some th -> pc_idx (lt_pc th);
  tg_rmw : forall l i v, l_value (l_tr s) l i = Some v -> i = first_of l \/ ((2 <= i)%nat /\ is_cas (l_tr s) l i);
  tg_len : (2 <= length (l_tr s))%nat
}.
Lemma updates_app l t1 t2 : updates l (t1 ++ t2) = (updates l t1 + updates l t2)%nat.
Proof. unfold updates. by rewrite List.filter_app, app_length. Qed.
Lemma idx_is_idx v : is_idx (idx_of v).
Proof. unfold is_idx, idx_of. apply Z.mod_pos_bound. done. Qed.
Lemma tag_enc t x : is_idx x -> tag_of (enc t x) = t mod 65536.
Proof. unfold is_idx, tag_of, enc. intros H. rewrite Z.div_add_l by done. rewrite Z.div_small by done. lia. Qed.
Lemma next0_idx cap v : idx_of v <> undef -> is_idx (next0 cap (idx_of v)).
Proof. unfold next0, undef. intros H. pose proof (idx_is_idx v) as H1. unfold is_idx in *. destruct (_ =? _); lia. Qed.
Lemma value_lt tr l i v : l_value tr l i = Some v -> (i < length tr)%nat.
Proof. unfold l_value. intros H. destruct (tr !! i) eqn:E; [by eapply lookup_lt_Some|done]. Qed.
Lemma value_app tr tr' l i v : l_value (tr ++ tr') l i = Some v -> l_value tr l i = Some v \/ ((length tr <= i)%nat /\ l_value tr' l (i - length tr) = Some v).
Proof. unfold l_value. intros H. destruct (decide (i < length tr)%nat) as [Hi|Hi]; [left; by rewrite lookup_app_l in H by done|right]. rewrite lookup_app_r in H by lia. split; [lia|done]. Qed.
Lemma plain_app tr tr' x i v : l_plain (tr ++ tr') x i = Some v -> l_plain tr x i = Some v \/ l_plain tr' x (i - length tr) = Some v.
Proof. unfold l_plain. intros H. destruct (decide (i < length tr)%nat) as [Hi|Hi]; [left; by rewrite lookup_app_l in H by done|right]. by rewrite lookup_app_r in H by lia. Qed.
Lemma tags_emit s o t th : match o with Some (Ev _ (DRead _ _ | ARead _ _ _)) | None => True | Some (Ev _ (DWrite (XData _) _)) => True | Some (Ev _ (DWrite (XNext _) v)) => is_idx v | _ => False end ->
  pc_idx (lt_pc th) -> Tags s -> Tags (l_emit s o t th).
Proof.
  intros Ho Hp [V L N P R B]. set (tl := match o with Some e => [e] | None => [] end).
  assert (U : forall l, updates l tl = 0%nat). { intros l. unfold tl. destruct o as [[u [| | | |[]]]|]; done. }
  assert (W : forall l i, l_value tl l i = None). { intros l i. unfold tl, l_value. destruct o as [[u op]|]; [|done]. destruct i; [|done]. cbn. by destruct op. }
  constructor; cbn [l_emit l_tr l_thr]; fold tl.
  - intros l i v H. apply value_app in H as [H|[_ H]]; [|by rewrite W in H]. rewrite (V l i v H), take_app_le; [done|]. apply value_lt in H. lia.
  - intros l. destruct (L l) as [L1 L2]. assert (E : l_last (l_emit s o t th) l = l_last s l) by (by destruct l). rewrite E. split; [rewrite app_length; lia|].
    rewrite take_app_le by lia. rewrite updates_app, U. lia.
  - intros x i v H. apply plain_app in H as [H|H]; [by eapply N|]. unfold tl, l_plain in H. destruct o as [[u op]|]; [|done]. destruct (i - length (l_tr s))%nat; [|done]. cbn in H.
    destruct op as [| | | |y w]; try done. destruct (decide (y = XNext x)) as [->|]; [|done]. by injection H as <-.
  - intros t1 th1 H. apply thr_insert in H as [(-> & -> & _)|[_ H]]; [done|by eapply P].
  - intros l i v H. apply value_app in H as [H|[_ H]]; [|by rewrite W in H]. destruct (R _ _ _ H) as [E|[E1 E2]]; [by left|right; split; [done|by apply cas_app]].
  - rewrite app_length. lia.
Qed.
Lemma tags_idle s h log : (forall t th, h !! t = Some th -> pc_idx (lt_pc th)) -> Tags s -> Tags (Lst (l_tr s) (l_head s) (l_free s) h log).
Proof. intros H [V L N P R B]. constructor; cbn [l_tr l_thr]; try done. Qed.
Lemma tags_cas s t l orig x th log : is_idx x -> pc_idx (lt_pc th) -> l_value (l_tr s) l (l_last s l) = Some orig -> Tags s -> Tags (l_cas s t l (enc (tag_of orig + 1) x) th log).
Proof.
  intros Hx Hp Ho [V L N P R B]. set (e := Ev (l_tid t) (ARmw l (l_last s l) (enc (tag_of orig + 1) x)) : lev).
  constructor; cbn [l_cas l_tr l_thr]; fold e.
  - intros l' i v H. apply value_app in H as [H|[Hi H]]; [rewrite (V l' i v H), take_app_le; [done|]; apply value_lt in H; lia|].
    unfold l_value in H. destruct (i - length (l_tr s))%nat eqn:Ei; [|done]. cbn in H. destruct (decide (l = l')) as [<-|]; [|done]. injection H as <-.
    rewrite tag_enc by done. rewrite take_ge by (rewrite app_length; cbn; lia). rewrite updates_app. rewrite (V l _ _ Ho). destruct (L l) as [_ ->].
    assert (E : updates l [e] = 1%nat) by (unfold updates; cbn; by rewrite bool_decide_true). rewrite E, Z.add_mod_idemp_l by done. f_equal. lia.
  - intros l'. fold e. rewrite last_cas. destruct (decide (l' = l)) as [->|Hne].
    + rewrite app_length. cbn [length]. split; [lia|]. by rewrite take_ge by (rewrite app_length; cbn; lia).
    + destruct (L l') as [L1 L2]. rewrite app_length. split; [lia|]. rewrite take_app_le by lia. rewrite updates_app, L2. assert (E : updates l' [e] = 0%nat) by (unfold updates; cbn; by rewrite bool_decide_false).
      lia.
  - intros y i v H. apply plain_app in H as [H|H]; [by eapply N|]. unfold l_plain in H. by destruct (i - length (l_tr s))%nat.
  - intros t1 th1 H. apply thr_insert in H as [(-> & -> & _)|[_ H]]; [done|by eapply P].
  - intros l' i v H. apply value_app in H as [H|[Hi H]]; [destruct (R _ _ _ H) as [E|[E1 E2]]; [by left|right; split; [done|by apply cas_app]]|]. right.
    unfold l_value in H. destruct (i - length (l_tr s))%nat eqn:Ei; [|done]. cbn in H. destruct (decide (l = l')) as [<-|]; [|done].
    assert (i = length (l_tr s)) as -> by lia. split; [done|]. exists (l_tid t), (l_last s l), (enc (tag_of orig + 1) x). by apply list_lookup_middle.
  - rewrite app_length. lia.
Qed.
Lemma tags_step cap s a : Tags s -> Tags (l_step cap s a).
Proof.
  intros T. destruct a as [t from ok]. cbn [l_step]. destruct (l_thr s !! t) as [[pc [|o rest]]|] eqn:Ht; try done. pose proof (tg_pc s T _ _ Ht) as Hp. cbn [lt_pc] in Hp.
  assert (I : forall th', pc_idx (lt_pc th') -> forall t1 th1, <[t := th']> (l_thr s) !! t1 = Some th1 -> pc_idx (lt_pc th1)).
  { intros th' H t1 th1 H1. apply thr_insert in H1 as [(-> & -> & _)|[_ H1]]; [done|by eapply T]. }
  destruct pc as [|orig|orig nxt|node|node v|node v|node v orig|node v orig]; cbn [l_tstep pc_idx] in *.
  - destruct (l_value _ _ _); [|done]. by apply tags_emit.
  - destruct (Z.eqb_spec (idx_of orig) undef) as [E|E]; [apply tags_idle; [|done]; by apply I|]. apply tags_emit; [done| |done]. cbn [lt_pc pc_idx].
    destruct (l_plain _ _ _) eqn:El; [by eapply T|]. by apply next0_idx.
  - destruct (ok && _) eqn:E; [|clear E; destruct (l_value _ _ from); [by apply tags_emit|done]]. apply andb_true_iff in E as [_ E]. apply bool_decide_eq_true in E.
    apply tags_cas; [done|apply idx_is_idx|done|done].
  - destruct o; by apply tags_emit.
  - by apply tags_emit.
  - destruct (l_value _ _ _); [by apply tags_emit|done].
  - apply tags_emit; [apply idx_is_idx|done|done].
  - destruct (ok && _) eqn:E; [|clear E; destruct (l_value _ _ from); [by apply tags_emit|done]]. apply andb_true_iff in E as [_ E]. apply bool_decide_eq_true in E.
    apply tags_cas; [done|done|done|done].
Qed.
Lemma tags_new progs : Tags (l_new progs).
Proof.
  constructor.
  + intros l i v H. destruct i as [|[|i]]; unfold l_value in H; cbn in H; destruct l; cbn in H; try done; by injection H as <-.
  + intros []; cbn; (split; [lia|done]).
  + intros x i v H. destruct i as [|[|i]]; by unfold l_plain in H.
  + intros t th H. cbn [l_new l_thr] in H. rewrite list_lookup_fmap in H. apply fmap_Some in H as (p & _ & ->). done.
  + intros l i v H. left. destruct i as [|[|i]]; unfold l_value in H; cbn in H; destruct l; cbn in H; done.
  + done.
Qed.
Lemma tags_run cap progs acts : Tags (l_run cap progs acts).
Proof.
  unfold l_run. pose proof (tags_new progs) as H.
  revert H. generalize (l_new progs). induction acts as [|a acts IH]; intros s H; [done|]. cbn [fold_left]. by apply IH, tags_step.
Qed.
Lemma tags_again cap progs acts l i j v : let tr := l_tr (l_run cap progs acts) in
  (i < j)%nat -> l_value tr l i = Some v -> l_value tr l j = Some v -> 65536 <= Z.of_nat (updates l (take (j - i) (drop (S i) tr))).
Proof.
  intros tr Hij Hi Hj. pose proof (tags_run cap progs acts) as T. fold tr in T. pose proof (tg_val _ T _ _ _ Hi) as E1. pose proof (tg_val _ T _ _ _ Hj) as E2. fold tr in E1, E2.
  assert (E : take (S j) tr = take (S i) tr ++ take (j - i) (drop (S i) tr)). { rewrite <-(take_drop (S i) (take (S j) tr)). rewrite take_take, skipn_firstn_comm. f_equal; f_equal; lia. }
  rewrite E, updates_app in E2.
  assert (H1 : (1 <= updates l (take (j - i) (drop (S i) tr)))%nat).
  { assert (Hl : (j < length tr)%nat) by (by eapply value_lt).
    assert (Hn : take (j - i) (drop (S i) tr) !! (j - S i)%nat = tr !! j). { rewrite lookup_take by lia. rewrite lookup_drop. f_equal. lia. }
    destruct (lookup_lt_is_Some_2 tr j Hl) as [e He]. rewrite He in Hn.
    assert (Hr : exists t f w, e = Ev t (ARmw l f w)).
    { destruct (tg_rmw _ T _ _ _ Hj) as [E0|[_ (t & f & w & H)]]; [|exists t, f, w; unfold tr in He; congruence]. exfalso.
      destruct (tg_rmw _ T _ _ _ Hi) as [E3|[E3 _]]; destruct l; cbn [first_of] in *; lia. }
    destruct Hr as (t & f & w & ->). apply elem_of_list_split_length in Hn as (l1 & l2 & -> & _). rewrite updates_app. unfold updates at 2. cbn. rewrite bool_decide_true by done. cbn [length]. lia. }
  destruct (Z.le_gt_cases 65536 (Z.of_nat (updates l (take (j - i) (drop (S i) tr))))) as [|Hlt]; [done|exfalso].
  rewrite E1 in E2. revert E2 H1 Hlt. generalize (updates l (take (j - i) (drop (S i) tr))) (updates l (take (S i) tr)). intros a b. rewrite Nat2Z.inj_add. intros E2 H1 Hlt. Z.to_euclidean_division_equations. lia.
Qed.
(** A list's head does not get the same value again within 65536 updates: a compare-exchange that expects what was loaded before succeeds only if the list was not updated since, or at least 65536 times. *)
Theorem C201_tags cap progs acts l i j v w : let tr := l_tr (l_run cap progs acts) in
  (i < j)%nat -> l_value tr l i = Some v -> l_value tr l j = Some w -> Z.of_nat (updates l (take (j - i) (drop (S i) tr))) < 65536 -> v <> w.
Proof. intros tr Hij Hi Hj Hn ->. pose proof (tags_again cap progs acts l i j w Hij Hi Hj). fold tr in H. lia. Qed.
Print Assumptions C201_tags.
(** *** What is popped was pushed. *)
Section Values.
Context (P : Z -> Prop).
Definition val_ok (tr : list lev) (pc : lpc) (todo : list lop) : Prop :=
  match todo, pc with
  | LPop :: _, LData x => P (l_content tr x)
  | LPop :: _, (LMoved _ v | LGive _ v | LSet _ v _ | LGcas _ v _) => P v
  | LPush _ :: _, LMoved _ _ => False
  | LPush _ :: _, (LGive x _ | LSet x _ _ | LGcas x _ _) => P (l_content tr x)
  | _, _ => True
  end.
Record V (pl : Z -> place) (s : lst) : Prop := {
  v_j : J pl s;
  v_tags : Tags s;
  v_at : forall x, is_idx x -> pl x = At LHead -> P (l_content (l_tr s) x);
  v_thr : forall t th, l_thr s !! t = Some th -> val_ok (l_tr s) (lt_pc th) (lt_todo th) /\ forall v, LPush v ∈ lt_todo th -> P v;
  v_log : forall t v, (t, Popped v) ∈ l_log s -> P v
}.
Lemma content_event tr e y : l_content (tr ++ [e]) y = match ev_op e with DWrite (XData z) v => if decide (z = y) then v else l_content tr y | _ => l_content tr y end.
Proof.
  unfold l_content. rewrite fold_left_app. cbn [fold_left]. destruct (ev_op e) as [| | | |z v]; try done. destruct z as [z|z].
  - by rewrite decide_False.
  - destruct (decide (z = y)) as [->|Hne]; [by rewrite decide_True|]. rewrite decide_False; [done|congruence].
Qed.
Lemma content_quiet tr e y : (forall z v, ev_op e <> DWrite (XData z) v) -> l_content (tr ++ [e]) y = l_content tr y.
Proof. intros H. rewrite content_event. destruct (ev_op e) as [| | | |[z|z] v]; try done. by destruct (H z v). Qed.
Lemma val_ok_quiet tr e pc todo : (forall x, holds (Lthread pc todo) = Some x -> l_content (tr ++ [e]) x = l_content tr x) -> val_ok tr pc todo -> val_ok (tr ++ [e]) pc todo.
Proof. intros H. unfold val_ok. destruct todo as [|[w|] todo]; [done|..]; destruct pc; try done; cbn [holds lt_pc] in H; by rewrite H. Qed.
(** A thread goes on with an event that writes no element but, if any, that of the node it holds. *)
Lemma V_emit pl s e t pc o rest pc' : V pl s -> l_thr s !! t = Some (Lthread pc (o :: rest)) -> J pl (l_emit s (Some e) t (Lthread pc' (o :: rest))) -> Tags (l_emit s (Some e) t (Lthread pc' (o :: rest))) ->
  (forall x v, ev_op e = DWrite (XData x) v -> holds (Lthread pc (o :: rest)) = Some x) -> val_ok (l_tr s ++ [e]) pc' (o :: rest) -> V pl (l_emit s (Some e) t (Lthread pc' (o :: rest))).
Proof.
  intros [I T A H L] Ht I' T' Hw Hok. constructor; [done|done|..]; cbn [l_emit l_tr l_thr l_log].
  - intros x Hx Hp. rewrite content_event. destruct (ev_op e) as [| | | |[z|z] v] eqn:E; try (by apply A). destruct (decide (z = x)) as [->|]; [|by apply A].
    pose proof (j_held _ _ I _ _ x Ht (Hw _ _ eq_refl)). congruence.
  - intros t1 th1 H1. apply thr_insert in H1 as [(-> & -> & _)|[Hne H1]].
    + split; [done|]. exact (proj2 (H _ _ Ht)).
    + destruct (H _ _ H1) as [H2 H3]. split; [|done]. apply val_ok_quiet; [|done]. intros x Hx. rewrite content_event. destruct (ev_op e) as [| | | |[z|z] v] eqn:E; try done.
      destruct (decide (z = x)) as [->|]; [|done]. destruct Hne. refine (j_uniq _ _ I _ _ _ _ x H1 Ht _ (Hw _ _ eq_refl)). by destruct th1.
  - done.
Qed.
Lemma V_none pl s t pc o rest pc' : V pl s -> l_thr s !! t = Some (Lthread pc (o :: rest)) -> J pl (l_emit s None t (Lthread pc' (o :: rest))) -> Tags (l_emit s None t (Lthread pc' (o :: rest))) ->
  val_ok (l_tr s) pc' (o :: rest) -> V pl (l_emit s None t (Lthread pc' (o :: rest))).
Proof.
  intros [I T A H L] Ht I' T' Hok. constructor; [done|done|..]; cbn [l_emit l_tr l_thr l_log]; rewrite ?app_nil_r; try done.
  intros t1 th1 H1. apply thr_insert in H1 as [(-> & -> & _)|[Hne H1]]; [|by eapply H]. split; [done|]. by eapply (proj2 (H _ _ Ht)).
Qed.
Lemma V_step cap pl pl' s t from ok : V pl s -> step_place pl s (l_step cap s (LStep t from ok)) t pl' -> V pl' (l_step cap s (LStep t from ok)).
Proof.
  intros W Hp. pose proof (J_step cap pl pl' s t from ok (v_j _ _ W) Hp) as J'. pose proof (tags_step cap s (LStep t from ok) (v_tags _ _ W)) as T'.
  unfold step_place in Hp. cbn [l_step] in *. destruct (l_thr s !! t) as [[pc [|o rest]]|] eqn:Ht; [by subst pl'| |by subst pl'].
  assert (Lt : (t < length (l_thr s))%nat) by by eapply lookup_lt_Some.
  assert (E1 : forall e th', l_thr (l_emit s e t th') !! t = Some th') by (intros; by apply list_lookup_insert).
  assert (E2 : forall l v th' log, l_thr (l_cas s t l v th' log) !! t = Some th') by (intros; by apply list_lookup_insert).
  pose proof (v_thr _ _ W _ _ Ht) as [Hok Hpush]. cbn [lt_pc lt_todo] in Hok, Hpush.
  pose proof (tg_pc _ (v_tags _ _ W) _ _ Ht) as Hidx. cbn [lt_pc] in Hidx.
  assert (Hrest : forall v, LPush v ∈ rest -> P v). { intros v Hv. apply Hpush. by right. }
  destruct pc as [|orig|orig nxt|node|node v|node v|node v orig|node v orig]; cbn [l_tstep] in *.
  - destruct (l_value _ _ _) as [v|]; [|rewrite Ht in Hp; cbn in Hp; by subst pl']. rewrite E1 in Hp. cbn in Hp. subst pl'. eapply V_none; [done|done|done|done|]. by destruct o.
  - destruct (idx_of orig =? undef).
    + cbn [l_thr] in Hp. rewrite list_lookup_insert in Hp by done. cbn in Hp. subst pl'. destruct W as [I T A H L]. constructor; [done|done|..]; cbn [l_tr l_thr l_log].
      * done.
      * intros t1 th1 H1. apply thr_insert in H1 as [(-> & -> & _)|[Hne H1]]; [|by eapply H]. cbn [lt_pc lt_todo]. split; [|done]. destruct rest as [|[]]; done.
      * intros u v [Hv|Hv]%elem_of_app; [by eapply L|]. apply elem_of_list_singleton in Hv. by destruct o.
    + rewrite E1 in Hp. cbn [holds lt_pc] in Hp. subst pl'. eapply V_emit; [done|done|done|done|done|]. by destruct o.
  - destruct (ok && _) eqn:Eok.
    + rewrite E2 in Hp. cbn [holds lt_pc] in Hp. destruct Hp as [Hp ->]. destruct W as [I T A H L]. constructor; [done|done|..]; cbn [l_cas l_tr l_thr l_log].
      * intros x Hx Hp1. unfold put in Hp1. destruct (decide (x = idx_of orig)) as [->|]; [done|]. rewrite content_quiet by done. by apply A.
      * intros t1 th1 H1. apply thr_insert in H1 as [(-> & -> & _)|[Hne H1]].
        -- cbn [lt_pc lt_todo]. split; [|done]. destruct o; cbn [val_ok]; [done|]. rewrite content_quiet by done. apply A; [apply idx_is_idx|done].
        -- destruct (H _ _ H1) as [H2 H3]. split; [|done]. apply val_ok_quiet; [|done]. intros x Hx. by apply content_quiet.
      * intros u v. rewrite app_nil_r. apply L.
    + clear Eok. destruct (l_value _ _ from) as [v|]; [|rewrite Ht in Hp; cbn in Hp; by subst pl']. rewrite E1 in Hp. cbn [holds lt_pc] in Hp. subst pl'. eapply V_emit; [done|done|done|done|done|]. by destruct o.
  - destruct o as [v|]; rewrite E1 in Hp; cbn [holds lt_pc] in Hp; subst pl'; (eapply V_emit; [done|done|done|done| |]); try done.
    + intros x w [= -> _]. done.
    + cbn [val_ok]. rewrite content_event. cbn [ev_op]. rewrite decide_True by done. apply Hpush. by left.
  - rewrite E1 in Hp; cbn [holds lt_pc] in Hp; subst pl'. eapply V_emit; [done|done|done|done| |]; [intros x w [= -> _]; done|]. by destruct o.
  - destruct (l_value _ _ _) as [w|]; [|rewrite Ht in Hp; cbn in Hp; by subst pl']. rewrite E1 in Hp. cbn [holds lt_pc] in Hp. subst pl'. eapply V_none; [done|done|done|done|]. by destruct o.
  - rewrite E1 in Hp; cbn [holds lt_pc] in Hp; subst pl'. eapply V_emit; [done|done|done|done|done|]. destruct o; cbn [val_ok] in *; [|done]. by rewrite content_quiet.
  - destruct (ok && _) eqn:Eok.
    + rewrite E2 in Hp. cbn [holds lt_pc] in Hp. subst pl'. destruct W as [I T A H L]. constructor; [done|done|..]; cbn [l_cas l_tr l_thr l_log].
      * intros x Hx Hp1. rewrite content_quiet by done. unfold put in Hp1. destruct (decide (x = node)) as [->|]; [|by apply A]. by destruct o.
      * intros t1 th1 H1. apply thr_insert in H1 as [(-> & -> & _)|[Hne H1]].
        -- cbn [lt_pc lt_todo]. split; [|done]. destruct rest as [|[]]; done.
        -- destruct (H _ _ H1) as [H2 H3]. split; [|done]. apply val_ok_quiet; [|done]. intros x Hx. by apply content_quiet.
      * intros u w [Hv|Hv]%elem_of_app; [by eapply L|]. apply elem_of_list_singleton in Hv. destruct o; [done|]. injection Hv as _ ->. exact Hok.
    + clear Eok. destruct (l_value _ _ from) as [w|]; [|rewrite Ht in Hp; cbn in Hp; by subst pl']. rewrite E1 in Hp. cbn [holds lt_pc] in Hp. subst pl'. eapply V_emit; [done|done|done|done|done|].
      destruct o; cbn [val_ok] in *; [|done]. by rewrite content_quiet.
Qed.
Lemma V_run cap acts : forall pl s, V pl s -> consistent cap pl s acts -> exists pl', V pl' (fold_left (l_step cap) acts s).
Proof.
  induction acts as [|[t from ok] acts IH]; intros pl s I Hc; [by exists pl|]. cbn [fold_left]. cbn [consistent] in Hc.
  assert (exists pl', step_place pl s (l_step cap s (LStep t from ok)) t pl' /\ consistent cap pl' (l_step cap s (LStep t from ok)) acts) as (pl' & H1 & H2).
  { unfold step_place. destruct (l_thr s !! t) as [[pc [|o ops]]|]; [by exists pl| |by exists pl]. destruct (l_thr _ !! t) as [th'|]; [|by exists pl]. destruct (holds (Lthread pc (o :: ops))) as [x|], (holds th') as [y|].
    - by exists pl.
    - by eexists.
    - destruct Hc as [Hc1 Hc2]. by eexists.
    - by exists pl. }
  eapply IH; [by eapply V_step|exact H2].
Qed.
End Values.
(** In a consistent execution a pop gives what was pushed, or was in the stack from the beginning (the nodes hold their numbers at first): never what an earlier pop left behind. *)
Theorem C201_values cap pl progs acts : consistent cap pl (l_new progs) acts ->
  forall t v, (t, Popped v) ∈ l_log (l_run cap progs acts) -> (0 <= v < 65536 /\ pl v = At LHead) \/ exists p, p ∈ progs /\ LPush v ∈ p.
Proof.
  intros Hc t v Hv. destruct (V_run (fun v => (0 <= v < 65536 /\ pl v = At LHead) \/ exists p, p ∈ progs /\ LPush v ∈ p) cap acts pl (l_new progs)) as [pl' W]; [|done|by apply (v_log _ _ _ W t)].
  constructor.
  - apply J_new.
  - apply tags_new.
  - intros x Hx Hp. left. by split.
  - intros u th H. cbn [l_new l_thr] in H. rewrite list_lookup_fmap in H. apply fmap_Some in H as (p & Hp & ->). cbn [lt_pc lt_todo]. split; [by destruct p as [|[]]|].
    intros w Hw. right. exists p. split; [by eapply elem_of_list_lookup_2|done].
  - intros u w Hw. cbn [l_new l_log] in Hw. by apply elem_of_nil in Hw.
Qed.
Print Assumptions C201_values.
(** *** Nothing is popped more often than it was pushed. *)
Global Instance lop_dec : EqDecision lop.
Proof. intros [v|] [v'|]; [|by right|by right|by left]. destruct (decide (v = v')) as [->|]; [by left|right; congruence]. Defined.
Global Instance lres_dec : EqDecision lres.
Proof. intros r r'. unfold Decision. decide equality. apply Z.eq_dec. Defined.
(** How often v was popped; how often a program pushes v; the elements that are in the stack from the beginning. *)
Definition pops (v : Z) (log : list (nat * lres)) : nat := length (filter (fun e => e.2 = Popped v) log).
Definition pushes (v : Z) (p : list lop) : nat := length (filter (fun o => o = LPush v) p).
Definition fulls (log : list (nat * lres)) : nat := length (filter (fun e => e.2 = Full) log).
Global Instance place_dec : EqDecision place.
Proof. intros [[]|] [[]|]; (by left) || (by right). Defined.
Definition initially (pl : Z -> place) (v : Z) : nat := if decide (0 <= v < 65536 /\ pl v = At LHead) then 1 else 0.
(** Where the nodes are in the end. *)
Fixpoint final_place (cap : Z) (pl : Z -> place) (s : lst) (acts : list lact) : Z -> place :=
  match acts with
  | [] => pl
  | LStep t from ok :: rest =>
      let s' := l_step cap s (LStep t from ok) in
      match l_thr s !! t, l_thr s' !! t with
      | Some (Lthread pc (o :: ops)), Some th' =>
          match holds (Lthread pc (o :: ops)), holds th' with
          | None, Some x => final_place cap (put pl x Held) s' rest
          | Some x, None => final_place cap (put pl x (At (gives_to o))) s' rest
          | _, _ => final_place cap pl s' rest
          end
      | _, _ => final_place cap pl s' rest
      end
  end.
Section Once.
Context (w : Z) (L : list Z) (HL : NoDup L) (HLi : forall x, x ∈ L <-> is_idx x).
Definition one (P : Prop) `{Decision P} : nat := if decide P then 1 else 0.
Definition in_stack (pl : Z -> place) (tr : list lev) (x : Z) : nat := one (pl x = At LHead /\ l_content tr x = w).
Definition in_hand (tr : list lev) (th : lthread) : nat := (pushes w (lt_todo th) +
  match lt_todo th, lt_pc th with
  | LPop :: _, LData x => one (l_content tr x = w)
  | LPop :: _, (LMoved _ v | LGive _ v | LSet _ v _ | LGcas _ v _) => one (v = w)
  | _, _ => 0
  end)%nat.
Definition total (pl : Z -> place) (s : lst) : nat := (sum_list_with (in_stack pl (l_tr s)) L + sum_list_with (in_hand (l_tr s)) (l_thr s) + pops w (l_log s))%nat.
Definition step_ok (pl' : Z -> place) (s' : lst) (pl : Z -> place) (s : lst) : Prop := (total pl' s' <= total pl s)%nat /\ (total pl s + fulls (l_log s) <= total pl' s' + fulls (l_log s'))%nat.
Lemma step_refl pl s : step_ok pl s pl s.
Proof. split; lia. Qed.
(** What a push is about to put on the stack is in its node. *)
Definition written (s : lst) : Prop := forall t th, l_thr s !! t = Some th ->
  match lt_todo th, lt_pc th with LPush v :: _, (LGive x _ | LSet x _ _ | LGcas x _ _) => l_content (l_tr s) x = v | LPush _ :: _, LMoved _ _ => False | _, _ => True end.
Lemma sum_ext f g (l : list Z) : (forall x, x ∈ l -> f x = g x) -> sum_list_with f l = sum_list_with g l.
Proof. induction l as [|a l IH]; [done|]. intros H. cbn [sum_list_with]. rewrite (H a) by by left. rewrite IH; [done|]. intros x Hx. apply H. by right. Qed.
Lemma sum_one f g (l : list Z) x : NoDup l -> x ∈ l -> (forall y, y ∈ l -> y <> x -> f y = g y) -> (sum_list_with f l + g x = sum_list_with g l + f x)%nat.
Proof.
  induction l as [|a l IH]; [by intros _ ?%elem_of_nil|]. intros [Ha Hn]%NoDup_cons [->|Hx]%elem_of_cons H; cbn [sum_list_with].
  - rewrite (sum_ext f g l); [lia|]. intros y Hy. apply H; [by right|]. by intros ->.
  - rewrite (H a); [|by left|by intros ->]. assert (sum_list_with f l + g x = sum_list_with g l + f x)%nat; [|lia]. apply IH; [done|done|]. intros y Hy Hne. apply H; [by right|done].
Qed.
Lemma sum_thr f g (l : list lthread) t x y : l !! t = Some x -> (forall t' z, t' <> t -> l !! t' = Some z -> g z = f z) -> (sum_list_with g (<[t := y]> l) + f x = sum_list_with f l + g y)%nat.
Proof.
  revert t. induction l as [|a l IH]; [done|]. intros [|t] Hx H.
  - change (<[0%nat:=y]> (a :: l)) with (y :: l). cbn [sum_list_with]. injection Hx as ->. assert (sum_list_with g l = sum_list_with f l) as ->; [|lia]. clear IH. assert (forall t' z, l !! t' = Some z -> g z = f z) as H' by (intros t' z Hz; by apply (H (S t'))). clear H.
    induction l as [|b l IH]; [done|]. cbn [sum_list_with]. rewrite (H' 0%nat b) by done. rewrite IH; [done|]. intros t' z Hz. by apply (H' (S t')).
  - assert (sum_list_with g (<[t:=y]> l) + f x = sum_list_with f l + g y)%nat as E. { apply IH; [done|]. intros t' z Hne Hz. apply (H (S t')); [lia|done]. }
    change (<[S t:=y]> (a :: l)) with (a :: <[t:=y]> l). cbn [sum_list_with]. rewrite (H 0%nat a); [lia|done|done].
Qed.
Lemma hand_quiet tr e th : (forall x, holds th = Some x -> l_content (tr ++ [e]) x = l_content tr x) -> in_hand (tr ++ [e]) th = in_hand tr th.
Proof. intros H. unfold in_hand. destruct th as [pc [|[v|] todo]]; [done..|]. destruct pc; try done; cbn [holds lt_pc lt_todo] in *; by rewrite H. Qed.
Lemma one_iff (P Q : Prop) `{Decision P} `{Decision Q} : (P <-> Q) -> one P = one Q.
Proof. unfold one. intros H1. repeat case_decide; tauto. Qed.
Lemma decide_False_one (P : Prop) `{Decision P} : ~ P -> one P = 0%nat.
Proof. unfold one. intros H1. by rewrite decide_False. Qed.
(** Reading and writing the element of the node held. *)
Lemma total_emit pl s e t pc o rest pc' : J pl s -> l_thr s !! t = Some (Lthread pc (o :: rest)) ->
  (forall x v, ev_op e = DWrite (XData x) v -> holds (Lthread pc (o :: rest)) = Some x) ->
  in_hand (l_tr s ++ [e]) (Lthread pc' (o :: rest)) = in_hand (l_tr s) (Lthread pc (o :: rest)) -> step_ok pl (l_emit s (Some e) t (Lthread pc' (o :: rest))) pl s.
Proof.
  intros I Ht Hw Hle. unfold step_ok, total. cbn [l_emit l_tr l_thr l_log].
  assert (C : forall x, holds (Lthread pc (o :: rest)) <> Some x -> l_content (l_tr s ++ [e]) x = l_content (l_tr s) x).
  { intros x Hx. rewrite content_event. destruct (ev_op e) as [| | | |[z|z] v] eqn:E; try done. destruct (decide (z = x)) as [->|]; [|done]. by destruct (Hx (Hw _ _ eq_refl)). }
  rewrite (sum_ext (in_stack pl (l_tr s ++ [e])) (in_stack pl (l_tr s))).
  - pose proof (sum_thr (in_hand (l_tr s)) (in_hand (l_tr s ++ [e])) (l_thr s) t _ (Lthread pc' (o :: rest)) Ht) as Hs. assert (forall t' z, t' <> t -> l_thr s !! t' = Some z -> in_hand (l_tr s ++ [e]) z = in_hand (l_tr s) z) as Hq.
    { intros t' z Hne Hz. apply hand_quiet. intros x Hx. apply C. intros Hx'. apply Hne. by eapply (j_uniq _ _ I _ _ _ _ x Hz Ht). }
    specialize (Hs Hq). lia.
  - intros x _. unfold in_stack, one. destruct (decide (pl x = At LHead)) as [Hp|Hp].
    + rewrite C; [done|]. intros Hx. pose proof (j_held _ _ I _ _ x Ht Hx). congruence.
    + by rewrite !decide_False by tauto.
Qed.
Lemma total_none pl s t pc o rest pc' : l_thr s !! t = Some (Lthread pc (o :: rest)) ->
  in_hand (l_tr s) (Lthread pc' (o :: rest)) = in_hand (l_tr s) (Lthread pc (o :: rest)) -> step_ok pl (l_emit s None t (Lthread pc' (o :: rest))) pl s.
Proof.
  intros Ht Hle. unfold step_ok, total. cbn [l_emit l_tr l_thr l_log]. rewrite !app_nil_r. pose proof (sum_thr (in_hand (l_tr s)) (in_hand (l_tr s)) (l_thr s) t _ (Lthread pc' (o :: rest)) Ht) as Hs.
  specialize (Hs (fun _ _ _ _ => eq_refl)). lia.
Qed.
(** A compare-exchange: node x goes to another place. *)
Lemma total_cas pl s t l v pc o rest th' log x p : l_thr s !! t = Some (Lthread pc (o :: rest)) -> is_idx x ->
  (one (p = At LHead /\ l_content (l_tr s) x = w) + in_hand (l_tr s) th' + pops w log = in_stack pl (l_tr s) x + in_hand (l_tr s) (Lthread pc (o :: rest)))%nat -> fulls log = 0%nat ->
  step_ok (put pl x p) (l_cas s t l v th' log) pl s.
Proof.
  intros Ht Hx Hle Hf. unfold step_ok, total. cbn [l_cas l_tr l_thr l_log]. set (e := Ev (l_tid t) (ARmw l (l_last s l) v)).
  assert (C : forall y, l_content (l_tr s ++ [e]) y = l_content (l_tr s) y) by (intros y; by apply content_quiet).
  pose proof (sum_thr (in_hand (l_tr s)) (in_hand (l_tr s ++ [e])) (l_thr s) t _ th' Ht (fun _ z _ _ => hand_quiet (l_tr s) e z (fun y _ => C y))) as H1. rewrite (hand_quiet (l_tr s) e th' (fun y _ => C y)) in H1.
  pose proof (sum_one (in_stack (put pl x p) (l_tr s ++ [e])) (in_stack pl (l_tr s)) L x HL (proj2 (HLi x) Hx)) as H2.
  assert (forall y, y ∈ L -> y <> x -> in_stack (put pl x p) (l_tr s ++ [e]) y = in_stack pl (l_tr s) y) as H3. { intros y _ Hne. unfold in_stack, put. rewrite C. by rewrite (decide_False (P := y = x)). }
  specialize (H2 H3). assert (in_stack (put pl x p) (l_tr s ++ [e]) x = one (p = At LHead /\ l_content (l_tr s) x = w)) as E. { unfold in_stack, put. rewrite C. by rewrite (decide_True (P := x = x)). }
  rewrite E in H2. unfold pops, fulls in *. rewrite !filter_app, !app_length. lia.
Qed.
Lemma written_step cap pl s t from ok : J pl s -> written s -> written (l_step cap s (LStep t from ok)).
Proof.
  intros I W. cbn [l_step]. destruct (l_thr s !! t) as [[pc [|o rest]]|] eqn:Ht; [done| |done]. pose proof (W _ _ Ht) as Wt. cbn [lt_todo lt_pc] in Wt.
  assert (K : forall e th', (forall x v, ev_op e = DWrite (XData x) v -> holds (Lthread pc (o :: rest)) = Some x) ->
    match lt_todo th', lt_pc th' with LPush v :: _, (LGive x _ | LSet x _ _ | LGcas x _ _) => l_content (l_tr s ++ [e]) x = v | LPush _ :: _, LMoved _ _ => False | _, _ => True end ->
    forall u th, <[t := th']> (l_thr s) !! u = Some th -> match lt_todo th, lt_pc th with LPush v :: _, (LGive x _ | LSet x _ _ | LGcas x _ _) => l_content (l_tr s ++ [e]) x = v | LPush _ :: _, LMoved _ _ => False | _, _ => True end).
  { intros e th' Hw Hth u th H. apply thr_insert in H as [(-> & -> & _)|[Hne H]]; [done|]. pose proof (W _ _ H) as Wu.
    assert (C : forall x, holds th = Some x -> l_content (l_tr s ++ [e]) x = l_content (l_tr s) x).
    { intros x Hx. rewrite content_event. destruct (ev_op e) as [| | | |[z|z] v] eqn:E; try done. destruct (decide (z = x)) as [->|]; [|done]. destruct Hne. by eapply (j_uniq _ _ I _ _ _ _ x H Ht Hx (Hw _ _ eq_refl)). }
    destruct th as [pc1 [|[v1|] todo1]]; cbn [lt_todo lt_pc] in *; [done| |done]. destruct pc1; try done; by rewrite C. }
  assert (K0 : forall th', match lt_todo th', lt_pc th' with LPush v :: _, (LGive x _ | LSet x _ _ | LGcas x _ _) => l_content (l_tr s) x = v | LPush _ :: _, LMoved _ _ => False | _, _ => True end ->
    forall u th, <[t := th']> (l_thr s) !! u = Some th -> match lt_todo th, lt_pc th with LPush v :: _, (LGive x _ | LSet x _ _ | LGcas x _ _) => l_content (l_tr s) x = v | LPush _ :: _, LMoved _ _ => False | _, _ => True end).
  { intros th' Hth u th H. apply thr_insert in H as [(-> & -> & _)|[Hne H]]; [done|]. exact (W _ _ H). }
  destruct pc as [|orig|orig nxt|node|node v|node v|node v orig|node v orig]; cbn [l_tstep].
  - destruct (l_value _ _ _); [|done]. intros u th. cbn [l_emit l_tr l_thr]. rewrite app_nil_r. apply K0. cbn. by destruct o.
  - destruct (idx_of orig =? undef).
    + intros u th. cbn [l_tr l_thr]. apply K0. cbn. by destruct rest as [|[]].
    + intros u th. cbn [l_emit l_tr l_thr]. apply K; [done|]. cbn. by destruct o.
  - destruct (ok && _).
    + intros u th. cbn [l_cas l_tr l_thr]. apply K; [done|]. cbn. by destruct o.
    + destruct (l_value _ _ from); [|done]. intros u th. cbn [l_emit l_tr l_thr]. apply K; [done|]. cbn. by destruct o.
  - destruct o as [v|]; intros u th; cbn [l_emit l_tr l_thr]; apply K; try done.
    + by intros x y [= -> _].
    + cbn [lt_todo lt_pc]. rewrite content_event. cbn [ev_op]. by rewrite decide_True.
  - intros u th. cbn [l_emit l_tr l_thr]. apply K; [by intros x y [= -> _]|]. cbn. by destruct o.
  - destruct (l_value _ _ _); [|done]. intros u th. cbn [l_emit l_tr l_thr]. rewrite app_nil_r. apply K0. cbn. by destruct o.
  - intros u th. cbn [l_emit l_tr l_thr]. apply K; [done|]. destruct o; cbn [lt_todo lt_pc] in *; [|done]. by rewrite content_quiet.
  - destruct (ok && _).
    + intros u th. cbn [l_cas l_tr l_thr]. apply K; [done|]. cbn. by destruct rest as [|[]].
    + destruct (l_value _ _ from); [|done]. intros u th. cbn [l_emit l_tr l_thr]. apply K; [done|]. destruct o; cbn [lt_todo lt_pc] in *; [|done]. by rewrite content_quiet.
Qed.
Lemma hand_next tr o rest pc pc' : (match pc with LIdle | LNext _ | LCas _ _ => True | _ => False end) -> (match pc' with LIdle | LNext _ | LCas _ _ => True | _ => False end) ->
  in_hand tr (Lthread pc' (o :: rest)) = in_hand tr (Lthread pc (o :: rest)).
Proof. intros H1 H2. unfold in_hand. cbn [lt_todo lt_pc]. by destruct o; destruct pc; try done; destruct pc'. Qed.
Lemma pushes_cons o rest : pushes w (o :: rest) = (one (o = LPush w) + pushes w rest)%nat.
Proof. unfold pushes, one. rewrite filter_cons. by case_decide. Qed.
Lemma pops_one t r : pops w [(t, r)] = one (r = Popped w).
Proof. unfold pops, one. rewrite filter_cons. cbn [snd]. by case_decide. Qed.
Lemma hand_idle tr rest : in_hand tr (Lthread LIdle rest) = pushes w rest.
Proof. unfold in_hand. cbn [lt_todo lt_pc]. destruct rest as [|[]]; lia. Qed.
Lemma pops_app v l1 l2 : pops v (l1 ++ l2) = (pops v l1 + pops v l2)%nat.
Proof. unfold pops. by rewrite filter_app, app_length. Qed.
Lemma fulls_app l1 l2 : fulls (l1 ++ l2) = (fulls l1 + fulls l2)%nat.
Proof. unfold fulls. by rewrite filter_app, app_length. Qed.
Lemma fulls_one t r : fulls [(t, r)] = one (r = Full).
Proof. unfold fulls, one. rewrite filter_cons. cbn [snd]. by case_decide. Qed.
Lemma total_step cap pl pl' s t from ok : J pl s -> written s -> Tags s -> step_place pl s (l_step cap s (LStep t from ok)) t pl' ->
  step_ok pl' (l_step cap s (LStep t from ok)) pl s.
Proof.
  intros I W T Hp. unfold step_place in Hp. cbn [l_step] in *. destruct (l_thr s !! t) as [[pc [|o rest]]|] eqn:Ht; [subst pl'; apply step_refl| |subst pl'; apply step_refl].
  assert (Lt : (t < length (l_thr s))%nat) by by eapply lookup_lt_Some.
  assert (E1 : forall e th', l_thr (l_emit s e t th') !! t = Some th') by (intros; by apply list_lookup_insert).
  assert (E2 : forall l v th' log, l_thr (l_cas s t l v th' log) !! t = Some th') by (intros; by apply list_lookup_insert).
  pose proof (W _ _ Ht) as Wt. cbn [lt_todo lt_pc] in Wt. pose proof (tg_pc _ T _ _ Ht) as Hidx. cbn [lt_pc pc_idx] in Hidx.
  destruct pc as [|orig|orig nxt|node|node v|node v|node v orig|node v orig]; cbn [l_tstep] in *.
  - destruct (l_value _ _ _) as [v|]; [|rewrite Ht in Hp; cbn in Hp; subst pl'; apply step_refl]. rewrite E1 in Hp. cbn in Hp. subst pl'. eapply total_none; [done|]. by erewrite hand_next.
  - destruct (idx_of orig =? undef).
    + cbn [l_thr] in Hp. rewrite list_lookup_insert in Hp by done. cbn in Hp. subst pl'. unfold step_ok, total. cbn [l_tr l_thr l_log].
      pose proof (sum_thr (in_hand (l_tr s)) (in_hand (l_tr s)) (l_thr s) t _ (Lthread LIdle rest) Ht (fun _ _ _ _ => eq_refl)) as Hs. rewrite hand_idle in Hs. unfold in_hand at 2 in Hs. cbn [lt_todo lt_pc] in Hs. rewrite pushes_cons in Hs.
      rewrite pops_app, fulls_app, pops_one, fulls_one.
      assert (one (o = LPush w) <= one ((match o with LPush _ => Full | LPop => Empty end) = Full))%nat by (destruct o; [unfold one; repeat case_decide; try done; lia|done]).
      assert (one ((match o with LPush _ => Full | LPop => Empty end) = Popped w) = 0%nat) as -> by by destruct o. clear - Hs H. destruct o; lia.
    + rewrite E1 in Hp. cbn [holds lt_pc] in Hp. subst pl'. eapply total_emit; [done|done|done|]. rewrite hand_quiet by done. by erewrite hand_next.
  - destruct (ok && _) eqn:Eok.
    + rewrite E2 in Hp. cbn [holds lt_pc] in Hp. destruct Hp as [Hp ->]. eapply total_cas; [done|apply idx_is_idx| |done]. unfold one at 1. rewrite decide_False by (by intros [? _]). unfold in_stack, in_hand. rewrite Hp. cbn [lt_todo lt_pc].
      destruct o; cbn [takes_from]; [unfold one; rewrite decide_False by (by intros [? _]); change (pops w []) with 0%nat; lia|]. assert (one (l_content (l_tr s) (idx_of orig) = w) = one (At LHead = At LHead /\ l_content (l_tr s) (idx_of orig) = w))%nat by (apply one_iff; naive_solver). cbn [pops filter length list_filter]. change (pops w []) with 0%nat. lia.
    + clear Eok. destruct (l_value _ _ from) as [v|]; [|rewrite Ht in Hp; cbn in Hp; subst pl'; apply step_refl]. rewrite E1 in Hp. cbn [holds lt_pc] in Hp. subst pl'. eapply total_emit; [done|done|done|]. rewrite hand_quiet by done. by erewrite hand_next.
  - destruct o as [v|]; rewrite E1 in Hp; cbn [holds lt_pc] in Hp; subst pl'; (eapply total_emit; [done|done| |]); try done. by intros x y [= -> _].
  - rewrite E1 in Hp; cbn [holds lt_pc] in Hp; subst pl'. eapply total_emit; [done|done|by intros x y [= -> _]|]. by destruct o.
  - destruct (l_value _ _ _) as [y|]; [|rewrite Ht in Hp; cbn in Hp; subst pl'; apply step_refl]. rewrite E1 in Hp. cbn [holds lt_pc] in Hp. subst pl'. eapply total_none; [done|]. by destruct o.
  - rewrite E1 in Hp; cbn [holds lt_pc] in Hp; subst pl'. eapply total_emit; [done|done|done|]. by destruct o.
  - destruct (ok && _) eqn:Eok.
    + rewrite E2 in Hp. cbn [holds lt_pc] in Hp. subst pl'. eapply total_cas; [done|exact Hidx| |by destruct o]. rewrite hand_idle, pops_one. unfold in_hand. cbn [lt_todo lt_pc]. rewrite pushes_cons. destruct o as [u|]; cbn [gives_to].
      * rewrite Wt. assert (one (At LHead = At LHead /\ u = w) = one (LPush u = LPush w))%nat by (apply one_iff; naive_solver). assert (one (Pushed = Popped w) = 0%nat) as -> by done. unfold in_stack. rewrite (decide_False_one (pl node = At LHead /\ _)); [lia|]. intros [Hn _]. pose proof (j_held _ _ I _ _ node Ht eq_refl). congruence.
      * assert (one (At LFree = At LHead /\ l_content (l_tr s) node = w) = 0%nat) as ->. { unfold one. by rewrite decide_False by (by intros [? _]). }
        assert (one (Popped v = Popped w) = one (v = w))%nat by (apply one_iff; naive_solver). assert (one (LPop = LPush w) = 0%nat) as -> by done. unfold in_stack. rewrite (decide_False_one (pl node = At LHead /\ _)); [lia|]. intros [Hn _]. pose proof (j_held _ _ I _ _ node Ht eq_refl). congruence.
    + clear Eok. destruct (l_value _ _ from) as [y|]; [|rewrite Ht in Hp; cbn in Hp; subst pl'; apply step_refl]. rewrite E1 in Hp. cbn [holds lt_pc] in Hp. subst pl'. eapply total_emit; [done|done|done|]. by destruct o.
Qed.
Lemma step_final cap pl pl' s t from ok rest : step_place pl s (l_step cap s (LStep t from ok)) t pl' -> consistent cap pl s (LStep t from ok :: rest) ->
  consistent cap pl' (l_step cap s (LStep t from ok)) rest /\ final_place cap pl s (LStep t from ok :: rest) = final_place cap pl' (l_step cap s (LStep t from ok)) rest.
Proof.
  unfold step_place. cbn [consistent final_place]. destruct (l_thr s !! t) as [[pc [|o ops]]|]; [by intros ->| |by intros ->]. destruct (l_thr _ !! t) as [th'|]; [|by intros ->]. destruct (holds (Lthread pc (o :: ops))) as [x|], (holds th') as [y|].
  - by intros ->.
  - by intros ->.
  - by intros [_ ->] [_ H].
  - by intros ->.
Qed.
Lemma total_run cap acts : forall pl s, J pl s -> written s -> Tags s -> consistent cap pl s acts -> step_ok (final_place cap pl s acts) (fold_left (l_step cap) acts s) pl s.
Proof.
  induction acts as [|[t from ok] acts IH]; intros pl s I W T Hc; [apply step_refl|]. cbn [fold_left].
  assert (exists pl', step_place pl s (l_step cap s (LStep t from ok)) t pl') as (pl' & H1).
  { cbn [consistent] in Hc. unfold step_place. destruct (l_thr s !! t) as [[pc [|o ops]]|]; [by exists pl| |by exists pl]. destruct (l_thr _ !! t) as [th'|]; [|by exists pl]. destruct (holds (Lthread pc (o :: ops))) as [x|], (holds th') as [y|].
    - by exists pl.
    - by eexists.
    - destruct Hc as [Hc1 Hc2]. by eexists.
    - by exists pl. }
  destruct (step_final _ _ _ _ _ _ _ _ H1 Hc) as [H2 ->].
  destruct (IH pl' (l_step cap s (LStep t from ok))) as [H3 H4]; [by eapply J_step|by eapply written_step|by apply tags_step|exact H2|].
  destruct (total_step _ _ _ _ _ _ _ I W T H1) as [H5 H6]. split; lia.
Qed.
Lemma sum_id pl (l : list Z) : NoDup l -> (forall x, x ∈ l <-> is_idx x) -> sum_list_with (fun x => one (pl x = At LHead /\ x = w)) l = initially pl w.
Proof.
  assert (forall l : list Z, NoDup l -> sum_list_with (fun x => one (pl x = At LHead /\ x = w)) l = if decide (w ∈ l /\ pl w = At LHead) then 1 else 0)%nat as H.
  { clear. induction l as [|a l IH]; [by intros; rewrite decide_False by (by intros [?%elem_of_nil _])|]. intros [Ha Hn]%NoDup_cons. cbn [sum_list_with]. rewrite (IH Hn). unfold one. clear IH.
    repeat case_decide; try done; set_solver. }
  intros Hn Hl. rewrite H by done. unfold initially. repeat case_decide; try done; rewrite Hl in *; unfold is_idx in *; tauto.
Qed.
Lemma once_run cap pl progs acts : consistent cap pl (l_new progs) acts -> let s := l_run cap progs acts in let n := total (final_place cap pl (l_new progs) acts) s in
  (n <= initially pl w + sum_list_with (pushes w) progs)%nat /\ (initially pl w + sum_list_with (pushes w) progs <= n + fulls (l_log s))%nat.
Proof.
  intros Hc. cbn zeta. destruct (total_run cap acts pl (l_new progs)) as [H H0]; [apply J_new| |apply tags_new|done|].
  { intros t th Ht. cbn [l_new l_thr] in Ht. rewrite list_lookup_fmap in Ht. apply fmap_Some in Ht as (p & _ & ->). cbn [lt_pc lt_todo]. by destruct p as [|[]]. }
  fold (l_run cap progs acts) in H, H0. revert H H0. generalize (total (final_place cap pl (l_new progs) acts) (l_run cap progs acts)) as n. intros n H H0. unfold total in H, H0. cbn [l_new l_log l_thr] in H, H0. change (pops w []) with 0%nat in H, H0. change (fulls []) with 0%nat in H0.
  assert (sum_list_with (in_hand (l_tr (l_new progs))) (Lthread LIdle <$> progs) = sum_list_with (pushes w) progs) as E.
  { generalize (l_tr (l_new progs)) as tr. intros tr. clear. induction progs as [|p progs IH]; [done|]. cbn [fmap list_fmap sum_list_with]. rewrite IH, hand_idle. done. }
  assert (sum_list_with (in_stack pl (l_tr (l_new progs))) L = initially pl w)%nat as E2.
  { rewrite (sum_ext _ (fun x => one (pl x = At LHead /\ x = w))); [by apply sum_id|]. intros x _. reflexivity. }
  lia.
Qed.
End Once.
Lemma once_le L (HL : NoDup L) (HLi : forall x, x ∈ L <-> is_idx x) cap pl progs acts v : consistent cap pl (l_new progs) acts ->
  (pops v (l_log (l_run cap progs acts)) <= initially pl v + sum_list_with (pushes v) progs)%nat.
Proof. intros Hc. destruct (once_run v L HL HLi cap pl progs acts Hc) as [H _]. unfold total in H. lia. Qed.
Lemma nodes_idx x : x ∈ seqZ 0 65536 <-> is_idx x.
Proof. rewrite elem_of_seqZ. unfold is_idx. lia. Qed.
(** In a consistent execution no element is popped more often than it was pushed, or once more if it was in the stack from the beginning: an element is not given to two callers. *)
Theorem C201_once cap pl progs acts v : consistent cap pl (l_new progs) acts -> (pops v (l_log (l_run cap progs acts)) <= initially pl v + sum_list_with (pushes v) progs)%nat.
Proof. exact (once_le (seqZ 0 65536) (NoDup_seqZ _ _) nodes_idx cap pl progs acts v). Qed.
Print Assumptions C201_once.
(** And when all calls have returned and none found the stack full, every element that was pushed, or was there first, has been popped or is in a node on the stack. *)
Definition holding (pl : Z -> place) (tr : list lev) (v : Z) : list Z := filter (fun x => pl x = At LHead /\ l_content tr x = v) (seqZ 0 65536).
Lemma nothing_lost L (HL : NoDup L) (HLi : forall x, x ∈ L <-> is_idx x) cap pl progs acts v : let s := l_run cap progs acts in consistent cap pl (l_new progs) acts -> (forall t th, l_thr s !! t = Some th -> lt_todo th = []) ->
  (forall t, (t, Full) ∉ l_log s) ->
  (pops v (l_log s) + length (filter (fun x => final_place cap pl (l_new progs) acts x = At LHead /\ l_content (l_tr s) x = v) L) = initially pl v + sum_list_with (pushes v) progs)%nat.
Proof.
  cbn zeta. intros Hc Hd Hf. destruct (once_run v L HL HLi cap pl progs acts Hc) as [H H0].
  revert H H0 Hd Hf. generalize (final_place cap pl (l_new progs) acts) as pl'. generalize (l_run cap progs acts) as s. intros s pl' H H0 Hd Hf. unfold total in H, H0.
  assert (fulls (l_log s) = 0%nat) as E1. { unfold fulls. destruct (filter _ (l_log s)) as [|[t r] l] eqn:E; [done|]. exfalso. assert ((t, r) ∈ filter (fun e : nat * lres => e.2 = Full) (l_log s)) as [Hr Hin]%elem_of_list_filter by (rewrite E; by left). cbn in Hr. subst r. by eapply Hf. }
  assert (sum_list_with (in_hand v (l_tr s)) (l_thr s) = 0%nat) as E2. { clear H H0. induction (l_thr s) as [|th l IH]; [done|]. cbn [sum_list_with]. rewrite IH by (intros t th' Ht; by apply (Hd (S t) th')). unfold in_hand. by rewrite (Hd 0%nat th). }
  assert (length (filter (fun x => pl' x = At LHead /\ l_content (l_tr s) x = v) L) = sum_list_with (in_stack v pl' (l_tr s)) L) as ->; [|lia].
  clear. induction L as [|x L IH]; [done|]. rewrite filter_cons. cbn [sum_list_with]. unfold in_stack at 1, one. case_decide; cbn [length]; lia.
Qed.
Theorem C201_nothing_lost cap pl progs acts v : let s := l_run cap progs acts in consistent cap pl (l_new progs) acts -> (forall t th, l_thr s !! t = Some th -> lt_todo th = []) -> (forall t, (t, Full) ∉ l_log s) ->
  (pops v (l_log s) + length (holding (final_place cap pl (l_new progs) acts) (l_tr s) v) = initially pl v + sum_list_with (pushes v) progs)%nat.
Proof. exact (nothing_lost (seqZ 0 65536) (NoDup_seqZ _ _) nodes_idx cap pl progs acts v). Qed.
Print Assumptions C201_nothing_lost.
(** For a new stack: what was there first are the numbers below the capacity. *)
Theorem C201_new_stack cap progs acts v : consistent cap (stack_of cap) (l_new progs) acts -> 0 <= cap <= 65535 ->
  (pops v (l_log (l_run cap progs acts)) <= (if decide (0 <= v < cap)%Z then 1 else 0) + sum_list_with (pushes v) progs)%nat /\
  ((0 < pops v (l_log (l_run cap progs acts)))%nat -> 0 <= v < cap \/ exists p, p ∈ progs /\ LPush v ∈ p).
Proof.
  intros Hc Hcap. assert (E : initially (stack_of cap) v = if decide (0 <= v < cap) then 1%nat else 0%nat).
  { unfold initially, stack_of. destruct (decide (0 <= v < cap)); [by rewrite decide_True by (split; [lia|done])|by rewrite decide_False by (by intros [_ ?])]. }
  split.
  - rewrite <- E. by apply C201_once.
  - intros Hp. unfold pops in Hp. destruct (filter _ _) as [|[t r] l] eqn:F; [cbn in Hp; lia|].
    assert ((t, r) ∈ filter (fun e : nat * lres => e.2 = Popped v) (l_log (l_run cap progs acts))) as [Hr Hin]%elem_of_list_filter by (rewrite F; by left). cbn in Hr. subst r.
    destruct (C201_values _ _ _ _ Hc _ _ Hin) as [[_ H]|H]; [|by right]. left. unfold stack_of in H. by case_decide.
Qed.
Print Assumptions C201_new_stack.
(** Two threads, a stack of two: thread 0 pops both elements and pushes one back, thread 1 pops it. Each call is: load, link, compare-exchange, element(s), load, link, compare-exchange. *)
Definition pop_of (t head link free : nat) : list lact := [LStep t head true; LStep t link true; LStep t 0 true; LStep t 0 true; LStep t 0 true; LStep t free true; LStep t 0 true; LStep t 0 true].
Definition push_of (t free link head : nat) : list lact := [LStep t free true; LStep t link true; LStep t 0 true; LStep t 0 true; LStep t head true; LStep t 0 true; LStep t 0 true].
Definition good_acts : list lact := pop_of 0 0 99 1 ++ pop_of 0 3 99 7 ++ push_of 0 13 12 9 ++ pop_of 1 18 17 15.
Example C201_case : let s := l_run 2 [[LPop; LPop; LPush 0]; [LPop; LPop]] good_acts in
  consistent 2 (stack_of 2) (l_new [[LPop; LPop; LPush 0]; [LPop; LPop]]) good_acts /\ l_log s = [(0%nat, Popped 0); (0%nat, Popped 1); (0%nat, Pushed); (1%nat, Popped 0)] /\
  on_content (l_tr s) 1 16 /\ on_content (l_tr s) 1 21.
Proof. split; [vm_compute; repeat split|]. split; [by vm_compute|]. split; eexists _, _; (split; [by vm_compute|]); [right|left]; by eexists. Qed.
(** The same with another element pushed: the second thread gets it, and no number of a node. *)
Example C201_values_case : let s := l_run 2 [[LPop; LPop; LPush 70000]; [LPop; LPop]] good_acts in
  consistent 2 (stack_of 2) (l_new [[LPop; LPop; LPush 70000]; [LPop; LPop]]) good_acts /\ l_log s = [(0%nat, Popped 0); (0%nat, Popped 1); (0%nat, Pushed); (1%nat, Popped 70000)].
Proof. split; [vm_compute; repeat split|by vm_compute]. Qed.
(** With one pop less all calls return, none finds the stack full, and 70000 was pushed once and popped once; 1, which was there first, was popped once. *)
Definition no_full (log : list (nat * lres)) : bool := forallb (fun e => negb (bool_decide (e.2 = Full))) log.
Lemma no_full_spec log : no_full log = true -> forall t, (t, Full) ∉ log.
Proof. intros H t Hin. unfold no_full in H. rewrite forallb_forall in H. apply elem_of_list_In, H in Hin. by cbn in Hin. Qed.
Example C201_once_case : let progs := [[LPop; LPop; LPush 70000]; [LPop]] in let s := l_run 2 progs good_acts in
  consistent 2 (stack_of 2) (l_new progs) good_acts /\ (lt_todo <$> l_thr s) = [[]; []] /\ (forall t, (t, Full) ∉ l_log s) /\
  pops 70000 (l_log s) = 1%nat /\ sum_list_with (pushes 70000) progs = 1%nat /\ initially (stack_of 2) 70000 = 0%nat /\ pops 1 (l_log s) = 1%nat /\ initially (stack_of 2) 1 = 1%nat /\
  final_place 2 (stack_of 2) (l_new progs) good_acts 0 = At LFree /\ final_place 2 (stack_of 2) (l_new progs) good_acts 1 = At LFree.
Proof.
  split; [vm_compute; repeat split|]. split; [vm_compute; reflexivity|]. split; [apply no_full_spec; vm_compute; reflexivity|].
  split; [vm_compute; reflexivity|].
  split; [vm_compute; reflexivity|].
  split; [vm_compute; reflexivity|].
  split; [vm_compute; reflexivity|].
  split; [vm_compute; reflexivity|].
  split; vm_compute; reflexivity.
Qed.
(** In that run: element 1 was popped, its node was pushed back to the list of free nodes, taken from there again, and the head of the stack was written four times, each time another value. *)
Example C201_tags_case : let tr := l_tr (l_run 2 [[LPop; LPop; LPush 0]; [LPop; LPop]] good_acts) in
  (idx_of <$> omap (l_value tr LHead) (seq 0 (length tr))) = [0; 1; 65535; 1; 65535] /\ (tag_of <$> omap (l_value tr LHead) (seq 0 (length tr))) = [0; 1; 2; 3; 4].
Proof. by vm_compute. Qed.
Example C201_answers_case : let s := l_run 2 [[LPop; LPop; LPush 0]; [LPop; LPop]] good_acts in
  answers 0 (l_log s) = [Popped 0; Popped 1; Pushed] /\ answers 1 (l_log s) = [Popped 0] /\ (lt_todo <$> l_thr s) = [[]; [LPop]].
Proof. by vm_compute. Qed.
(** ** C201: a new stack of n gives the elements 0, ..., n - 1, one after the other, and then is empty. *)
Section Drain.
Context (n : nat) (Hn : (1 <= n)%nat) (Hn2 : Z.of_nat n <= 65535).
Definition first_pop (k : nat) : list lact := pop_of 0 (6 * k - 3) (6 * k + 2) (6 * k + 1).
Definition head_idx (k : nat) : Z := if decide (k = n) then undef else Z.of_nat k.
Record drained (k : nat) (s : lst) : Prop := {
  dr_thr : l_thr s = [Lthread LIdle (repeat LPop (S n - k))];
  dr_len : length (l_tr s) = (6 * k + 2)%nat;
  dr_head : l_head s = (6 * k - 3)%nat;
  dr_free : l_free s = (6 * k + 1)%nat;
  dr_hv : exists v, l_value (l_tr s) LHead (6 * k - 3) = Some v /\ idx_of v = head_idx k;
  dr_fv : exists w, l_value (l_tr s) LFree (6 * k + 1) = Some w;
  dr_content : forall x, Z.of_nat k <= x -> l_content (l_tr s) x = x;
  dr_log : l_log s = (fun i => (0%nat, Popped (Z.of_nat i))) <$> seq 0 k
}.
Lemma value_old tr es l i : (i < length tr)%nat -> l_value (tr ++ es) l i = l_value tr l i.
Proof. intros H. unfold l_value. by rewrite lookup_app_l. Qed.
Lemma idx_enc t x : is_idx x -> idx_of (enc t x) = x.
Proof. unfold is_idx, idx_of, enc. intros H. rewrite Z.add_comm, Z.mod_add by done. by apply Z.mod_small. Qed.
Definition st tr h f pc rest log : lst := Lst tr h f [Lthread pc (LPop :: rest)] log.
Lemma fold1 cap s a acts : fold_left (l_step cap) (a :: acts) s = fold_left (l_step cap) acts (l_step cap s a).
Proof. reflexivity. Qed.
Lemma s_load cap tr h f rest log from ok v : l_value tr LHead from = Some v -> l_step cap (st tr h f LIdle rest log) (LStep 0 from ok) = st tr h f (LNext v) rest log.
Proof. intros H. unfold st, l_step. cbn. rewrite H. unfold l_emit. cbn. by rewrite app_nil_r. Qed.
Lemma s_link cap tr h f rest log from ok v : (idx_of v =? undef) = false -> l_plain tr (XNext (idx_of v)) from = None ->
  l_step cap (st tr h f (LNext v) rest log) (LStep 0 from ok) = st (tr ++ [Ev 1 (DRead (XNext (idx_of v)) (next0 cap (idx_of v)))]) h f (LCas v (next0 cap (idx_of v))) rest log.
Proof. intros H1 H2. unfold st, l_step. cbn. by rewrite H1, H2. Qed.
Lemma s_cas cap tr h f rest log from v x : l_value tr LHead h = Some v ->
  l_step cap (st tr h f (LCas v x) rest log) (LStep 0 from true) = st (tr ++ [Ev 1 (ARmw LHead h (enc (tag_of v + 1) x))]) (length tr) f (LData (idx_of v)) rest log.
Proof. intros H. unfold st, l_step. cbn. rewrite H, bool_decide_eq_true_2 by done. cbn. unfold l_cas. cbn. by rewrite app_nil_r. Qed.
Lemma s_data cap tr h f rest log from ok x : l_step cap (st tr h f (LData x) rest log) (LStep 0 from ok) = st (tr ++ [Ev 1 (DRead (XData x) (l_content tr x))]) h f (LMoved x (l_content tr x)) rest log.
Proof. reflexivity. Qed.
Lemma s_moved cap tr h f rest log from ok x y : l_step cap (st tr h f (LMoved x y) rest log) (LStep 0 from ok) = st (tr ++ [Ev 1 (DWrite (XData x) (-1))]) h f (LGive x y) rest log.
Proof. reflexivity. Qed.
Lemma s_give cap tr h f rest log from ok x y w : l_value tr LFree from = Some w -> l_step cap (st tr h f (LGive x y) rest log) (LStep 0 from ok) = st tr h f (LSet x y w) rest log.
Proof. intros H. unfold st, l_step. cbn. rewrite H. unfold l_emit. cbn. by rewrite app_nil_r. Qed.
Lemma s_set cap tr h f rest log from ok x y w : l_step cap (st tr h f (LSet x y w) rest log) (LStep 0 from ok) = st (tr ++ [Ev 1 (DWrite (XNext x) (idx_of w))]) h f (LGcas x y w) rest log.
Proof. reflexivity. Qed.
Lemma s_gcas cap tr h f rest log from x y w : l_value tr LFree f = Some w ->
  l_step cap (st tr h f (LGcas x y w) rest log) (LStep 0 from true) = Lst (tr ++ [Ev 1 (ARmw LFree f (enc (tag_of w + 1) x))]) h (length tr) [Lthread LIdle rest] (log ++ [(0%nat, Popped y)]).
Proof. intros H. unfold st, l_step. cbn. rewrite H, bool_decide_eq_true_2 by done. reflexivity. Qed.
Lemma drained_step k s : (k < n)%nat -> drained k s -> drained (S k) (fold_left (l_step (Z.of_nat n)) (first_pop k) s).
Proof.
  intros Hk [D1 D2 D3 D4 (v & D5 & D5') (w & D6) D7 D8]. destruct s as [tr h f thr log]. cbn [l_tr l_head l_free l_thr l_log] in *. subst h f thr log.
  replace (S n - k)%nat with (S (n - k)) by lia. cbn [repeat]. unfold first_pop, pop_of.
  assert (Hv : idx_of v = Z.of_nat k). { rewrite D5'. unfold head_idx. rewrite decide_False by lia. done. }
  change (Lst tr ?h ?f [Lthread LIdle (LPop :: ?r)] ?l) with (st tr h f LIdle r l).
  rewrite fold1, (s_load _ _ _ _ _ _ _ _ v) by done. rewrite fold1, s_link; [|rewrite Hv; unfold undef; lia|unfold l_plain; by rewrite lookup_ge_None_2 by lia]. rewrite Hv.
  set (nx := next0 (Z.of_nat n) (Z.of_nat k)).
  rewrite fold1, s_cas by (by rewrite value_old by lia). rewrite Hv. rewrite fold1, s_data, !content_quiet, D7 by (done || lia). rewrite fold1, s_moved.
  rewrite fold1, (s_give _ _ _ _ _ _ _ _ _ _ w) by (by rewrite !value_old by (rewrite ?app_length; lia)). rewrite fold1, s_set. rewrite fold1, s_gcas by (by rewrite !value_old by (rewrite ?app_length; lia)). cbn [fold_left].
  constructor; cbn [l_tr l_head l_free l_thr l_log].
  - do 3 f_equal.
  - rewrite !app_length. cbn [length]. lia.
  - rewrite !app_length. cbn [length]. lia.
  - rewrite !app_length. cbn [length]. lia.
  - eexists. split.
    + rewrite !value_old by (rewrite ?app_length; cbn [length]; lia). unfold l_value. rewrite lookup_app_r by (rewrite ?app_length; cbn [length]; lia). rewrite app_length. cbn [length].
      replace (6 * S k - 3 - (length tr + 1))%nat with 0%nat by lia. cbn. rewrite decide_True by done. reflexivity.
    + assert (nx = head_idx (S k)) as ->. { unfold nx, next0, head_idx. destruct (decide (S k = n)); [by rewrite (proj2 (Z.eqb_eq _ _)) by lia|]. rewrite (proj2 (Z.eqb_neq _ _)) by lia. lia. }
      apply idx_enc. unfold head_idx, is_idx, undef. destruct (decide _); lia.
  - eexists. unfold l_value. rewrite lookup_app_r by (rewrite ?app_length; cbn [length]; lia). rewrite !app_length. cbn [length].
    replace (6 * S k + 1 - _)%nat with 0%nat by lia. cbn. rewrite decide_True by done. reflexivity.
  - intros x Hx. do 2 rewrite content_quiet by done. rewrite content_event. cbn [ev_op]. rewrite decide_False by (intros [= ?]; lia). do 3 rewrite content_quiet by done. apply D7. lia.
  - rewrite seq_S, fmap_app. done.
Qed.
Lemma drained_run k : (k <= n)%nat -> drained k (l_run (Z.of_nat n) [repeat LPop (S n)] (seq 0 k ≫= first_pop)).
Proof.
  induction k as [|k IH]; intros Hk.
  - constructor; try done.
    + eexists. split; [reflexivity|]. unfold head_idx. rewrite decide_False by lia. done.
    + eexists. reflexivity.
  - rewrite seq_S, bind_app. unfold l_run. rewrite fold_left_app. cbn [mbind list_bind Nat.add]. rewrite app_nil_r. apply drained_step; [lia|]. apply IH. lia.
Qed.
End Drain.
Theorem C201_drain n : (1 <= n)%nat -> Z.of_nat n <= 65535 ->
  l_log (l_run (Z.of_nat n) [repeat LPop (S n)] ((seq 0 n ≫= first_pop) ++ [LStep 0 (6 * n - 3) true; LStep 0 0 true])) = ((fun i => (0%nat, Popped (Z.of_nat i))) <$> seq 0 n) ++ [(0%nat, Empty)].
Proof.
  intros H1 H2. pose proof (drained_run n H1 H2 n ltac:(lia)) as D. unfold l_run in *. rewrite fold_left_app. revert D. generalize (fold_left (l_step (Z.of_nat n)) (seq 0 n ≫= first_pop) (l_new [repeat LPop (S n)])) as s.
  intros s [D1 D2 D3 D4 (v & D5 & D5') _ _ D8]. destruct s as [tr h f thr log]. cbn [l_tr l_head l_free l_thr l_log] in *. subst h f thr log. replace (S n - n)%nat with 1%nat by lia. cbn [repeat].
  change (Lst tr ?h ?f [Lthread LIdle (LPop :: ?r)] ?l) with (st tr h f LIdle r l). rewrite fold1, (s_load _ _ _ _ _ _ _ _ v) by done. cbn [fold_left]. unfold st, l_step. cbn. rewrite D5'. unfold head_idx. rewrite decide_True by done. done.
Qed.
Print Assumptions C201_drain.
Example C201_drain_case : l_log (l_run 3 [[LPop; LPop; LPop; LPop]] ((seq 0 3 ≫= first_pop) ++ [LStep 0 15 true; LStep 0 0 true])) = [(0%nat, Popped 0); (0%nat, Popped 1); (0%nat, Popped 2); (0%nat, Empty)].
Proof. by vm_compute. Qed.
(** ** C200 (refuted): the stack is free of data races, and a pop returns an element. *)
(** The link of a node is read by one thread while another that has taken the node writes it: whatever the capacity. *)
Definition race_acts : list lact := [LStep 1 0 true; LStep 0 0 true; LStep 0 0 true; LStep 0 0 true; LStep 0 0 true; LStep 0 0 true; LStep 0 1 true; LStep 0 0 true; LStep 1 0 true].
Theorem C200_link_race_refuted : forall cap, let tr := l_tr (l_run cap [[LPop]; [LPop]] race_acts) in
  race tr 6 7 /\ tr !! 6%nat = Some (Ev (l_tid 0) (DWrite (XNext 0) undef)) /\ exists v, tr !! 7%nat = Some (Ev (l_tid 1) (DRead (XNext 0) v)).
Proof.
  intros cap. cbn zeta. assert (E : l_tr (l_run cap [[LPop]; [LPop]] race_acts) = [Ev 0%nat (AWrite LHead 0); Ev 0%nat (AWrite LFree 65535); Ev 1%nat (DRead (XNext 0) (next0 cap 0));
    Ev 1%nat (ARmw LHead 0 (enc 1 (next0 cap 0))); Ev 1%nat (DRead (XData 0) 0); Ev 1%nat (DWrite (XData 0) (-1)); Ev 1%nat (DWrite (XNext 0) undef); Ev 2%nat (DRead (XNext 0) (next0 cap 0))]) by reflexivity.
  rewrite E. split; [|split; [done|by eexists]]. split; [lia|]. split; [do 2 eexists; split_and!; [done|done|done]|]. apply (not_hb _ (fun i => (i =? 6)%nat)); [by vm_compute|done|done].
Qed.
Print Assumptions C200_link_race_refuted.
(** The relaxed load of _pop sees the node that was pushed, but not the link that was written before: the pop puts a node that is not in the stack at its head, and the next pop returns what an earlier pop left
    behind - a null pointer, in a pool - although no call overlaps another. *)
Definition stale_acts : list lact := pop_of 0 0 99 1 ++ pop_of 0 3 99 7 ++ push_of 0 13 12 9 ++ pop_of 1 18 12 15 ++ pop_of 1 20 6 24.
Theorem C200_stale_link_refuted : l_log (l_run 2 [[LPop; LPop; LPush 0]; [LPop; LPop]] stale_acts) =
  [(0%nat, Popped 0); (0%nat, Popped 1); (0%nat, Pushed); (1%nat, Popped 0); (1%nat, Popped (-1))].
Proof. by vm_compute. Qed.
Print Assumptions C200_stale_link_refuted.
