(** * Properties of the request/reply handlers: C13, C14. *)
From stdpp Require Import prelude.
From Verif Require Import CallbackHandler_Model CallbackHandler_Spec CallbackHandler_Proofs.

(** The plain handler is used by one thread, the thread-safe one by any number. *)
Definition threads_ok (E : env) (progs : list (list act)) : Prop :=
  progs <> [] /\ (e_mt E = false -> length progs = 1).

(** C13, for arbitrary user code. *)
Definition C13_statement : Prop := forall E progs sched, threads_ok E progs ->
  follows_rules (e_match E) (h_log (run E (hst_new progs) sched)) <> None.
(** It is false. A callback that retries its request, with a synchronous
    middleware: the retry's reply is given to the request being answered, which is then answered twice. *)
Definition retry_env : env :=
  Env Nat.eqb (fun r => [Rep r]) (fun cb p => if cb =? 1 then [Req 5 2] else []) (fun _ _ => false) false (fun c => c).
Theorem C13_answered_twice_refuted : ~ C13_statement /\
  exists sched, answered (h_log (run retry_env (hst_new [[Req 9 3; Req 5 1]]) sched)) = [0; 1; 1].
Proof.
  split.
  - intros H. apply (H retry_env [[Req 9 3; Req 5 1]] (repeat 0 15)).
    + split; [done|]. done.
    + vm_compute. reflexivity.
  - exists (repeat 0 15). vm_compute. reflexivity.
Qed.
Print Assumptions C13_answered_twice_refuted.
(** A callback that throws leaves its request pending: it is answered again. *)
Definition throw_env : env :=
  Env Nat.eqb (fun _ => []) (fun _ _ => []) (fun _ _ => true) false (fun c => c).
Theorem C13_throw_refuted :
  follows_rules (e_match throw_env) (h_log (run throw_env (hst_new [[Req 5 1; Rep 5; Rep 5]]) (repeat 0 30))) = None /\
  answered (h_log (run throw_env (hst_new [[Req 5 1; Rep 5; Rep 5]]) (repeat 0 30))) = [0; 0].
Proof. split; vm_compute; reflexivity. Qed.
Print Assumptions C13_throw_refuted.

(** It holds when callbacks neither call the handler nor throw: every
    interleaving of any number of threads, synchronous or asynchronous publishers. *)
Definition simple_callbacks (E : env) : Prop := (forall cb p, e_cb E cb p = []) /\ (forall cb p, e_throw E cb p = false).
Theorem C13_answers : forall E progs sched, threads_ok E progs -> simple_callbacks E ->
  let s := run E (hst_new progs) sched in
  h_ub s = false /\
  (exists pending n, follows_rules (e_match E) (h_log s) = Some (pending, n) /\
     (idle s -> pending = (fun e => Pend (en_id e) (en_req e) (en_cb e)) <$> h_vec s)) /\
  NoDup (answered (h_log s)).
Proof.
  intros E progs sched [Hp H1] [Hc Ht] s.
  assert (HI : Inv E (fun _ => False) s).
  { apply inv_run; [by intros cb p; rewrite Hc|by intros ? []|done|by apply inv_new|].
    (* room holds since callbacks make no request *)
    assert (HR : forall sched s0, Inv E (fun _ => False) s0 -> Inv E (fun _ => False) (run E s0 sched) /\ room (run E s0 sched)).
    { assert (Hro : forall s0, Inv E (fun _ => False) s0 -> room s0).
      { intros s0 (_ & a & stk & Ha & Hsh & Hq & _) t r cb rest Hl (i & v & Hin).
        destruct (decide (t = a)) as [->|Hne].
        - rewrite Ha in Hl. injection Hl as ->. destruct Hsh as [[Hpl _]|(ab & j & be & Heq & Hab & _)].
          + exfalso. eapply plain_no_erase; [exact Hpl|]. by apply elem_of_list_further.
          + destruct ab as [|g ab]; [done|]. injection Heq as <- ->. by apply Forall_cons in Hab as [? _].
        - destruct (Hq _ _ Hne Hl) as [?|[? ?]]; done. }
      intros sc; induction sc as [|t sc IH]; intros s0 H0; [split; [exact H0|apply Hro; exact H0]|].
      cbn [run fold_left]. apply IH. apply inv_step; [by intros cb p; rewrite Hc|by intros ? []|done|done|by apply Hro]. }
    intros n. apply HR. by apply inv_new. }
  destruct HI as (Hub & a & stk & Ha & Hsh & Hq & _). split; [done|].
  assert (Hex : exists pending n, follows_rules (e_match E) (h_log s) = Some (pending, n) /\
     (idle s -> pending = pe <$> h_vec s)).
  { destruct Hsh as [[Hpl Hr]|(ab & j & be & -> & _ & _ & _ & Hr)]; [eauto|]. do 2 eexists. split; [exact Hr|].
    intros Hi. destruct (Hi _ _ Ha) as [Hx|[l Hx]]; destruct ab as [|? [|? ?]]; simplify_eq/=. }
  split; [exact Hex|]. destruct Hex as (pd & n & Hr & _). eapply rules_once; exact Hr.
Qed.
Print Assumptions C13_answers.
Example C13_case : let E := Env Nat.eqb (fun _ => []) (fun _ _ => []) (fun _ _ => false) true (fun c => c) in
  threads_ok E [[Req 5 1; Req 5 2; Req 6 3]; [Rep 5; Rep 7; Rep 6]] /\ simple_callbacks E /\
  h_log (run E (hst_new [[Req 5 1; Req 5 2; Req 6 3]; [Rep 5; Rep 7; Rep 6]]) (repeat 0 20 ++ repeat 1 20)) =
  [Issued 0 5 1; Issued 1 5 2; Issued 2 6 3; Answered 0 1 5; Unmatched 7; Answered 2 3 6].
Proof. split_and!; [done..|vm_compute; reflexivity]. Qed.

(** C14: a callback makes requests; the middleware is asynchronous. *)
Definition requesting_callbacks (E : env) : Prop :=
  (forall cb p, Forall (fun a => exists r cb', a = Req r cb' /\ e_pub E r = []) (e_cb E cb p)) /\
  (forall cb p, e_throw E cb p = false).
(** Plain handler. False: a request made by a callback reallocates the vector
    and the iterator erased afterwards is dangling. *)
Definition request_env (mt : bool) : env :=
  Env Nat.eqb (fun _ => []) (fun cb _ => if cb =? 1 then [Req 6 2] else []) (fun _ _ => false) mt (fun c => c).
Theorem C14_reentrant_request_refuted :
  requesting_callbacks (request_env false) /\
  exists sched, h_ub (run (request_env false) (hst_new [[Req 5 1; Rep 5]]) sched) = true.
Proof.
  split.
  - split; [|done]. intros cb p. simpl. destruct (cb =? 1); [|constructor]. constructor; [|constructor]. eauto.
  - exists (repeat 0 12). vm_compute. reflexivity.
Qed.
Print Assumptions C14_reentrant_request_refuted.
(** It is correct as long as such requests find spare capacity. *)
Theorem C14_room : forall E progs sched, threads_ok E progs -> requesting_callbacks E ->
  (forall n, room (run E (hst_new progs) (take n sched))) ->
  let s := run E (hst_new progs) sched in
  h_ub s = false /\ follows_rules (e_match E) (h_log s) <> None /\ NoDup (answered (h_log s)).
Proof.
  intros E progs sched [Hp H1] [Hc Ht] Hroom s.
  assert (HI : Inv E (fun a => exists r cb', a = Req r cb' /\ e_pub E r = []) s).
  { apply inv_run; [done|done|done|by apply inv_new|done]. }
  destruct HI as (Hub & a & stk & Ha & Hsh & Hq & _). split; [done|].
  assert (Hex : exists st, follows_rules (e_match E) (h_log s) = Some st).
  { destruct Hsh as [[Hpl Hr]|(ab & j & be & -> & _ & _ & _ & Hr)]; eauto. }
  destruct Hex as (st & Hr). split; [congruence|]. eapply rules_once; exact Hr.
Qed.
Print Assumptions C14_room.
Example C14_case :   (* capacity 3 after two requests: the callback's request finds room *)
  let progs := [[Req 4 0; Req 5 1; Rep 4; Rep 5; Rep 6]] in
  threads_ok (request_env false) progs /\ requesting_callbacks (request_env false) /\
  (forall n, room (run (request_env false) (hst_new progs) (take n (repeat 0 20)))) /\
  h_log (run (request_env false) (hst_new progs) (repeat 0 20)) =
    [Issued 0 4 0; Issued 1 5 1; Answered 0 0 4; Answered 1 1 5; Issued 2 6 2; Answered 2 2 6].
Proof.
  split; [by split|]. split; [apply C14_reentrant_request_refuted|]. split; [|vm_compute; reflexivity].
  intros n. assert (Hn : exists m, m <= 20 /\ take n (repeat 0 20) = take m (repeat 0 20)).
  { destruct (decide (n <= 20)); [eauto|]. exists 20. split; [lia|]. rewrite !take_ge by (rewrite repeat_length; lia). done. }
  destruct Hn as (m & Hm & ->). clear n. intros t r cb rest Hl (i & v & Hin).
  destruct t as [|t].
  - do 21 (destruct m as [|m]; [vm_compute in Hl; simplify_eq;
      first [by (vm_compute; repeat constructor) | exfalso; revert Hin; clear; set_solver]|]). lia.
  - do 21 (destruct m as [|m]; [vm_compute in Hl; by destruct t|]). lia.
Qed.

(** The condition can be seen from outside: the capacity is at least the greatest number of requests that were ever unanswered at once. *)
Lemma rules_waiting m h pl n : follows_rules m h = Some (pl, n) -> waiting h = length pl /\ length (answered h) + length pl = length (List.filter (fun e => match e with Issued _ _ _ => true | _ => false end) h).
Proof.
  intros H. assert (Hn : length (answered h) + length pl = length (List.filter (fun e => match e with Issued _ _ _ => true | _ => false end) h)); [|unfold waiting; lia].
  revert pl n H. induction h as [|e h IH] using rev_ind; intros pl n; [intros [= <- <-]; done|].
  rewrite follows_snoc. destruct (follows_rules m h) as [[pl0 n0]|]; [|done]. specialize (IH _ _ eq_refl).
  unfold answered in *. rewrite omap_app, app_length, List.filter_app, app_length. cbn [rule].
  destruct e as [u r cb|u cb p|p].
  - destruct (u =? n0); [|done]. intros [= <- <-]. rewrite app_length. cbn. lia.
  - destruct (take_first m p pl0) as [[x l']|] eqn:Et; [|done]. apply take_first_perm, Permutation_length in Et. cbn in Et.
    destruct ((p_id x =? u) && (p_cb x =? cb)); [|done]. intros [= <- <-]. cbn. lia.
  - destruct (take_first m p pl0); [done|]. intros [= <- <-]. cbn. lia.
Qed.
Lemma cap_step E s t : length (h_vec s) <= h_cap s ->
  h_cap s <= h_cap (step E s t) /\ length (h_vec (step E s t)) <= h_cap (step E s t) /\ exists e, length e <= 1 /\ h_log (step E s t) = h_log s ++ e.
Proof.
  intros Hl. assert (H0 : exists e : list hev, length e <= 1 /\ h_log s = h_log s ++ e) by (exists []; split; [cbn; lia|by rewrite app_nil_r]).
  unfold step. destruct (h_ub s); [done|]. destruct (h_thr s !! t) as [[|f rest]|]; [done| |done].
  destruct f as [[|a l]|[r cb|p]|i v| |]; cbn [h_cap h_vec h_log]; try done.
  - destruct (e_mt E); [destruct (h_lock s)|]; done.
  - split_and!.
    + destruct (_ =? _); lia.
    + rewrite app_length. cbn. destruct (length (h_vec s) =? h_cap s) eqn:Eq; [lia|]. apply Nat.eqb_neq in Eq. lia.
    + exists [Issued (h_next s) r cb]. split; [cbn; lia|done].
  - destruct (find_match (e_match E) p 0 (h_vec s)) as [[i e]|]; cbn [h_cap h_vec h_log].
    + split_and!; [lia|done|]. eexists. split; [|done]. cbn. lia.
    + split_and!; [lia|done|]. eexists. split; [|done]. cbn. lia.
  - destruct v; cbn [h_cap h_vec h_log]; [|done]. split_and!; [lia| |done]. rewrite <- Hl. rewrite delete_take_drop, app_length, take_length, drop_length. lia.
  - destruct rest as [|g [|g' rest']]; done.
Qed.
Definition cap_ok (s : hst) : Prop := length (h_vec s) <= h_cap s /\ forall k, waiting (take k (h_log s)) <= h_cap s.
Lemma inv_waiting E A s : Inv E A s -> waiting (h_log s) <= length (h_vec s).
Proof.
  intros (_ & a & stk & _ & [[_ Hr]|(ab & i & be & _ & _ & _ & Hi & Hr)] & _); apply rules_waiting in Hr as [-> _]; rewrite fmap_length; [done|].
  rewrite delete_take_drop, app_length, take_length, drop_length. lia.
Qed.
Lemma inv_room E A s : Inv E A s -> cap_ok s -> below_peak s -> room s.
Proof.
  intros HI [_ Hcap] Hb t r cb rest Hl Hex. destruct (Hb t r cb rest Hl Hex) as [k Hk]. specialize (Hcap k).
  assert (length (h_vec s) <= S (waiting (h_log s))); [|lia].
  destruct HI as (_ & a & stk & _ & [[_ Hr]|(ab & i & be & _ & _ & _ & Hi & Hr)] & _); apply rules_waiting in Hr as [-> _]; rewrite fmap_length; [lia|].
  rewrite delete_take_drop, app_length, take_length, drop_length. lia.
Qed.
Theorem C14_below_peak : forall E progs sched, threads_ok E progs -> requesting_callbacks E ->
  (forall n, below_peak (run E (hst_new progs) (take n sched))) ->
  let s := run E (hst_new progs) sched in
  h_ub s = false /\ follows_rules (e_match E) (h_log s) <> None /\ NoDup (answered (h_log s)).
Proof.
  intros E progs sched Hok Hreq Hb. apply C14_room; [done|done|].
  destruct Hok as [Hp H1], Hreq as [Hc Ht].
  assert (Hall : forall n, Inv E (fun a => exists r cb', a = Req r cb' /\ e_pub E r = []) (run E (hst_new progs) (take n sched)) /\ cap_ok (run E (hst_new progs) (take n sched))).
  { induction n as [|n [IH1 IH2]].
    - rewrite take_0. split; [by apply inv_new|]. cbn [run fold_left]. split; cbn; [done|]. intros k. by rewrite take_nil.
    - destruct (sched !! n) as [t|] eqn:En.
      2: { apply lookup_ge_None in En. rewrite take_ge by lia. rewrite take_ge in IH1, IH2 by lia. done. }
      rewrite (take_S_r _ _ _ En). unfold run. rewrite fold_left_app. cbn [fold_left].
      fold (run E (hst_new progs) (take n sched)). set (s := run E (hst_new progs) (take n sched)) in *.
      assert (HI : Inv E (fun a => exists r cb', a = Req r cb' /\ e_pub E r = []) (step E s t)).
      { apply inv_step; [done|done|done|done|]. eapply inv_room; [done|done|apply Hb]. }
      split; [done|]. destruct IH2 as [Hv Hk]. destruct (cap_step E s t Hv) as (C1 & C2 & e & He & Hlog). split; [done|].
      intros k. destruct (decide (k <= length (h_log s))) as [Hle|Hgt].
      + rewrite Hlog, take_app_le by done. specialize (Hk k). lia.
      + rewrite take_ge by (rewrite Hlog, app_length; lia). apply inv_waiting in HI. lia. }
  intros n. destruct (Hall n) as [HI Hcap]. eapply inv_room; [done|done|apply Hb].
Qed.
Print Assumptions C14_below_peak.
Example C14_peak_case :   (* two requests are answered before: the callback's request is below the peak of two *)
  let progs := [[Req 4 0; Req 7 0; Req 5 1; Rep 4; Rep 7; Rep 5; Rep 6]] in
  (forall n, below_peak (run (request_env false) (hst_new progs) (take n (repeat 0 40)))) /\
  h_log (run (request_env false) (hst_new progs) (repeat 0 40)) =
    [Issued 0 4 0; Issued 1 7 0; Issued 2 5 1; Answered 0 0 4; Answered 1 0 7; Answered 2 1 5; Issued 3 6 2; Answered 3 2 6].
Proof.
  split; [|vm_compute; reflexivity].
  intros n. assert (Hn : exists m, m <= 40 /\ take n (repeat 0 40) = take m (repeat 0 40)).
  { destruct (decide (n <= 40)); [eauto|]. exists 40. split; [lia|]. rewrite !take_ge by (rewrite repeat_length; lia). done. }
  destruct Hn as (m & Hm & ->). clear n. intros t r cb rest Hl (i & v & Hin).
  destruct t as [|t].
  - do 41 (destruct m as [|m]; [vm_compute in Hl; simplify_eq;
      first [by (exists 3; vm_compute; repeat constructor) | exfalso; revert Hin; clear; set_solver]|]). lia.
  - do 41 (destruct m as [|m]; [vm_compute in Hl; by destruct t|]). lia.
Qed.

(** Thread-safe handler: a thread that calls the handler while it is inside the
    handler never continues, nobody else ever gets in, whatever the schedule. *)
Theorem C14_mt_self_deadlock : forall E s t a l rest, e_mt E = true ->
  h_lock s = Some t -> h_thr s !! t = Some (Acts (a :: l) :: rest) ->
  (forall t' stk, t' <> t -> h_thr s !! t' = Some stk -> stk = [] \/ exists l, stk = [Acts l]) ->
  forall sched, let s' := run E s sched in
    h_log s' = h_log s /\ h_vec s' = h_vec s /\ h_lock s' = Some t /\ h_thr s' !! t = Some (Acts (a :: l) :: rest).
Proof.
  intros E s t a l rest Hmt Hlk Hth Hq sched. revert s Hlk Hth Hq.
  induction sched as [|u sched IH]; intros s Hlk Hth Hq; [done|]. cbn [run fold_left].
  assert (Hs : h_log (step E s u) = h_log s /\ h_vec (step E s u) = h_vec s /\ h_lock (step E s u) = Some t /\
     h_thr (step E s u) !! t = Some (Acts (a :: l) :: rest) /\
     (forall t' stk, t' <> t -> h_thr (step E s u) !! t' = Some stk -> stk = [] \/ exists l, stk = [Acts l])).
  { unfold step. destruct (h_ub s); [done|]. destruct (decide (u = t)) as [->|Hne].
    - rewrite Hth, Hmt, Hlk. rewrite <- Hlk. split_and!; auto.
    - destruct (h_thr s !! u) as [[|f r]|] eqn:Eu; [done| |done].
      destruct (Hq _ _ Hne Eu) as [?|[l' Hl]]; [done|]. injection Hl as -> ->.
      destruct l' as [|b l']; [|rewrite Hmt, Hlk; rewrite <- Hlk; by split_and!].
      cbn [h_log h_vec h_lock h_thr]. split_and!; [done..| |].
      + by rewrite list_lookup_insert_ne.
      + intros t' stk Hn Hl. destruct (decide (t' = u)) as [->|].
        * rewrite list_lookup_insert in Hl by (by eapply lookup_lt_Some). injection Hl as <-. by left.
        * rewrite list_lookup_insert_ne in Hl by done. eauto. }
  destruct Hs as (E1 & E2 & E3 & E4 & E5). destruct (IH _ E3 E4 E5) as (F1 & F2 & F3 & F4).
  unfold run in *. rewrite F1, F2. done.
Qed.
Print Assumptions C14_mt_self_deadlock.
(** It happens: with a callback making a request, and with a middleware that answers synchronously. *)
Definition stuck_inside (E : env) (s : hst) : Prop :=
  exists t a l rest, h_lock s = Some t /\ h_thr s !! t = Some (Acts (a :: l) :: rest) /\
    (forall t' stk, t' <> t -> h_thr s !! t' = Some stk -> stk = [] \/ exists l, stk = [Acts l]).
Theorem C14_mt_refuted :
  stuck_inside (request_env true) (run (request_env true) (hst_new [[Req 5 1; Rep 5]; [Rep 7]]) (repeat 0 7)) /\
  (let E := Env Nat.eqb (fun r => [Rep r]) (fun _ _ => []) (fun _ _ => false) true (fun c => c) in
   stuck_inside E (run E (hst_new [[Req 5 1]; [Rep 7]]) (repeat 0 2))).
Proof.
  split.
  - exists 0. eexists _, _, _. split; [vm_compute; reflexivity|]. split; [vm_compute; reflexivity|].
    intros [|[|t']] stk Hn Hl; [done| |vm_compute in Hl; by destruct t']. vm_compute in Hl. injection Hl as <-. eauto.
  - exists 0. eexists _, _, _. split; [vm_compute; reflexivity|]. split; [vm_compute; reflexivity|].
    intros [|[|t']] stk Hn Hl; [done| |vm_compute in Hl; by destruct t']. vm_compute in Hl. injection Hl as <-. eauto.
Qed.
Print Assumptions C14_mt_refuted.
