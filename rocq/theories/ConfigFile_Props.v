(** * C36, C62: property files. *)
From Coq Require Import Ascii String ZArith Lia.
From stdpp Require Import prelude.
From Verif Require Import ConfigFile_Model.
Local Open Scope nat_scope.
Local Open Scope list_scope.

(** ** Specification: what a well-formed file looks like. *)
(** Blanks are spaces and tabs. *)
Definition blanks (l : text) : Prop := Forall (fun c => c = SP \/ c = TAB) l.
Definition good_key (k : text) : Prop := k <> [] /\ Forall (fun c => c <> SP /\ c <> TAB /\ c <> EQ /\ c <> SEMI /\ c <> NL) k.
(** A value: no comment sign nor end of line in it, and neither its first nor its last character is a blank. *)
Definition good_value (v : text) : Prop :=
  Forall (fun c => c <> SEMI /\ c <> NL) v /\ (exists c r, v = c :: r /\ c <> SP /\ c <> TAB) /\ (exists r c, v = r ++ [c] /\ c <> SP /\ c <> TAB).
Inductive item :=
| Spaces (n : nat) (comment : option text)                                  (* spaces only, and maybe a comment *)
| Entry (b1 key b2 b3 value b4 : text) (comment : option text).             (* b1 key b2 = b3 value b4 ; comment *)
Definition good_comment (c : option text) : Prop := match c with Some t => NL ∉ t | None => True end.
Definition good_item (i : item) : Prop :=
  match i with
  | Spaces _ c => good_comment c
  | Entry b1 k b2 b3 v b4 c => blanks b1 /\ good_key k /\ blanks b2 /\ blanks b3 /\ good_value v /\ blanks b4 /\ good_comment c
  end.
Definition render_comment (c : option text) : text := match c with Some t => SEMI :: t | None => [] end.
Definition render (i : item) : text :=
  match i with
  | Spaces n c => replicate n SP ++ render_comment c
  | Entry b1 k b2 b3 v b4 c => b1 ++ k ++ b2 ++ [EQ] ++ b3 ++ v ++ b4 ++ render_comment c
  end.
(** The file: each line followed by an end of line. *)
Definition file_of (items : list item) : text := concat ((fun i => render i ++ [NL]) <$> items).
Definition entries (items : list item) : list (text * text) := omap (fun i => match i with Entry _ k _ _ v _ _ => Some (k, v) | _ => None end) items.

(** ** Lemmas *)
Lemma is_true a b : is a b = true <-> a = b.
Proof. unfold is. apply Ascii.eqb_eq. Qed.
Lemma is_false a b : is a b = false <-> a <> b.
Proof. unfold is. apply Ascii.eqb_neq. Qed.
Lemma take_while_all p l r : Forall (fun c => p c = true) l -> take_while p (l ++ r) = l ++ take_while p r.
Proof. induction 1 as [|c l Hc HF IH]; cbn; [done|]. by rewrite Hc, IH. Qed.
Lemma drop_while_all p l r : Forall (fun c => p c = true) l -> drop_while p (l ++ r) = drop_while p r.
Proof. induction 1 as [|c l Hc HF IH]; cbn; [done|]. by rewrite Hc. Qed.
Lemma blank_true c : blank c = true <-> c = SP \/ c = TAB.
Proof. unfold blank. rewrite orb_true_iff, !is_true. tauto. Qed.
Lemma blank_false c : blank c = false <-> c <> SP /\ c <> TAB.
Proof. rewrite <- not_true_iff_false, blank_true. tauto. Qed.
Lemma blanks_blank l : blanks l -> Forall (fun c => blank c = true) l.
Proof. intros H. eapply Forall_impl; [exact H|]. intros c Hc. by apply blank_true. Qed.
Lemma blanks_rev l : blanks l -> blanks (rev l).
Proof. unfold blanks. intros H. rewrite <- (rev_involutive l) in H. apply Forall_forall. intros x Hx. rewrite Forall_forall in H. apply H. rewrite rev_involutive.
  apply elem_of_list_In, in_rev, elem_of_list_In. done. Qed.

Lemma split_lines_gen cur l r : NL ∉ l -> split_lines cur (l ++ NL :: r) = (rev cur ++ l) :: split_lines [] r.
Proof.
  revert cur. induction l as [|c l IH]; intros cur H; cbn.
  - by rewrite app_nil_r.
  - apply not_elem_of_cons in H as [H1 H2]. rewrite (proj2 (is_false c NL)) by congruence. rewrite IH by done. cbn. by rewrite <- app_assoc.
Qed.
Lemma split_file ls : Forall (fun l => NL ∉ l) ls -> split_lines [] (concat ((fun l => l ++ [NL]) <$> ls)) = ls ++ [[]].
Proof.
  induction 1 as [|l ls Hl HF IH]; cbn; [done|]. rewrite <- app_assoc. cbn. rewrite split_lines_gen by done. cbn. f_equal. exact IH.
Qed.
Lemma parse_lines_app m l1 l2 : parse_lines m (l1 ++ l2) = match parse_lines m l1 with Some m' => parse_lines m' l2 | None => None end.
Proof. revert m. induction l1 as [|l l1 IH]; intros m; cbn; [done|]. destruct (parse_line m l); [apply IH|done]. Qed.

Lemma render_no_nl i : good_item i -> NL ∉ render i.
Proof.
  assert (forall c, good_comment c -> NL ∉ render_comment c) as Hc.
  { intros [t|]; cbn; intros H; [apply not_elem_of_cons; split; [done|exact H]|apply not_elem_of_nil]. }
  assert (forall b, blanks b -> NL ∉ b) as Hb.
  { intros b H Hin. unfold blanks in H. rewrite Forall_forall in H. destruct (H NL Hin); done. }
  destruct i as [n c|b1 k b2 b3 v b4 c]; cbn [good_item render].
  - intros H. apply not_elem_of_app. split; [|by apply Hc]. intros Hin. apply elem_of_replicate in Hin as [Hin _]. done.
  - intros (H1 & [_ Hk] & H2 & H3 & [Hv _] & H4 & H5). rewrite !not_elem_of_app. repeat split; auto.
    + intros Hin. rewrite Forall_forall in Hk. destruct (Hk NL Hin) as (_ & _ & _ & _ & ?). done.
    + apply not_elem_of_cons. split; [done|apply not_elem_of_nil].
    + intros Hin. rewrite Forall_forall in Hv. destruct (Hv NL Hin) as (_ & ?). done.
Qed.
Lemma remove_comment_app t c : Forall (fun x => x <> SEMI) t -> remove_comment (t ++ render_comment c) = t.
Proof.
  intros H. unfold remove_comment. rewrite take_while_all.
  - destruct c; cbn; by rewrite app_nil_r.
  - eapply Forall_impl; [exact H|]. intros x Hx. cbn. by rewrite (proj2 (is_false x SEMI)).
Qed.
Lemma only_ws_replicate n : only_whitespace (replicate n SP) = true.
Proof. induction n; cbn; [done|exact IHn]. Qed.
Lemma parse_spaces m n c : parse_line m (render (Spaces n c)) = Some m.
Proof.
  unfold parse_line. cbn [render]. rewrite remove_comment_app.
  - rewrite only_ws_replicate. by destruct (replicate n SP ++ render_comment c).
  - apply Forall_replicate. done.
Qed.
Lemma key_free k : good_key k -> Forall (fun c => is c EQ = false /\ blank c = false /\ is c SEMI = false /\ is c SP = false) k.
Proof. intros [_ H]. eapply Forall_impl; [exact H|]. intros c (H1 & H2 & H3 & H4 & H5). rewrite !is_false, blank_false. done. Qed.
Lemma blanks_free b : blanks b -> Forall (fun c => is c EQ = false /\ blank c = true /\ is c SEMI = false) b.
Proof. intros H. eapply Forall_impl; [exact H|]. intros c Hc. rewrite !is_false, blank_true. destruct Hc as [-> | ->]; repeat split; try done; auto. Qed.
Lemma parse_entry m b1 k b2 b3 v b4 c :
  good_item (Entry b1 k b2 b3 v b4 c) ->
  parse_line m (render (Entry b1 k b2 b3 v b4 c)) = match lookup_key m k with Some _ => None | None => Some (m ++ [(k, v)]) end.
Proof.
  intros (Hb1 & Hk & Hb2 & Hb3 & Hv & Hb4 & Hc). pose proof (key_free k Hk) as Fk. destruct Hk as [Hk0 Hk].
  pose proof (blanks_free _ Hb1) as F1. pose proof (blanks_free _ Hb2) as F2. pose proof (blanks_free _ Hb3) as F3. pose proof (blanks_free _ Hb4) as F4.
  destruct Hv as (Hv & (vc & vr & Hv1 & Hvc) & (vl & vd & Hv2 & Hvd)).
  destruct k as [|kc kr]; [done|]. clear Hk0.
  set (body := b1 ++ (kc :: kr) ++ b2 ++ [EQ] ++ b3 ++ v ++ b4).
  assert (render (Entry b1 (kc :: kr) b2 b3 v b4 c) = body ++ render_comment c) as Hr.
  { unfold body. cbn [render]. rewrite <- !app_assoc. done. }
  assert (remove_comment (body ++ render_comment c) = body) as Hrc.
  { apply remove_comment_app. unfold body. rewrite !Forall_app. repeat split.
    - eapply Forall_impl; [exact F1|]. intros x (_ & _ & H). by apply is_false.
    - eapply Forall_impl; [exact Fk|]. intros x (_ & _ & H & _). by apply is_false.
    - eapply Forall_impl; [exact F2|]. intros x (_ & _ & H). by apply is_false.
    - constructor; [done|constructor].
    - eapply Forall_impl; [exact F3|]. intros x (_ & _ & H). by apply is_false.
    - eapply Forall_impl; [exact Hv|]. tauto.
    - eapply Forall_impl; [exact F4|]. intros x (_ & _ & H). by apply is_false. }
  unfold parse_line. rewrite Hr, Hrc.
  assert (exists x y, body ++ render_comment c = x :: y) as (x & y & ->).
  { unfold body. destruct b1; cbn; eauto. }
  set (rest := b3 ++ v ++ b4).
  assert (trim_left body = (kc :: kr) ++ b2 ++ EQ :: rest) as Ht.
  { unfold trim_left, body. rewrite drop_while_all by (eapply Forall_impl; [exact F1|]; tauto). cbn.
    apply Forall_cons in Fk as [(_ & -> & _) _]. done. }
  assert (only_whitespace body = false) as ->.
  { unfold only_whitespace. apply not_true_iff_false. intros H. rewrite forallb_forall in H. specialize (H kc). rewrite is_true in H. rewrite H in Fk.
    - apply Forall_cons in Fk as [(_ & _ & _ & E) _]. by vm_compute in E.
    - unfold body. apply in_or_app. right. left. done. }
  assert (has_sep body = true) as ->.
  { unfold has_sep. apply existsb_exists. exists EQ. split; [|done]. unfold body. rewrite !in_app_iff. do 3 right. left. left. done. }
  assert (before_sep ((kc :: kr) ++ b2 ++ EQ :: rest) = (kc :: kr) ++ b2) as Hbs.
  { unfold before_sep. rewrite take_while_all.
    - rewrite take_while_all; [cbn; by rewrite app_nil_r|]. eapply Forall_impl; [exact F2|]. intros z (-> & _). done.
    - eapply Forall_impl; [exact Fk|]. intros z (-> & _). done. }
  assert (after_sep ((kc :: kr) ++ b2 ++ EQ :: rest) = rest) as Has.
  { unfold after_sep. rewrite drop_while_all.
    - rewrite drop_while_all; [done|]. eapply Forall_impl; [exact F2|]. intros z (-> & _). done.
    - eapply Forall_impl; [exact Fk|]. intros z (-> & _). done. }
  assert (valid_line body = true) as ->.
  { unfold valid_line. rewrite Ht, Has. cbn [app]. apply Forall_cons in Fk as [(-> & _) _]. apply existsb_exists. exists vc. split.
    - unfold rest. rewrite !in_app_iff, Hv1. right. left. left. done.
    - destruct Hvc as [Hvc _]. by rewrite (proj2 (is_false vc SP)). }
  cbn [negb]. rewrite Ht.
  assert (extract_key ((kc :: kr) ++ b2 ++ EQ :: rest) = kc :: kr) as ->.
  { unfold extract_key. rewrite Hbs. rewrite take_while_all.
    - destruct b2 as [|z b2]; cbn; [by rewrite app_nil_r|]. apply Forall_cons in F2 as [(_ & -> & _) _]. cbn. by rewrite app_nil_r.
    - eapply Forall_impl; [exact Fk|]. intros z (_ & -> & _). done. }
  assert (extract_value ((kc :: kr) ++ b2 ++ EQ :: rest) = v) as ->; [|done].
  unfold extract_value. rewrite Has. unfold rest, trim_left. rewrite drop_while_all by (eapply Forall_impl; [exact F3|]; tauto).
  assert (drop_while blank (v ++ b4) = v ++ b4) as ->.
  { rewrite Hv1. cbn. by rewrite (proj2 (blank_false vc)). }
  unfold trim_right. rewrite rev_app_distr. rewrite drop_while_all by (apply blanks_blank, blanks_rev; done).
  rewrite Hv2, rev_app_distr. cbn. rewrite (proj2 (blank_false vd)) by done. cbn. by rewrite rev_involutive.
Qed.
Lemma lookup_key_none m k : lookup_key m k = None <-> k ∉ m.*1.
Proof.
  induction m as [|[k' v] m IH]; cbn; [split; [intros _; apply not_elem_of_nil|done]|]. rewrite not_elem_of_cons. destruct (decide (k = k')) as [->|H].
  - split; [done|]. intros [H _]. done.
  - rewrite IH. tauto.
Qed.
Lemma lookup_key_app m k v m' : k ∉ m.*1 -> lookup_key (m ++ (k, v) :: m') k = Some v.
Proof. induction m as [|[k' v'] m IH]; cbn; [by rewrite decide_True|]. rewrite not_elem_of_cons. intros [H1 H2]. rewrite decide_False by done. auto. Qed.
Lemma parse_items m items : Forall good_item items -> 
  parse_lines m (render <$> items) = if decide (NoDup ((m ++ entries items).*1)) then Some (m ++ entries items) else if decide (NoDup (m.*1)) then None else parse_lines m (render <$> items).
Proof.
  intros HF. revert m. induction HF as [|i items Hi HF IH]; intros m; cbn [fmap list_fmap parse_lines entries omap list_omap].
  - rewrite app_nil_r. destruct (decide (NoDup m.*1)); done.
  - destruct i as [n c|b1 k b2 b3 v b4 c].
    + rewrite parse_spaces. apply IH.
    + rewrite parse_entry by done. destruct (lookup_key m k) as [w|] eqn:E.
      * destruct (decide _) as [Hn|Hn].
        -- exfalso. rewrite fmap_app in Hn. apply NoDup_app in Hn as (_ & Hd & _). cbn in Hd. assert (k ∈ m.*1) as Hin.
           { apply dec_stable. intros H. apply lookup_key_none in H. congruence. }
           apply (Hd k Hin). left.
        -- destruct (decide _); done.
      * rewrite IH. replace ((m ++ [(k, v)]) ++ entries items) with (m ++ (k, v) :: entries items) by (by rewrite <- app_assoc).
        fold (entries items). destruct (decide (NoDup (m ++ (k, v) :: entries items).*1)) as [Hn|Hn]; [done|].
        destruct (decide (NoDup m.*1)) as [Hm|Hm]; [|done]. rewrite decide_True; [done|].
        rewrite fmap_app. apply NoDup_app. split; [done|]. split; [|apply NoDup_singleton]. intros x Hx. cbn. rewrite elem_of_list_singleton. intros ->. by apply lookup_key_none in E.
Qed.

(** ** C36 *)
(** A well-formed file with distinct keys is read as exactly its entries; with a repeated key it is rejected. *)
Theorem C36_contents items :
  Forall good_item items ->
  (NoDup (entries items).*1 -> parse (file_of items) = Some (entries items)) /\ (~ NoDup (entries items).*1 -> parse (file_of items) = None).
Proof.
  intros HF. assert (parse (file_of items) = parse_lines [] (render <$> items)) as ->.
  { unfold parse, file_of.
    assert ((fun i => render i ++ [NL]) <$> items = (fun l => l ++ [NL]) <$> (render <$> items)) as -> by (by rewrite <- list_fmap_compose).
    rewrite split_file.
    - rewrite parse_lines_app. destruct (parse_lines [] (render <$> items)); done.
    - apply Forall_fmap. eapply Forall_impl; [exact HF|]. apply render_no_nl. }
  rewrite (parse_items [] items HF). cbn [app fmap list_fmap]. split; intros H.
  - by rewrite decide_True.
  - rewrite decide_False by done. rewrite decide_True; [done|]. constructor.
Qed.
(** Any file with a line that, its comment removed, has a character other than a space and no separator is rejected. *)
Theorem C36_no_separator_rejected ls l :
  Forall (fun l => NL ∉ l) ls -> l ∈ ls -> EQ ∉ remove_comment l -> (exists c, c ∈ remove_comment l /\ c <> SP) ->
  parse (concat ((fun l => l ++ [NL]) <$> ls)) = None.
Proof.
  intros HF Hin Hsep (c & Hc & Hsp). unfold parse. rewrite split_file by done.
  assert (forall m, parse_line m l = None) as Hbad.
  { intros m. unfold parse_line. destruct l as [|x l]; [by apply elem_of_nil in Hc|].
    assert (only_whitespace (remove_comment (x :: l)) = false) as ->.
    { apply not_true_iff_false. unfold only_whitespace. rewrite forallb_forall. intros H. apply elem_of_list_In, H, is_true in Hc. done. }
    assert (has_sep (remove_comment (x :: l)) = false) as ->; [|done].
    apply not_true_iff_false. unfold has_sep. rewrite existsb_exists. intros (y & Hy & E). apply is_true in E as ->. apply Hsep. by apply elem_of_list_In. }
  apply elem_of_list_split in Hin as (l1 & l2 & ->). rewrite <- app_assoc. rewrite parse_lines_app. destruct (parse_lines [] l1); [|done]. cbn. by rewrite Hbad.
Qed.
(** The white space characters of the C locale: tab, line feed, vertical tab, form feed, carriage return, blank. *)
Definition white (c : ascii) : Prop := c ∈ ascii_of_nat <$> [9; 10; 11; 12; 13; 32].
Lemma space_white c : space c = false <-> ~ white c.
Proof.
  unfold white. split.
  - intros H Hin. cbn [fmap list_fmap] in Hin. repeat (apply elem_of_cons in Hin as [->|Hin]; [done|]). by apply elem_of_nil in Hin.
  - intros H. destruct (space c) eqn:E; [|done]. exfalso. apply H. rewrite <- (ascii_nat_embedding c). unfold space in E.
    assert (nat_of_ascii c ∈ [9; 10; 11; 12; 13; 32]) as Hin.
    { apply orb_true_iff in E as [E|E]; [apply Nat.eqb_eq in E as ->; apply elem_of_list_In; cbn; tauto|]. apply andb_true_iff in E as [E1 E2].
      apply Nat.leb_le in E1, E2. apply elem_of_list_In. cbn. lia. }
    by apply elem_of_list_fmap_1.
Qed.
Lemma white_space v : Forall (fun c => ~ white c) v -> Forall (fun c => space c = false) v.
Proof. intros H. eapply Forall_impl; [exact H|]. intros c Hc. by apply space_white. Qed.
(** Reading: the value of an entry that contains no white space; a missing key gives the default. *)
Lemma word_id v : Forall (fun c => space c = false) v -> word v = v.
Proof.
  intros H. unfold word. assert (drop_while space v = v) as ->.
  { destruct H as [|c l Hc _]; cbn; [done|]. by rewrite Hc. }
  rewrite <- (app_nil_r v) at 1. rewrite take_while_all; [cbn; by rewrite app_nil_r|]. eapply Forall_impl; [exact H|]. intros c ->. done.
Qed.
Theorem C95_get_string items k v default :
  Forall good_item items -> NoDup (entries items).*1 -> (k, v) ∈ entries items -> Forall (fun c => ~ white c) v ->
  exists m, parse (file_of items) = Some m /\ get_value to_string m k default = Some v.
Proof.
  intros HF Hn Hin Hv. apply white_space in Hv. exists (entries items). split; [by apply C36_contents|]. unfold get_value.
  assert (v <> []) as Hne.
  { apply elem_of_list_omap in Hin as ([|b1 k' b2 b3 v' b4 c] & Hi & E); [done|]. injection E as -> ->. rewrite Forall_forall in HF. destruct (HF _ Hi) as (_ & _ & _ & _ & (_ & (x & r & -> & _) & _) & _). done. }
  apply elem_of_list_split in Hin as (l1 & l2 & E). rewrite E in Hn |- *. rewrite lookup_key_app.
  - unfold to_string. rewrite word_id by done. by destruct v.
  - rewrite fmap_app in Hn. apply NoDup_app in Hn as (_ & Hd & _). intros Hin. apply (Hd k Hin). left.
Qed.
Theorem C36_get_missing items k A (conv : text -> option A) default :
  Forall good_item items -> NoDup (entries items).*1 -> k ∉ (entries items).*1 ->
  exists m, parse (file_of items) = Some m /\ get_value conv m k default = Some default.
Proof. intros HF Hn Hk. exists (entries items). split; [by apply C36_contents|]. unfold get_value. by rewrite (proj2 (lookup_key_none _ k)). Qed.
(** Integers: a text of decimal digits, maybe with a minus sign, is read as the number it denotes. *)
Fixpoint denotes (acc : Z) (ds : list nat) : Z := match ds with [] => acc | d :: ds' => denotes (acc * 10 + Z.of_nat d) ds' end.
Definition show (neg : bool) (ds : list nat) : text := (if neg then ["-"%char] else []) ++ ((fun d => ascii_of_nat (48 + d)) <$> ds).
Lemma digit_char d : d < 10 -> digit 10 (ascii_of_nat (48 + d)) = Some (Z.of_nat d).
Proof. intros H. do 10 (destruct d as [|d]; [done|]). lia. Qed.
Lemma digits_show acc ds : Forall (fun d => d < 10) ds -> digits 10 acc ((fun d => ascii_of_nat (48 + d)) <$> ds) = denotes acc ds.
Proof. intros H. revert acc. induction H as [|d ds Hd HF IH]; intros acc; cbn [fmap list_fmap digits denotes]; [done|]. rewrite digit_char by done. apply IH. Qed.
Lemma digit_not d : d < 10 -> space (ascii_of_nat (48 + d)) = false /\ is (ascii_of_nat (48 + d)) "-"%char = false /\ is (ascii_of_nat (48 + d)) "+"%char = false /\ is (ascii_of_nat (48 + d)) "x"%char = false.
Proof. intros H. do 10 (destruct d as [|d]; [done|]). lia. Qed.
Lemma no_0x neg ds : Forall (fun d => d < 10) ds -> has_0x (show neg ds) = false.
Proof.
  intros H. assert (forall l, Forall (fun c => is c "x"%char = false) l -> has_0x l = false) as Hx.
  { intros l. induction l as [|c l IH]; [done|]. intros HF. apply Forall_cons in HF as [_ HF]. destruct l as [|d l]; [done|].
    change (has_0x (c :: d :: l)) with ((is c "0"%char && is d "x"%char) || has_0x (d :: l)). rewrite (IH HF). apply Forall_cons in HF as [-> _]. by rewrite andb_false_r. }
  apply Hx. unfold show. apply Forall_app. split; [destruct neg; repeat constructor|]. apply Forall_fmap. eapply Forall_impl; [exact H|]. intros d Hd. by apply digit_not.
Qed.
Definition sign_of (v : text) : bool * text :=
  match v with c :: r => if is c "-"%char then (true, r) else if is c "+"%char then (false, r) else (false, v) | [] => (false, v) end.
Lemma scan_10 v neg w : sign_of (drop_while space v) = (neg, w) -> some_digit 10 w = true ->
  scan 10 v = Some (if neg then (- digits 10 0 w)%Z else digits 10 0 w).
Proof.
  intros H1 H2. unfold scan. unfold sign_of in H1. rewrite H1.
  assert (match w with a :: b :: r => if (10 =? 16)%Z && is a "0"%char && (is b "x"%char || is b "X"%char) && some_digit 16 r then r else w | _ => w end = w) as ->.
  { destruct w as [|a [|b r]]; done. }
  by rewrite H2.
Qed.
Lemma scan_show neg ds : ds <> [] -> Forall (fun d => d < 10) ds -> scan 10 (show neg ds) = Some (if neg then (- denotes 0 ds)%Z else denotes 0 ds).
Proof.
  intros Hne Hd. set (w := (fun d => ascii_of_nat (48 + d)) <$> ds).
  assert (sign_of (drop_while space (show neg ds)) = (neg, w) /\ some_digit 10 w = true) as [H1 H2].
  { unfold w, show. destruct ds as [|d ds]; [done|]. apply Forall_cons in Hd as [Hd0 _]. destruct (digit_not d Hd0) as (N1 & N2 & N3 & _).
    split; [|cbn [fmap list_fmap some_digit]; by rewrite digit_char].
    destruct neg; [done|]. cbn [app fmap list_fmap drop_while]. rewrite N1. unfold sign_of. by rewrite N2, N3. }
  rewrite (scan_10 _ _ _ H1 H2). unfold w. by rewrite digits_show by done.
Qed.
(** The value of an entry, whatever the conversion. *)
Lemma get_entry {A} (conv : text -> option A) items k v default : NoDup (entries items).*1 -> (k, v) ∈ entries items -> get_value conv (entries items) k default = conv v.
Proof.
  intros Hn Hin. unfold get_value. apply elem_of_list_split in Hin as (l1 & l2 & E). rewrite E in Hn |- *. rewrite lookup_key_app; [done|].
  rewrite fmap_app in Hn. apply NoDup_app in Hn as (_ & Hdis & _). intros Hin. apply (Hdis k Hin). left.
Qed.
Theorem C36_get_int items k neg ds default :
  Forall good_item items -> NoDup (entries items).*1 -> ds <> [] -> Forall (fun d => d < 10) ds -> (k, show neg ds) ∈ entries items ->
  let z := if neg then (- denotes 0 ds)%Z else denotes 0 ds in
  exists m, parse (file_of items) = Some m /\
    get_value to_int m k default = if ((z <? int_min) || (int_max <? z))%Z then None else Some z.
Proof.
  intros HF Hn Hne Hd Hin z. exists (entries items). split; [by apply C36_contents|]. rewrite (get_entry _ _ _ _ _ Hn Hin).
  unfold to_int, num_get. rewrite no_0x, scan_show by done. fold z.
  destruct (z <? int_min)%Z; [done|]. destruct (int_max <? z)%Z; done.
Qed.
(** Lines that say nothing: without a key, or without a value. *)
Lemma bad_line ls l : Forall (fun l => NL ∉ l) ls -> l ∈ ls -> (forall m, parse_line m l = None) -> parse (concat ((fun l => l ++ [NL]) <$> ls)) = None.
Proof.
  intros HF Hin Hbad. unfold parse. rewrite split_file by done.
  apply elem_of_list_split in Hin as (l1 & l2 & ->). rewrite <- app_assoc. rewrite parse_lines_app. destruct (parse_lines [] l1); [|done]. cbn. by rewrite Hbad.
Qed.
Theorem C36_no_key_rejected ls b r :
  Forall (fun l => NL ∉ l) ls -> blanks b -> b ++ EQ :: r ∈ ls -> parse (concat ((fun l => l ++ [NL]) <$> ls)) = None.
Proof.
  intros HF Hb Hin. eapply bad_line; [done|exact Hin|]. intros m. pose proof (blanks_free _ Hb) as Fb.
  assert (exists r', remove_comment (b ++ EQ :: r) = b ++ EQ :: r') as (r' & Hr).
  { unfold remove_comment. rewrite take_while_all by (eapply Forall_impl; [exact Fb|]; intros c (_ & _ & ->); done). cbn. eauto. }
  unfold parse_line. rewrite Hr. assert (exists x y, b ++ EQ :: r = x :: y) as (x & y & ->) by (destruct b; cbn; eauto).
  assert (only_whitespace (b ++ EQ :: r') = false) as ->.
  { apply not_true_iff_false. unfold only_whitespace. rewrite forallb_forall. intros H. specialize (H EQ). rewrite is_true in H.
    assert (EQ = SP) by (apply H, in_or_app; right; left; done). done. }
  assert (has_sep (b ++ EQ :: r') = true) as ->.
  { apply existsb_exists. exists EQ. split; [apply in_or_app; right; left; done|done]. }
  assert (trim_left (b ++ EQ :: r') = EQ :: r') as Ht.
  { unfold trim_left. rewrite drop_while_all by (eapply Forall_impl; [exact Fb|]; intros ? (_ & Hy & _); exact Hy). done. }
  unfold valid_line. rewrite Ht. done.
Qed.
(** [k] has no separator; what follows the separator, up to a comment, is spaces. *)
Theorem C36_no_value_rejected ls k n c :
  Forall (fun l => NL ∉ l) ls -> Forall (fun x => x <> EQ /\ x <> SEMI) k -> k ++ EQ :: replicate n SP ++ render_comment c ∈ ls ->
  parse (concat ((fun l => l ++ [NL]) <$> ls)) = None.
Proof.
  intros HF Hk Hin. eapply bad_line; [done|exact Hin|]. intros m.
  assert (remove_comment (k ++ EQ :: replicate n SP ++ render_comment c) = k ++ EQ :: replicate n SP) as Hr.
  { change (k ++ EQ :: replicate n SP ++ render_comment c) with (k ++ (EQ :: replicate n SP) ++ render_comment c). rewrite app_assoc. apply remove_comment_app.
    apply Forall_app. split; [eapply Forall_impl; [exact Hk|]; intros y [_ Hy]; exact Hy|]. constructor; [done|]. apply Forall_replicate. done. }
  unfold parse_line. rewrite Hr. assert (exists x y, k ++ EQ :: replicate n SP ++ render_comment c = x :: y) as (x & y & ->) by (destruct k; cbn; eauto).
  assert (only_whitespace (k ++ EQ :: replicate n SP) = false) as ->.
  { apply not_true_iff_false. unfold only_whitespace. rewrite forallb_forall. intros H. specialize (H EQ). rewrite is_true in H.
    assert (EQ = SP) by (apply H, in_or_app; right; left; done). done. }
  assert (has_sep (k ++ EQ :: replicate n SP) = true) as ->.
  { apply existsb_exists. exists EQ. split; [apply in_or_app; right; left; done|done]. }
  assert (valid_line (k ++ EQ :: replicate n SP) = false) as ->; [|done].
  assert (exists k', trim_left (k ++ EQ :: replicate n SP) = k' ++ EQ :: replicate n SP /\ Forall (fun x => x <> EQ /\ x <> SEMI) k') as (k' & Ht & Hk').
  { clear -Hk. unfold trim_left. induction Hk as [|x k Hx Hk IH]; cbn [app drop_while].
    - exists []. split; [done|constructor].
    - destruct (blank x); [exact IH|]. exists (x :: k). split; [done|]. by constructor. }
  unfold valid_line. rewrite Ht.
  assert (after_sep (k' ++ EQ :: replicate n SP) = replicate n SP) as ->.
  { unfold after_sep. rewrite drop_while_all; [done|]. eapply Forall_impl; [exact Hk'|]. intros q [Hq _]. by rewrite (proj2 (is_false q EQ)). }
  assert (existsb (fun c => negb (is c SP)) (replicate n SP) = false) as ->; [|destruct (k' ++ _) as [|z ?]; [done|]; by destruct (is z EQ)].
  apply not_true_iff_false. rewrite existsb_exists. intros (q & Hy & E). apply elem_of_list_In, elem_of_replicate in Hy as [-> _]. by vm_compute in E.
Qed.

Definition str (s : String.string) : text := String.list_ascii_of_string s.
(** ** C167: booleans and hexadecimal numbers. *)
(** [c] is a hexadecimal digit of value [d]. *)
Definition hex_char (c : ascii) (d : nat) : Prop := String.get d "0123456789abcdef" = Some c \/ String.get d "0123456789ABCDEF" = Some c.
Fixpoint denotes16 (acc : Z) (ds : list nat) : Z := match ds with [] => acc | d :: ds' => denotes16 (acc * 16 + Z.of_nat d) ds' end.
Definition minus (neg : bool) : text := if neg then ["-"%char] else [].
Example C167_example :
  Forall2 hex_char (str "1Fe") [1; 15; 14] /\ denotes16 0 [1; 15; 14] = 510%Z /\ minus true ++ "0"%char :: "x"%char :: str "1Fe" = str "-0x1Fe".
Proof. split; [|done]. repeat constructor; ((left; reflexivity) || (right; reflexivity)). Qed.
Lemma hex_char_digit c d : hex_char c d -> digit 16 c = Some (Z.of_nat d).
Proof. intros H. do 16 (destruct d as [|d]; [destruct H as [H|H]; injection H as <-; done|]). by destruct H. Qed.
Lemma digits_hex acc cs ds : Forall2 hex_char cs ds -> digits 16 acc cs = denotes16 acc ds.
Proof. intros H. revert acc. induction H as [|c d cs ds Hc HF IH]; intros acc; cbn [digits denotes16]; [done|]. rewrite (hex_char_digit _ _ Hc). apply IH. Qed.
Lemma hex_0x neg cs : has_0x (minus neg ++ "0"%char :: "x"%char :: cs) = true.
Proof. destruct neg; done. Qed.
Lemma scan_hex neg cs ds : Forall2 hex_char cs ds -> ds <> [] ->
  scan 16 (minus neg ++ "0"%char :: "x"%char :: cs) = Some (if neg then (- denotes16 0 ds)%Z else denotes16 0 ds).
Proof.
  intros H Hne. assert (some_digit 16 cs = true) as Hs.
  { destruct H as [|c d cs ds Hc _]; [done|]. cbn. by rewrite (hex_char_digit _ _ Hc). }
  rewrite <- (digits_hex 0 cs ds H).
  assert (sign_of (drop_while space (minus neg ++ "0"%char :: "x"%char :: cs)) = (neg, "0"%char :: "x"%char :: cs)) as H1 by (by destruct neg).
  unfold scan. unfold sign_of in H1. rewrite H1.
  replace ((16 =? 16)%Z && is "0" "0" && (is "x" "x" || is "x" "X") && some_digit 16 cs) with (some_digit 16 cs) by done. rewrite Hs, Hs. done.
Qed.
(** A hexadecimal number is read exactly if it fits; otherwise the nearest int is given (and no error). *)
Theorem C167_get_hex items k neg cs ds default :
  Forall good_item items -> NoDup (entries items).*1 -> Forall2 hex_char cs ds -> ds <> [] -> (k, minus neg ++ "0"%char :: "x"%char :: cs) ∈ entries items ->
  let z := if neg then (- denotes16 0 ds)%Z else denotes16 0 ds in
  exists m, parse (file_of items) = Some m /\ get_value to_int m k default = Some (Z.max int_min (Z.min int_max z)).
Proof.
  intros HF Hn Hd Hne Hin z. exists (entries items). split; [by apply C36_contents|]. rewrite (get_entry _ _ _ _ _ Hn Hin).
  unfold to_int, num_get. rewrite hex_0x, (scan_hex neg cs ds) by done. fold z. f_equal. unfold int_min, int_max.
  destruct (Z.ltb_spec z (-2147483648)); cbn [fst]; [lia|]. destruct (Z.ltb_spec 2147483647 z); cbn [fst]; lia.
Qed.
(** A decimal number is read as a boolean if it is 0 or 1 and refused otherwise. *)
Theorem C167_get_bool items k neg ds default :
  Forall good_item items -> NoDup (entries items).*1 -> ds <> [] -> Forall (fun d => d < 10) ds -> (k, show neg ds) ∈ entries items ->
  let z := if neg then (- denotes 0 ds)%Z else denotes 0 ds in
  exists m, parse (file_of items) = Some m /\
    get_value to_bool m k default = if decide (z = 0%Z) then Some false else if decide (z = 1%Z) then Some true else None.
Proof.
  intros HF Hn Hne Hd Hin z. exists (entries items). split; [by apply C36_contents|]. rewrite (get_entry _ _ _ _ _ Hn Hin).
  unfold to_bool, bool_get. rewrite no_0x, scan_show by done. fold z.
  destruct (Z.eqb_spec z 0); [by rewrite decide_True|]. rewrite decide_False by done.
  destruct (Z.eqb_spec z 1); [by rewrite decide_True|by rewrite decide_False].
Qed.
(** A value with a blank inside is read up to the blank. *)
Theorem C95_blank_in_value_refuted :
  let items := [Entry [] (str "k") [] [] (str "hello world") [] None] in
  parse (file_of items) = Some (entries items) /\ get_value to_string (entries items) (str "k") [] = Some (str "hello").
Proof. vm_compute. done. Qed.
(** A line made of a tab is not taken as blank: the file is rejected. *)
Theorem C95_tab_line_refuted : parse (str "k=1" ++ [NL; TAB; NL]) = None.
Proof. vm_compute. done. Qed.
(** A key with a blank in it is cut at the blank: the file is accepted, the whole key is not found, and two keys that differ after the blank clash. *)
Theorem C95_blank_in_key_refuted :
  parse (str "max speed = 7" ++ [NL]) = Some [(str "max", str "7")] /\ parse (str "max speed=7" ++ [NL] ++ str "max load=9" ++ [NL]) = None.
Proof. vm_compute. done. Qed.
(** Files with CR LF line ends: an empty line is an error, and the value of a line keeps the CR. *)
Theorem C95_crlf_refuted :
  let CR := ascii_of_nat 13 in
  parse (str "k=1" ++ [CR; NL; CR; NL]) = None /\ parse (str "k=1" ++ [CR; NL]) = Some [(str "k", str "1" ++ [CR])].
Proof. vm_compute. done. Qed.
(** "0x" anywhere makes the number be read in base 16, and errors go unnoticed. *)
Theorem C95_hex_refuted : to_int (str "10 ;0x") = Some 16%Z /\ to_int (str "zero: 0x") = Some 0%Z.
Proof. vm_compute. done. Qed.
(** A value that does not begin (after white space and at most one sign) with a digit is refused as an int and as a bool: the getter throws. In particular an empty value, white
    space only, and a sign alone. *)
Theorem C167_no_digits_rejected ws sign r : Forall (fun c => space c = true) ws -> sign = [] \/ sign = str "-" \/ sign = str "+" ->
  (forall c, head r = Some c -> digit 10 c = None /\ space c = false /\ c <> "-"%char /\ c <> "+"%char) -> has_0x (ws ++ sign ++ r) = false ->
  to_int (ws ++ sign ++ r) = None /\ to_bool (ws ++ sign ++ r) = None.
Proof.
  intros Hws Hs Hr Hx.
  assert (scan 10 (ws ++ sign ++ r) = None) as Hn.
  { assert (exists neg, sign_of (drop_while space (sign ++ r)) = (neg, r)) as (neg & H1).
    { destruct Hs as [-> | [-> | ->]]; [|by exists true|by exists false]. exists false. cbn [app]. destruct r as [|c r]; [done|].
      destruct (Hr c eq_refl) as (_ & H2 & H3 & H4). cbn [drop_while]. rewrite H2. unfold sign_of, is.
      destruct (Ascii.eqb_spec c "-"); [done|]. by destruct (Ascii.eqb_spec c "+"). }
    unfold scan. rewrite drop_while_all by done. unfold sign_of in H1. rewrite H1.
    assert (match r with a :: b :: r' => if (10 =? 16)%Z && is a "0"%char && (is b "x"%char || is b "X"%char) && some_digit 16 r' then r' else r | _ => r end = r) as ->.
    { destruct r as [|a [|b r']]; done. }
    destruct r as [|c r]; [done|]. cbn [some_digit]. by destruct (Hr c eq_refl) as [-> _]. }
  unfold to_int, to_bool, num_get, bool_get. by rewrite Hx, Hn.
Qed.
Print Assumptions C167_no_digits_rejected.
Example C167_no_digits_case : to_int [] = None /\ to_int [TAB; " "%char; "-"%char] = None /\ to_bool (str "+ 1") = None /\ to_int (str " x7") = None.
Proof. by vm_compute. Qed.
(** Booleans written as words are refused; a hexadecimal number that is too large or no number at all is not; 0X is read as 0. *)
Theorem C168_words_refuted : to_bool (str "true") = None /\ to_bool (str "false") = None.
Proof. vm_compute. done. Qed.
Theorem C168_hex_range_refuted : to_int (str "0x80000000") = Some int_max /\ to_int (str "0xg") = Some 0%Z /\ to_int (str "0X1F") = Some 0%Z /\ to_bool (str "0x2") = Some true.
Proof. vm_compute. done. Qed.
(** A checker of well-formedness, for the example. *)
Definition good_itemb (i : item) : bool :=
  let cb c := match c with Some t => forallb (fun c => negb (is c NL)) t | None => true end in
  match i with
  | Spaces _ c => cb c
  | Entry b1 k b2 b3 v b4 c =>
      forallb blank b1 && forallb blank b2 && forallb blank b3 && forallb blank b4 && cb c
      && match k with [] => false | _ => forallb (fun c => negb (blank c) && negb (is c EQ) && negb (is c SEMI) && negb (is c NL)) k end
      && forallb (fun c => negb (is c SEMI) && negb (is c NL)) v
      && match v with c :: _ => negb (blank c) | [] => false end && match rev v with c :: _ => negb (blank c) | [] => false end
  end.
Lemma good_itemb_sound i : good_itemb i = true -> good_item i.
Proof.
  assert (forall c, match c with Some t => forallb (fun c => negb (is c NL)) t | None => true end = true -> good_comment c) as Hc.
  { intros [t|]; cbn [good_comment]; [|done]. rewrite forallb_forall. intros H Hin. apply elem_of_list_In, H in Hin. done. }
  assert (forall b, forallb blank b = true -> blanks b) as Hb.
  { intros b. rewrite forallb_forall. intros H. apply Forall_forall. intros x Hx. apply blank_true, H, elem_of_list_In, Hx. }
  destruct i as [n c|b1 k b2 b3 v b4 c]; cbn [good_itemb good_item]; [apply Hc|].
  rewrite !andb_true_iff. intros ((((((((H1 & H2) & H3) & H4) & H5) & Hk) & Hv) & Hf) & Hl).
  split; [by apply Hb|]. split; [|split; [by apply Hb|]; split; [by apply Hb|]; split; [|split; [by apply Hb|by apply Hc]]].
  - destruct k as [|x k]; [done|]. split; [done|]. rewrite forallb_forall in Hk. apply Forall_forall. intros y Hy. apply elem_of_list_In, Hk in Hy.
    rewrite !andb_true_iff, !negb_true_iff, !is_false, blank_false in Hy. tauto.
  - split; [|split].
    + rewrite forallb_forall in Hv. apply Forall_forall. intros y Hy. apply elem_of_list_In, Hv in Hy. rewrite !andb_true_iff, !negb_true_iff, !is_false in Hy. tauto.
    + destruct v as [|x v]; [done|]. exists x, v. rewrite negb_true_iff, blank_false in Hf. done.
    + destruct (rev v) as [|x r] eqn:E; [done|]. exists (rev r), x. rewrite negb_true_iff, blank_false in Hl. split; [|done].
      rewrite <- (rev_involutive v), E. done.
Qed.
Example C36_example :
  let items := [Spaces 2 None; Entry [TAB] (str "width") [SP] [SP; TAB] (str "42") [SP] (Some (str " units; px")); Spaces 0 (Some (str "a=b")); Entry [] (str "name") [] [] (str "x=y") [] None] in
  Forall good_item items /\ NoDup (entries items).*1 /\
  (exists m, parse (file_of items) = Some m /\ get_value to_int m (str "width") 0%Z = Some 42%Z /\ get_value to_string m (str "name") [] = Some (str "x=y")).
Proof.
  split; [|split].
  - repeat (apply Forall_cons; split; [apply good_itemb_sound; vm_compute; reflexivity|]). apply Forall_nil. done.
  - apply NoDup_cons. split; [|apply NoDup_singleton]. cbn [fmap list_fmap fst]. rewrite elem_of_list_singleton. discriminate.
  - eexists. split; [vm_compute; reflexivity|]. vm_compute. done.
Qed.

(** ** C62: the property file environment and the contract of environments. *)
(** What is read, for a file that says so: the value. *)
Theorem C62_get_string e key root default v :
  lookup_key (pf_contents e) key = Some v -> v <> [] -> Forall (fun c => ~ white c) v -> pf_get_string e key root default = Some (v, true).
Proof. intros H Hne Hv. apply white_space in Hv. unfold pf_get_string, get_value. rewrite H. unfold to_string. rewrite word_id by done. by destruct v. Qed.
(** The same for integers in the range of int and for the booleans 0 and 1, in decimal; the root is ignored. *)
Theorem C62_get_int e key root default neg ds :
  lookup_key (pf_contents e) key = Some (show neg ds) -> ds <> [] -> Forall (fun d => d < 10) ds ->
  let z := if neg then (- denotes 0 ds)%Z else denotes 0 ds in
  (- 2 ^ 31 <= z < 2 ^ 31)%Z -> pf_get_int e key root default = Some (z, true).
Proof.
  intros H Hne Hd z Hz. unfold pf_get_int, get_value, to_int, num_get. rewrite H, no_0x, scan_show by done. fold z.
  rewrite (proj2 (Z.ltb_ge z int_min)) by (unfold int_min; lia). by rewrite (proj2 (Z.ltb_ge int_max z)) by (unfold int_max; lia).
Qed.
Theorem C62_get_bool e key root default (b : bool) : lookup_key (pf_contents e) key = Some (if b then ["1"%char] else ["0"%char]) -> pf_get_bool e key root default = Some (b, true).
Proof. intros H. unfold pf_get_bool, get_value. rewrite H. by destruct b. Qed.
(** loadFile changes nothing and says so. *)
Theorem C62_load_file (e : pfenv) (file node : text) : pf_load_file e file node = (e, false).
Proof. done. Qed.
(** From the text of the file to what the getters say: an environment opened on a file that has the line for the key. *)
Lemma pf_open_good items : Forall good_item items -> NoDup (entries items).*1 -> pf_open (file_of items) = Some (PfEnv (entries items)).
Proof. intros HF Hn. unfold pf_open. by rewrite (proj1 (C36_contents items HF) Hn). Qed.
Lemma lookup_key_in (m : contents) k v : NoDup m.*1 -> (k, v) ∈ m -> lookup_key m k = Some v.
Proof.
  intros Hn Hin. apply elem_of_list_split in Hin as (l1 & l2 & E). rewrite E in Hn |- *. rewrite lookup_key_app; [done|].
  rewrite fmap_app in Hn. apply NoDup_app in Hn as (_ & Hd & _). intros Hin. apply (Hd k Hin). left.
Qed.
Theorem C62_file_string items key v root default :
  Forall good_item items -> NoDup (entries items).*1 -> (key, v) ∈ entries items -> Forall (fun c => ~ white c) v ->
  exists e, pf_open (file_of items) = Some e /\ pf_get_string e key root default = Some (v, true).
Proof.
  intros HF Hn Hin Hv.  exists (PfEnv (entries items)). split; [by apply pf_open_good|]. apply C62_get_string; [by apply lookup_key_in| |done].
  apply elem_of_list_omap in Hin as ([|b1 k' b2 b3 v' b4 c] & Hi & E); [done|]. injection E as -> ->. rewrite Forall_forall in HF. destruct (HF _ Hi) as (_ & _ & _ & _ & (_ & (x & r & -> & _) & _) & _). done.
Qed.
Theorem C62_file_int items key neg ds root default :
  Forall good_item items -> NoDup (entries items).*1 -> (key, show neg ds) ∈ entries items -> ds <> [] -> Forall (fun d => d < 10) ds ->
  let z := if neg then (- denotes 0 ds)%Z else denotes 0 ds in
  (- 2 ^ 31 <= z < 2 ^ 31)%Z -> exists e, pf_open (file_of items) = Some e /\ pf_get_int e key root default = Some (z, true).
Proof. intros HF Hn Hin Hne Hd z Hz. exists (PfEnv (entries items)). split; [by apply pf_open_good|]. apply C62_get_int; [by apply lookup_key_in|done..]. Qed.
Theorem C62_file_bool items key (b : bool) root default :
  Forall good_item items -> NoDup (entries items).*1 -> (key, if b then ["1"%char] else ["0"%char]) ∈ entries items ->
  exists e, pf_open (file_of items) = Some e /\ pf_get_bool e key root default = Some (b, true).
Proof. intros HF Hn Hin. exists (PfEnv (entries items)). split; [by apply pf_open_good|]. apply C62_get_bool. by apply lookup_key_in. Qed.
(** A file that names a key twice is not opened. *)
Theorem C62_file_duplicate items : Forall good_item items -> ~ NoDup (entries items).*1 -> pf_open (file_of items) = None.
Proof. intros HF Hn. unfold pf_open. by rewrite (proj2 (C36_contents items HF) Hn). Qed.
(** Environments made from a file. *)
Example C62_example :
  exists m, parse (str "n = -12 ; offset" ++ [NL] ++ str "name=arm" ++ [NL] ++ str "on =1" ++ [NL]) = Some m /\
    let e := PfEnv m in
    lookup_key (pf_contents e) (str "n") = Some (show true [1; 2]) /\ pf_get_int e (str "n") (str "root") 7%Z = Some ((-12)%Z, true) /\
    pf_get_string e (str "name") [] [] = Some (str "arm", true) /\ pf_get_bool e (str "on") [] false = Some (true, true).
Proof. eexists. split; [vm_compute; reflexivity|]. vm_compute. done. Qed.
(** A missing key: the default, but the call reports that it was found. *)
Theorem C62_missing_reported_found_refuted e key root default : lookup_key (pf_contents e) key = None -> pf_get_string e key root default = Some (default, true).
Proof. intros H. unfold pf_get_string, get_value. by rewrite H. Qed.
(** Writing has no effect. *)
Theorem C62_set_ignored_refuted e key root value default : pf_get_string (pf_set_string e key root value) key root default = pf_get_string e key root default.
Proof. done. Qed.
(** What follows a decimal number, from the first character that is not a decimal digit on, is ignored. *)
Definition decimal (c : ascii) : Prop := exists d, d < 10 /\ c = ascii_of_nat (48 + d).
Lemma not_decimal c : ~ decimal c -> digit 10 c = None.
Proof.
  intros H. unfold digit. set (n := nat_of_ascii c).
  destruct ((48 <=? Z.of_nat n)%Z && (Z.of_nat n <=? 57)%Z) eqn:E.
  { exfalso. apply H. exists (n - 48). apply andb_true_iff in E as [E1 E2]. apply Z.leb_le in E1, E2. split; [lia|]. replace (48 + (n - 48)) with n by lia. unfold n. by rewrite ascii_nat_embedding. }
  destruct ((65 <=? Z.of_nat n)%Z && (Z.of_nat n <=? 70)%Z) eqn:E1.
  { apply andb_true_iff in E1 as [E1 E2]. apply Z.leb_le in E1, E2. destruct (Z.ltb_spec (Z.of_nat n - 55) 10); [lia|done]. }
  destruct ((97 <=? Z.of_nat n)%Z && (Z.of_nat n <=? 102)%Z) eqn:E3; [|done].
  apply andb_true_iff in E3 as [E3 E2]. apply Z.leb_le in E3, E2. destruct (Z.ltb_spec (Z.of_nat n - 87) 10); [lia|done].
Qed.
Lemma digits_then acc ds r : Forall (fun d => d < 10) ds -> (forall c, head r = Some c -> ~ decimal c) -> digits 10 acc (((fun d => ascii_of_nat (48 + d)) <$> ds) ++ r) = denotes acc ds.
Proof.
  intros H Hr. revert acc. induction H as [|d ds Hd HF IH]; intros acc.
  - cbn [fmap list_fmap app denotes]. destruct r as [|c r]; [done|]. cbn [digits]. by rewrite not_decimal by by apply Hr.
  - rewrite fmap_cons, <-app_comm_cons. cbn [digits denotes]. rewrite digit_char by done. apply IH.
Qed.
Theorem C167_trailing_ignored neg ds r : ds <> [] -> Forall (fun d => d < 10) ds -> (forall c, head r = Some c -> ~ decimal c) -> has_0x (show neg ds ++ r) = false ->
  let z := if neg then (- denotes 0 ds)%Z else denotes 0 ds in
  to_int (show neg ds ++ r) = (if ((z <? int_min) || (int_max <? z))%Z then None else Some z) /\
  to_bool (show neg ds ++ r) = if decide (z = 0%Z) then Some false else if decide (z = 1%Z) then Some true else None.
Proof.
  intros Hne Hd Hr Hx z. set (w := ((fun d => ascii_of_nat (48 + d)) <$> ds) ++ r).
  assert (sign_of (drop_while space (show neg ds ++ r)) = (neg, w) /\ some_digit 10 w = true) as [H1 H2].
  { unfold w, show. destruct ds as [|d ds']; [done|]. apply Forall_cons in Hd as [Hd0 _]. destruct (digit_not d Hd0) as (N1 & N2 & N3 & _).
    split; [|rewrite fmap_cons, <-app_comm_cons; cbn [some_digit]; by rewrite digit_char].
    destruct neg; [done|]. cbn [app fmap list_fmap drop_while]. rewrite N1. unfold sign_of. by rewrite N2, N3. }
  assert (Hs : scan 10 (show neg ds ++ r) = Some z). { rewrite (scan_10 _ _ _ H1 H2). unfold w, z. by rewrite digits_then by done. }
  unfold to_int, to_bool, num_get, bool_get. rewrite Hx, Hs. split.
  - destruct (z <? int_min)%Z; [done|]. by destruct (int_max <? z)%Z.
  - destruct (Z.eqb_spec z 0); [by rewrite decide_True|]. rewrite decide_False by done. destruct (Z.eqb_spec z 1); [by rewrite decide_True|by rewrite decide_False].
Qed.
Print Assumptions C167_trailing_ignored.
Example C167_trailing_case : to_int (str "12ab") = Some 12%Z /\ to_int (str "-7 8") = Some (-7)%Z /\ to_bool (str "1a") = Some true /\ has_0x (show false [1; 2] ++ str "ab") = false /\ ~ decimal "a"%char.
Proof. do 4 (split; [by vm_compute|]). intros (d & Hd & E). do 10 (destruct d as [|d]; [done|]). lia. Qed.
(** A value of white space only is refused as a text too. *)
Theorem C167_blank_text_refused v : Forall (fun c => space c = true) v -> to_string v = None.
Proof.
  intros H. assert (E : drop_while space v = []). { induction H as [|c v Hc HF IH]; [done|]. cbn [drop_while]. by rewrite Hc. }
  unfold to_string, word. rewrite E. cbn [take_while]. assert (Hx : has_0x v = false); [|by rewrite Hx].
  clear E. induction H as [|c v Hc HF IH]; [done|]. destruct v as [|d v]; [done|]. change (has_0x (c :: d :: v)) with ((is c "0"%char && is d "x"%char) || has_0x (d :: v)). rewrite IH, orb_false_r.
  apply andb_false_iff. left. destruct (is c "0"%char) eqn:E; [|done]. rewrite is_true in E. subst c. by vm_compute in Hc.
Qed.
Print Assumptions C167_blank_text_refused.
