(** * Specification of request/reply: a list of pending requests. *)
From stdpp Require Import prelude.
From Verif Require Import CallbackHandler_Model.

Record pend := Pend { p_id : nat; p_req : nat; p_cb : nat }.
(** Take the earliest pending request that matches. *)
Fixpoint take_first (m : nat -> nat -> bool) (p : nat) (l : list pend) : option (pend * list pend) :=
  match l with
  | [] => None
  | x :: l' => if m (p_req x) p then Some (x, l')
               else match take_first m p l' with Some (y, l'') => Some (y, x :: l'') | None => None end
  end.
(** State: the pending requests and the number of requests made. [None]: a rule was broken. *)
Definition rule (m : nat -> nat -> bool) (st : option (list pend * nat)) (e : hev) : option (list pend * nat) :=
  match st with
  | None => None
  | Some (l, n) =>
      match e with
      | Issued u r cb => if u =? n then Some (l ++ [Pend u r cb], S n) else None
      | Answered u cb p =>
          match take_first m p l with
          | Some (x, l') => if (p_id x =? u) && (p_cb x =? cb) then Some (l', n) else None
          | None => None
          end
      | Unmatched p => match take_first m p l with None => Some (l, n) | Some _ => None end
      end
  end.
Definition follows_rules (m : nat -> nat -> bool) (l : list hev) : option (list pend * nat) :=
  fold_left (rule m) l (Some ([], 0)).
(** The requests answered, in order. *)
Definition answered (l : list hev) : list nat :=
  omap (fun e => match e with Answered u _ _ => Some u | _ => None end) l.

(** While a callback of the handler runs (its entry is still to be erased), a
    request made by it finds spare capacity in the vector. *)
Definition room (s : hst) : Prop :=
  forall t r cb rest, h_thr s !! t = Some (Do (Req r cb) :: rest) ->
    (exists i v, Erase i v ∈ rest) -> length (h_vec s) < h_cap s.
(** Requests made and not answered yet. *)
Definition waiting (h : list hev) : nat :=
  length (List.filter (fun e => match e with Issued _ _ _ => true | _ => false end) h) - length (answered h).
(** A callback makes a request only while fewer requests are unanswered, the one just being answered included, than there were at some earlier moment. *)
Definition below_peak (s : hst) : Prop :=
  forall t r cb rest, h_thr s !! t = Some (Do (Req r cb) :: rest) -> (exists i v, Erase i v ∈ rest) ->
    exists k, S (waiting (h_log s)) < waiting (take k (h_log s)).
(** No handler call in progress. *)
Definition idle (s : hst) : Prop := forall t stk, h_thr s !! t = Some stk -> stk = [] \/ exists l, stk = [Acts l].
