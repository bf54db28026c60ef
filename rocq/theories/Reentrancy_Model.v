(** * Model of the unsafe emitters when a listener calls the emitter that is calling it.
    /repo/core/modules/core/include/klepsydra/core/unsafe_multi_listener_event_emitter.h 61-198, unsafe_single_listener_event_emitter.h 57-142, on top of UnsafeEmitters_Model.v.
    [body cb] is what callback cb does each time: a list of calls on the same emitter, nested to any depth; [fuel] bounds the nesting (RFuel: not finished yet).
    emitEvent's range-for (194-196) keeps iterators to the vector of listener ids: the model numbers the heap buffers of these vectors, and using an iterator
    whose buffer is gone, or past the end, is RUb. Replacing or destroying the function object that is being executed is RUb as well.
    Not modelled: that push_back on _listeners moves the function objects, the executing one among them (the closure itself stays where it is on the heap). *)
From stdpp Require Import prelude strings gmap.
From Verif Require Import UnsafeEmitters_Model.

(** Buffer number and capacity of the vector of each event. *)
Record rm := RM { rm_m : multi; rm_buf : gmap string (nat * nat); rm_fresh : nat; rm_log : list (nat * nat) (* nesting depth, callback invoked *) }.
Inductive rres := RDone (s : rm) | RUb (s : rm) | RThrow (s : rm) | RFuel.
Definition rm_new (m : multi) (buf : gmap string (nat * nat)) (fresh : nat) : rm := RM m buf fresh [].
Section Multi.
Context (body : nat -> list mop) (grow : nat -> nat).
(** operator[] of the map, 79-81 and 193: an empty vector for a new event. *)
Definition r_touch (e : string) (s : rm) : rm :=
  match rm_buf s !! e with Some _ => s | None => RM (rm_m s) (<[e := (rm_fresh s, 0)]> (rm_buf s)) (S (rm_fresh s)) (rm_log s) end.
(** The calls other than emitEvent. *)
Definition r_op (s : rm) (o : mop) : rm :=
  let m' := (multi_step (rm_m s) o).1 in
  match o with
  | MOn _ lname sub _ =>
      match m_names (rm_m s) !! lname with
      | Some _ => s
      | None =>
          let s1 := r_touch sub s in
          let '(b, cap) := default (0, 0) (rm_buf s1 !! sub) in
          if decide (length (default [] (m_subs (rm_m s) !! sub)) < cap) then RM m' (rm_buf s1) (rm_fresh s1) (rm_log s1)
          else RM m' (<[sub := (rm_fresh s1, grow cap)]> (rm_buf s1)) (S (rm_fresh s1)) (rm_log s1)        (* push_back, 107: a new buffer *)
      end
  | MRemove _ _ | MRemoveAll _ => RM m' (filter (fun p => is_Some (m_subs m' !! p.1)) (rm_buf s)) (rm_fresh s) (rm_log s)   (* erased vectors lose their buffer: 161, 177 *)
  | MEmit _ => s
  | MDiscard _ => RM m' (rm_buf s) (rm_fresh s) (rm_log s)
  end.
(** The body of a callback; [emit] is emitEvent one level deeper. *)
Fixpoint r_body (emit : string -> rm -> rres) (os : list mop) (s : rm) : rres :=
  match os with
  | [] => RDone s
  | o :: os' => match (match o with MEmit e => emit e s | _ => RDone (r_op s o) end) with RDone s' => r_body emit os' s' | r => r end
  end.
(** The loop 194-196: [i] the position of the iterator, [k] the distance to the end iterator taken at the start, [buf] the buffer they point to. *)
Fixpoint r_loop (emit : string -> rm -> rres) (depth : nat) (e : string) (buf : nat) (i k : nat) (s : rm) : rres :=
  match k with
  | 0 => RDone s
  | S k' =>
      if decide ((fst <$> rm_buf s !! e) = Some buf) then
        match default [] (m_subs (rm_m s) !! e) !! i with
        | None => RUb s
        | Some id =>
            match m_ls (rm_m s) !! id with
            | None => RUb s
            | Some None => RThrow s
            | Some (Some cb) =>
                match r_body emit (body cb) (RM (rm_m s) (rm_buf s) (rm_fresh s) (rm_log s ++ [(depth, cb)])) with
                | RDone s' => if decide (m_ls (rm_m s') !! id = Some (Some cb)) then r_loop emit depth e buf (S i) k' s' else RUb s'   (* the executing function was destroyed *)
                | r => r
                end
            end
        end
      else RUb s
  end.
Fixpoint r_emit (fuel depth : nat) (e : string) (s : rm) : rres :=
  match fuel with
  | 0 => RFuel
  | S f =>
      let s0 := r_touch e s in
      let s1 := RM (multi_emit e (rm_m s0)).1 (rm_buf s0) (rm_fresh s0) (rm_log s0) in
      r_loop (r_emit f (S depth)) depth e (default 0 (fst <$> rm_buf s1 !! e)) 0 (length (default [] (m_subs (rm_m s1) !! e))) s1
  end.
End Multi.

(** ** The single-listener emitter: the wrapper (77-94) reads its members before and after the callback. *)
Record rs1 := RS { r1_s : single; r1_log : list (nat * nat) }.
Inductive sres := SDone (s : rs1) | SUb (s : rs1) | SThrow1 (s : rs1) | SFuel.
Section Single.
Context (body : nat -> list mop).
Fixpoint s_body (emit : string -> rs1 -> sres) (os : list mop) (s : rs1) : sres :=
  match os with
  | [] => SDone s
  | o :: os' => match (match o with MEmit e => emit e s | _ => SDone (RS (single_step (r1_s s) o).1 (r1_log s)) end) with SDone s' => s_body emit os' s' | r => r end
  end.
Fixpoint s_emit (fuel depth : nat) (e : string) (s : rs1) : sres :=
  match fuel with
  | 0 => SFuel
  | S f =>
      match single_emit e (r1_s s) with
      | SNothing | SNoop => SDone s
      | SBad => SThrow1 s
      | SNullStats => SUb s
      | SCalled cb =>
          match s_body (s_emit f (S depth)) (body cb) (RS (r1_s s) (r1_log s ++ [(depth, cb)])) with
          | SDone s' =>
              if decide (s_cb (r1_s s') = Some cb) then                                  (* 119: _singleListener assigned while it executes *)
                match s_wrap (r1_s s), s_stats (r1_s s') with WStats, None => SUb s' | _, _ => SDone s' end   (* 85: stopProcessMeasure on a null pointer *)
              else SUb s'
          | r => r
          end
      end
  end.
End Single.
