(** * Models of the two unsafe (single-threaded) emitters.
    /repo/core/modules/core/include/klepsydra/core/unsafe_multi_listener_event_emitter.h
    /repo/core/modules/core/include/klepsydra/core/unsafe_single_listener_event_emitter.h
    Calls are sequential and not made from inside callbacks (for those see
    Reentrancy_Model.v). A callback is a number; invoking it is recorded.
    Timing statistics are not modelled, the discard counter is. *)
From stdpp Require Import prelude strings gmap.

(** SubscriptionStats: (listener name, event name, totalDiscardedEvents). *)
Record stat := Stat { st_listener : string; st_event : string; st_disc : nat }.

(** Calls made on the container (container->attach / detach). [None] is a null pointer. *)
Inductive ccall := CAttach (s : stat) | CDetach (s : option stat).

(** ** UnsafeMultiListenerEventEmitter. Fields at lines 238-244. *)
Record multi := Multi {
  m_names : gmap string nat;              (* _listenersNameMap *)
  m_subs : gmap string (list nat);        (* _subscriberNameMap *)
  m_stats : gmap nat stat;                (* _listenerStats *)
  m_ls : list (option nat);               (* _listeners; None is nullptr *)
  m_cont : list ccall                     (* ghost: calls on the container, newest first *)
}.
Definition multi_new : multi := Multi ∅ ∅ ∅ [] [].

(** on, lines 61-109. [cont]: a container was given. The stored callback is the wrapper of lines 87-104. *)
Definition multi_on (cont : bool) (lname sub : string) (cb : nat) (m : multi) : multi * nat :=
  match m_names m !! lname with
  | Some id => (m, id)
  | None =>
      let id := length (m_ls m) in
      let s := Stat lname sub 0 in
      (Multi (<[lname:=id]> (m_names m))
             (<[sub:=default [] (m_subs m !! sub) ++ [id]]> (m_subs m))
             (if cont then <[id:=s]> (m_stats m) else m_stats m)
             (m_ls m ++ [Some cb])
             (if cont then CAttach s :: m_cont m else m_cont m), id)
  end.

(** Erase the first occurrence in a vector. *)
Fixpoint erase_first (id : nat) (l : list nat) : list nat :=
  match l with [] => [] | x :: l' => if x =? id then l' else x :: erase_first id l' end.

(** removeListener, lines 128-168. The iteration order of the unordered maps
    does not matter when ids are unique (that is part of the proved invariant). *)
Definition multi_remove (cont : bool) (id : nat) (m : multi) : multi :=
  if id <? length (m_ls m) then
    let found := List.find (fun p => p.2 =? id) (map_to_list (m_names m)) in
    let names := match found with Some (n, _) => delete n (m_names m) | None => m_names m end in
    let det := match found with Some _ => if cont then m_stats m !! id else None | None => None end in
    let hit := List.find (fun p => bool_decide (id ∈ p.2)) (map_to_list (m_subs m)) in
    let subs := match hit with
                | Some (s, v) => match erase_first id v with
                                 | [] => delete s (m_subs m)
                                 | v' => <[s:=v']> (m_subs m)
                                 end
                | None => m_subs m
                end in
    Multi names subs
          (match det with Some _ => delete id (m_stats m) | None => m_stats m end)
          (<[id:=None]> (m_ls m))
          (match det with Some s => CDetach (Some s) :: m_cont m | None => m_cont m end)
  else m.

(** removeAllListeners, lines 170-181: _listenerStats is not cleared. *)
Definition multi_remove_all (cont : bool) (m : multi) : multi :=
  Multi ∅ ∅ (m_stats m) []
    (if cont then ((fun p => CDetach (Some p.2)) <$> map_to_list (m_stats m)) ++ m_cont m else m_cont m).

(** The result of emitEvent: the callbacks invoked, or the point where it went wrong. *)
Inductive emitted :=
| Called (cbs : list nat)
| BadFunctionCall (cbs : list nat)   (* calling a null std::function throws *)
| OutOfRange (cbs : list nat).       (* vector index out of range: undefined behaviour *)
Fixpoint call_all (ls : list (option nat)) (ids : list nat) (done : list nat) : emitted :=
  match ids with
  | [] => Called (rev done)
  | id :: ids' =>
      match ls !! id with
      | Some (Some cb) => call_all ls ids' (cb :: done)
      | Some None => BadFunctionCall (rev done)
      | None => OutOfRange (rev done)
      end
  end.
(** emitEvent, lines 189-198; operator[] creates an empty vector for an unknown event. *)
Definition multi_emit (sub : string) (m : multi) : multi * emitted :=
  let v := default [] (m_subs m !! sub) in
  (Multi (m_names m) (<[sub:=v]> (m_subs m)) (m_stats m) (m_ls m) (m_cont m), call_all (m_ls m) v []).

Definition bump (s : stat) : stat := Stat (st_listener s) (st_event s) (S (st_disc s)).
(** discardEvent, lines 205-221. *)
Definition multi_discard (sub : string) (m : multi) : multi :=
  Multi (m_names m) (m_subs m)
    (foldr (fun id st => alter bump id st) (m_stats m) (default [] (m_subs m !! sub)))
    (m_ls m) (m_cont m).

Inductive stats_result := SNull | SGot (s : stat) | SThrow.
(** getListenerStats, lines 228-234. *)
Definition multi_stats (id : nat) (m : multi) : stats_result :=
  if size (m_stats m) <=? id then SNull
  else match m_stats m !! id with Some s => SGot s | None => SThrow end.

Inductive mop :=
| MOn (cont : bool) (lname sub : string) (cb : nat)
| MRemove (cont : bool) (id : nat)
| MRemoveAll (cont : bool)
| MEmit (sub : string)
| MDiscard (sub : string).
Inductive mout := OId (id : nat) | OUnit | OEmit (e : emitted).
Definition multi_step (m : multi) (o : mop) : multi * mout :=
  match o with
  | MOn c l s cb => let '(m', id) := multi_on c l s cb m in (m', OId id)
  | MRemove c id => (multi_remove c id m, OUnit)
  | MRemoveAll c => (multi_remove_all c m, OUnit)
  | MEmit s => let '(m', e) := multi_emit s m in (m', OEmit e)
  | MDiscard s => (multi_discard s m, OUnit)
  end.
Fixpoint multi_run (m : multi) (os : list mop) : multi * list mout :=
  match os with
  | [] => (m, [])
  | o :: os' => let '(m', r) := multi_step m o in let '(m'', rs) := multi_run m' os' in (m'', r :: rs)
  end.

(** ** UnsafeSingleListenerEventEmitter. Fields at lines 171-179. *)
Inductive wrapper := WNone | WPlain | WStats.   (* _singleListenerWrapper: null / line 88 / line 77 *)
Record single := Single {
  s_reg : bool;            (* _listenerRegistered *)
  s_sub : string;          (* _subscriberName *)
  s_lname : string;        (* _listenerName *)
  s_stats : option stat;   (* _singleListenerStats *)
  s_cb : option nat;       (* _singleListener: None is the no-op lambda of line 119 or null *)
  s_wrap : wrapper;
  s_cont : list ccall
}.
Definition single_new : single := Single false "" "" None None WNone [].

(** on, lines 57-96. *)
Definition single_on (cont : bool) (lname sub : string) (cb : nat) (s : single) : single * nat :=
  if s_reg s then (s, 0)
  else
    let st := Stat lname sub 0 in
    (Single true sub lname (if cont then Some st else s_stats s) (Some cb)
       (if cont then WStats else WPlain) (if cont then CAttach st :: s_cont s else s_cont s), 0).
(** removeListener, lines 115-125. *)
Definition single_remove (cont : bool) (id : nat) (s : single) : single :=
  if id =? 0 then
    Single false (s_sub s) (s_lname s) (if cont then None else s_stats s) None (s_wrap s)
      (if cont then CDetach (s_stats s) :: s_cont s else s_cont s)
  else s.
Inductive semitted := SNothing | SCalled (cb : nat) | SNoop | SBad | SNullStats.
(** emitEvent, lines 133-142; the wrapper reads the current _singleListener and
    _singleListenerStats (dereferencing a null one is undefined behaviour). *)
Definition single_emit (sub : string) (s : single) : semitted :=
  if negb (bool_decide (sub = s_sub s)) || negb (s_reg s) then SNothing
  else match s_wrap s with
       | WNone => SBad
       | WPlain => match s_cb s with Some cb => SCalled cb | None => SNoop end
       | WStats => match s_stats s with
                   | None => SNullStats
                   | Some _ => match s_cb s with Some cb => SCalled cb | None => SNoop end
                   end
       end.
(** discardEvent, lines 149-157. *)
Definition single_discard (sub : string) (s : single) : single :=
  if bool_decide (sub = s_sub s)
  then Single (s_reg s) (s_sub s) (s_lname s) (bump <$> s_stats s) (s_cb s) (s_wrap s) (s_cont s)
  else s.
(** getListenerStats, lines 164-170. *)
Definition single_stats (id : nat) (s : single) : option stat := if id =? 0 then s_stats s else None.

Inductive sout := SId (id : nat) | SUnit | SEmit (e : semitted).
Definition single_step (s : single) (o : mop) : single * sout :=
  match o with
  | MOn c l sub cb => let '(s', id) := single_on c l sub cb s in (s', SId id)
  | MRemove c id => (single_remove c id s, SUnit)
  | MRemoveAll c => (single_remove c 0 s, SUnit)          (* line 172 *)
  | MEmit sub => (s, SEmit (single_emit sub s))
  | MDiscard sub => (single_discard sub s, SUnit)
  end.
Fixpoint single_run (s : single) (os : list mop) : single * list sout :=
  match os with
  | [] => (s, [])
  | o :: os' => let '(s', r) := single_step s o in let '(s'', rs) := single_run s' os' in (s'', r :: rs)
  end.
