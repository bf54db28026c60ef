(** * Model of kpsr::SafeEventEmitter
    /repo/core/modules/core/include/klepsydra/core/safe_event_emitter.h

    Any number of threads; the code inside callbacks is arbitrary: at every
    moment the thread whose innermost frame is a callback may make any
    further call on the emitter, return, or throw. One step = one
    mutex-protected section, or one callback invocation/return.
    Simplifications: the multimap is a list in insertion order (equal_range of a
    multimap lists equal keys in insertion order; [find_if] by id does not
    depend on the order since ids are unique); reads of [listeners.size()] without the
    mutex (lines 120, 149) and the unlocked removeAllListeners/getListenerStats are
    treated as atomic; container attach/detach calls are not modelled here. *)
From stdpp Require Import prelude strings.
Local Open Scope Z_scope.

(** unsigned int arithmetic. *)
Definition u32 (x : Z) : Z := x mod 4294967296.

(** ListenerBase / ListenerWithStats, lines 202-243. *)
Record listener := Listener {
  l_sub : string;      (* multimap key: subscriberName *)
  l_id : Z;
  l_once : bool;
  l_cb : nat;          (* which user callback *)
  l_disc : Z           (* listenerStats->totalDiscardedEvents; once listeners have no stats *)
}.

Inductive logev :=
| LOn (id : Z) (sub : string) (once : bool) (cb : nat)
| LRemoved (id : Z)            (* a removal succeeded *)
| LInvalid (id : Z)            (* removeListener threw invalid_argument *)
| LClear
| LDiscard (sub : string)      (* discardEvent *)
| LEmit (k : nat) (sub : string) (ev : Z)   (* the k-th emitEvent call took its snapshot *)
| LInvoke (k : nat) (id : Z) (cb : nat) (ev : Z)   (* it invokes callback cb, for listener id *)
| LEnd (k : nat)                            (* it returned normally *)
| LAbort (k : nat).                         (* it was left by an exception *)

(** Frames of a thread's call stack. *)
Inductive frame :=
| FEmit (k : nat) (sub : string) (ev : Z) (hs : list listener)   (* loop at line 134 *)
| FCb (k : nat) (h : listener).                                  (* inside h->runCallback *)

Record em := Em {
  e_last : Z;                    (* last_listener *)
  e_ls : list listener;          (* listeners *)
  e_thr : list (list frame);     (* call stacks, innermost first *)
  e_k : nat;                     (* ghost: number of emits so far *)
  e_log : list logev             (* ghost: newest first *)
}.
Definition em_new (nthreads : nat) : em := Em 0 [] (replicate nthreads []) 0 [].

Inductive call :=
| COn (sub : string) (cb : nat)
| COnce (sub : string) (cb : nat)
| CRemove (id : Z)
| CRemoveAll
| CEmit (sub : string) (ev : Z)
| CDiscard (sub : string).

Definition log (l : logev) (s : em) : em := Em (e_last s) (e_ls s) (e_thr s) (e_k s) (l :: e_log s).
Definition set_ls (ls : list listener) (s : em) : em := Em (e_last s) ls (e_thr s) (e_k s) (e_log s).
Definition set_stack (t : nat) (st : list frame) (s : em) : em :=
  Em (e_last s) (e_ls s) (<[t:=st]> (e_thr s)) (e_k s) (e_log s).

(** addListener, lines 245-274. *)
Definition add_listener (sub : string) (once : bool) (cb : nat) (s : em) : em :=
  let id := u32 (e_last s + 1) in
  log (LOn id sub once cb)
    (Em id (e_ls s ++ [Listener sub id once cb 0]) (e_thr s) (e_k s) (e_log s)).

(** removeListener, lines 88-107: erase the first with that id, or throw. *)
Fixpoint erase_id (id : Z) (ls : list listener) : option (list listener) :=
  match ls with
  | [] => None
  | l :: ls' => if l_id l =? id then Some ls'
                else match erase_id id ls' with Some r => Some (l :: r) | None => None end
  end.
Definition remove_listener (id : Z) (s : em) : em * bool :=
  match erase_id id (e_ls s) with
  | Some ls => (log (LRemoved id) (set_ls ls s), true)
  | None => (log (LInvalid id) s, false)
  end.

(** equal_range(subscriberName), lines 124-131. *)
Definition range (sub : string) (ls : list listener) : list listener :=
  filter (fun l => l_sub l = sub) ls.

(** discardEvent, lines 147-170. *)
Definition discard (sub : string) (ls : list listener) : list listener :=
  (fun l => if bool_decide (l_sub l = sub) && negb (l_once l)
            then Listener (l_sub l) (l_id l) (l_once l) (l_cb l) (l_disc l + 1) else l) <$> ls.

(** getListenerStats, lines 177-188 (None: nullptr). *)
Definition get_stats (id : Z) (s : em) : option Z :=
  match filter (fun l => l_id l = id) (e_ls s) with
  | l :: _ => if l_once l then None else Some (l_disc l)
  | [] => None
  end.

(** A call made by thread [t], whose stack is [st]. *)
Definition do_call (t : nat) (st : list frame) (c : call) (s : em) : em :=
  match c with
  | COn sub cb => add_listener sub false cb s            (* on, lines 60-70 *)
  | COnce sub cb => add_listener sub true cb s           (* once, lines 78-82 *)
  | CRemove id => (remove_listener id s).1
  | CRemoveAll => log LClear (set_ls [] s)               (* lines 190-199 *)
  | CEmit sub ev =>                                      (* emitEvent, lines 115-132 *)
      log (LEmit (e_k s) sub ev)
        (Em (e_last s) (e_ls s) (<[t:=FEmit (e_k s) sub ev (range sub (e_ls s)) :: st]> (e_thr s))
            (S (e_k s)) (e_log s))
  | CDiscard sub => log (LDiscard sub) (set_ls (discard sub (e_ls s)) s)
  end.

(** An exception leaves the callback and the emitEvent running it. *)
Definition unwind (t : nat) (k : nat) (rest : list frame) (s : em) : em :=
  log (LAbort k) (set_stack t (match rest with FEmit _ _ _ _ :: r => r | _ => rest end) s).

Inductive act :=
| ACall (t : nat) (c : call)   (* thread t, idle or inside a callback, calls the emitter *)
| AStep (t : nat)              (* thread t continues its innermost emitEvent loop *)
| AReturn (t : nat)            (* the innermost callback returns *)
| AThrow (t : nat).            (* the innermost callback throws *)

Definition exec (s : em) (a : act) : em :=
  match a with
  | ACall t c =>
      match e_thr s !! t with
      | Some [] => do_call t [] c s
      | Some (FCb k h :: st) => do_call t (FCb k h :: st) c s
      | _ => s
      end
  | AStep t =>
      match e_thr s !! t with
      | Some (FEmit k sub ev [] :: st) => log (LEnd k) (set_stack t st s)
      | Some (FEmit k sub ev (h :: hs) :: st) =>         (* line 135 *)
          log (LInvoke k (l_id h) (l_cb h) ev) (set_stack t (FCb k h :: FEmit k sub ev hs :: st) s)
      | _ => s
      end
  | AReturn t =>
      match e_thr s !! t with
      | Some (FCb k h :: st) =>
          if l_once h then                               (* lines 136-138 *)
            match remove_listener (l_id h) s with
            | (s', true) => set_stack t st s'
            | (s', false) => unwind t k st s'
            end
          else set_stack t st s
      | _ => s
      end
  | AThrow t =>
      match e_thr s !! t with
      | Some (FCb k h :: st) => unwind t k st s
      | _ => s
      end
  end.
Definition run (s : em) (acts : list act) : em := fold_left exec acts s.
