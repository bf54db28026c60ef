(** * Model of a CoreContainer used by several threads at once.
    /repo/core/modules/core/src/core_container.cpp 36-224: which mutex each function takes (none: start, stop, detach of publication statistics) and which vectors it reads or changes, in order.
    One step of a thread: taking the mutex, beginning an access to a vector, ending it (a change is computed from what was found at its beginning: push_back and erase read the
    vector's size and buffer, and write them), releasing the mutex. What each access does: Container_Model.
    Simplifications: _running and the statistics' own start() and stop() are left out (C42, C97: Container_Model); overlapping accesses, which are undefined in C++, are recorded and the last one wins. *)
From stdpp Require Import prelude strings.
From Verif Require Import Container_Model.
Inductive vid := VMan | VSvc | VFun | VPub | VSub.              (* _managedServices, _serviceStats, _functionStats, _publicationStats, _subscriptionStats *)
Inductive mid := MSvc | MSvcStats | MFun | MPub | MSub.         (* _serviceMutex, _serviceStatsMutex, _functionStatsMutex, _publishStatsMutex, _subscriptionStatsMutex *)
Global Instance vid_eq_dec : EqDecision vid. Proof. solve_decision. Defined.
Global Instance mid_eq_dec : EqDecision mid. Proof. solve_decision. Defined.
Inductive acc := APushBack (o : cobj) | AErase (o : cobj) | AClear | AScan.
Definition writes (a : acc) : bool := match a with AScan => false | _ => true end.
(** The mutex and the accesses of each function. *)
Definition cc_mutex (c : cact) : option mid :=
  match c with
  | CStart | CStop => None                                       (* 36-76 *)
  | CAttach (KService, _) | CDetach (KService, _) => Some MSvc   (* 83, 99 *)
  | CAttach (KServiceStats, _) => Some MSvcStats                 (* 163 *)
  | CDetach (KServiceStats, _) => None                           (* no such function *)
  | CAttach (KFunction, _) | CDetach (KFunction, _) => Some MFun (* 131, 146 *)
  | CAttach (KPublication, _) => Some MPub                       (* 178 *)
  | CDetach (KPublication, _) => None                            (* 218-224 *)
  | CAttach (KSubscription, _) | CDetach (KSubscription, _) => Some MSub  (* 193, 208 *)
  end.
Definition cc_accs (c : cact) : list (vid * acc) :=
  match c with
  | CStart | CStop => [(VSvc, AScan); (VFun, AScan); (VPub, AScan); (VSub, AScan)]
  | CAttach (KService, i) => [(VMan, APushBack (KService, i)); (VSvc, APushBack (KService, i))]
  | CDetach (KService, i) => [(VMan, AErase (KService, i)); (VSvc, AErase (KService, i))]
  | CAttach (KServiceStats, i) => [(VSvc, APushBack (KServiceStats, i))]
  | CDetach (KServiceStats, _) => []
  | CAttach (KFunction, i) => [(VFun, APushBack (KFunction, i))]
  | CDetach (KFunction, i) => [(VFun, AErase (KFunction, i))]
  | CAttach (KPublication, i) => [(VPub, APushBack (KPublication, i))]
  | CDetach (KPublication, _) => [(VPub, AClear)]
  | CAttach (KSubscription, i) => [(VSub, APushBack (KSubscription, i))]
  | CDetach (KSubscription, i) => [(VSub, AErase (KSubscription, i))]
  end.
Section Names.
  Context (name : cobj -> string).
  Definition do_acc (a : acc) (l : list cobj) : list cobj :=
    match a with APushBack o => l ++ [o] | AErase o => erase_first (same_name name o) l | AClear => [] | AScan => l end.
  (** A thread: between calls; inside a call (the accesses left); inside an access (what it found). *)
  Inductive tst := TOut | TIn (c : cact) (rest : list (vid * acc)) | TAcc (c : cact) (v : vid) (a : acc) (found : list cobj) (rest : list (vid * acc)).
  Record cthr := CThr { ct_todo : list cact; ct_st : tst }.
  Record ccst := CC {
    cc_vec : vid -> list cobj;
    cc_held : mid -> bool;
    cc_thr : list cthr;
    cc_done : list (nat * cact);       (* the calls that have returned, oldest first, with their threads *)
    cc_race : bool                     (* two accesses to one vector overlapped, one of them a change *)
  }.
  Definition fset {A B} `{EqDecision A} (f : A -> B) (x : A) (y : B) : A -> B := fun z => if decide (z = x) then y else f z.
  Definition conflicts (v : vid) (a : acc) (t : cthr) : bool :=
    match ct_st t with TAcc _ v' a' _ _ => bool_decide (v = v') && (writes a || writes a') | _ => false end.
  Definition cc_step (s : ccst) (t : nat) : ccst :=
    match cc_thr s !! t with
    | None => s
    | Some (CThr todo st) =>
        match st with
        | TOut =>
            match todo with
            | [] => s
            | c :: r =>
                match cc_mutex c with
                | Some m => if cc_held s m then s else CC (cc_vec s) (fset (cc_held s) m true) (<[t := CThr r (TIn c (cc_accs c))]> (cc_thr s)) (cc_done s) (cc_race s)
                | None => CC (cc_vec s) (cc_held s) (<[t := CThr r (TIn c (cc_accs c))]> (cc_thr s)) (cc_done s) (cc_race s)
                end
            end
        | TIn c ((v, a) :: rest) =>
            CC (cc_vec s) (cc_held s) (<[t := CThr todo (TAcc c v a (cc_vec s v) rest)]> (cc_thr s)) (cc_done s) (cc_race s || existsb (conflicts v a) (cc_thr s))
        | TAcc c v a found rest =>
            CC (if writes a then fset (cc_vec s) v (do_acc a found) else cc_vec s) (cc_held s) (<[t := CThr todo (TIn c rest)]> (cc_thr s)) (cc_done s) (cc_race s)
        | TIn c [] =>
            CC (cc_vec s) (match cc_mutex c with Some m => fset (cc_held s) m false | None => cc_held s end) (<[t := CThr todo TOut]> (cc_thr s)) (cc_done s ++ [(t, c)]) (cc_race s)
        end
    end.
  Definition cc_new (progs : list (list cact)) : ccst := CC (fun _ => []) (fun _ => false) ((fun p => CThr p TOut) <$> progs) [] false.
  Definition cc_run (progs : list (list cact)) (sched : list nat) : ccst := fold_left cc_step sched (cc_new progs).
End Names.
