(** * Model of CoreContainer.
    /repo/core/modules/core/src/core_container.cpp 36-224, /repo/core/modules/core/include/klepsydra/core/core_container.h.
    Simplifications: the statistics objects belong to the SDK, which is not in the repository; a statistics object is started or stopped, nothing else.
    Null pointers are ignored by every attach and detach (80, 96, ...): requests with a null pointer change nothing and are left out. Names and environment are left out. *)
From stdpp Require Import prelude strings.

(** The kinds of statistics. A service is the owner of service statistics: (KService, i) is the statistics object of service i;
    (KServiceStats, i) is a statistics object attached by itself. *)
Inductive ckind := KService | KServiceStats | KFunction | KPublication | KSubscription.
Global Instance ckind_eq_dec : EqDecision ckind.
Proof. solve_decision. Defined.
Notation cobj := (ckind * nat)%type.
Record cst := Cst {
  c_running : bool;
  c_services : list cobj;            (* _managedServices *)
  c_svc_stats : list cobj;           (* _serviceStats *)
  c_fun_stats : list cobj;
  c_pub_stats : list cobj;
  c_sub_stats : list cobj;
  c_on : list cobj                   (* the statistics objects that are started *)
}.
Inductive cact := CStart | CStop | CAttach (o : cobj) | CDetach (o : cobj).
Definition c_new : cst := Cst false [] [] [] [] [] [].
(** stats->start(), stats->stop() *)
Definition turn_on (os on : list cobj) : list cobj := os ++ on.
Definition turn_off (os on : list cobj) : list cobj := filter (fun o => o ∉ os) on.
Definition c_all (s : cst) : list cobj := c_svc_stats s ++ c_fun_stats s ++ c_pub_stats s ++ c_sub_stats s.
(** std::find_if for the name, then erase of the first one found (103-110, 148-155, 207-214). *)
Fixpoint erase_first (p : cobj -> bool) (l : list cobj) : list cobj := match l with [] => [] | x :: l => if p x then l else x :: erase_first p l end.
Section Names.
  Context (name : cobj -> string).
  Definition same_name (o x : cobj) : bool := bool_decide (name x = name o).
  Definition c_step (s : cst) (a : cact) : cst :=
    match a with
    | CStart => (* 36-55 *) Cst true (c_services s) (c_svc_stats s) (c_fun_stats s) (c_pub_stats s) (c_sub_stats s) (turn_on (c_all s) (c_on s))
    | CStop => (* 57-76 *) Cst false (c_services s) (c_svc_stats s) (c_fun_stats s) (c_pub_stats s) (c_sub_stats s) (turn_off (c_all s) (c_on s))
    | CAttach o =>
        let on := if c_running s then turn_on [o] (c_on s) else c_on s in
        match o.1 with
        | KService => (* 78-93 *) Cst (c_running s) (c_services s ++ [o]) (c_svc_stats s ++ [o]) (c_fun_stats s) (c_pub_stats s) (c_sub_stats s) on
        | KServiceStats => (* 158-171 *) Cst (c_running s) (c_services s) (c_svc_stats s ++ [o]) (c_fun_stats s) (c_pub_stats s) (c_sub_stats s) on
        | KFunction => (* 126-139 *) Cst (c_running s) (c_services s) (c_svc_stats s) (c_fun_stats s ++ [o]) (c_pub_stats s) (c_sub_stats s) on
        | KPublication => (* 173-186 *) Cst (c_running s) (c_services s) (c_svc_stats s) (c_fun_stats s) (c_pub_stats s ++ [o]) (c_sub_stats s) on
        | KSubscription => (* 188-201 *) Cst (c_running s) (c_services s) (c_svc_stats s) (c_fun_stats s) (c_pub_stats s) (c_sub_stats s ++ [o]) on
        end
    | CDetach o =>
        match o.1 with
        | KService => (* 94-124 *) Cst (c_running s) (erase_first (same_name o) (c_services s)) (erase_first (same_name o) (c_svc_stats s)) (c_fun_stats s) (c_pub_stats s) (c_sub_stats s) (c_on s)
        | KServiceStats => s                      (* there is no such function *)
        | KFunction => (* 141-156 *) Cst (c_running s) (c_services s) (c_svc_stats s) (erase_first (same_name o) (c_fun_stats s)) (c_pub_stats s) (c_sub_stats s) (c_on s)
        | KPublication => (* 218-224 *) Cst (c_running s) (c_services s) (c_svc_stats s) (c_fun_stats s) [] (c_sub_stats s) (c_on s)
        | KSubscription => (* 203-216 *) Cst (c_running s) (c_services s) (c_svc_stats s) (c_fun_stats s) (c_pub_stats s) (erase_first (same_name o) (c_sub_stats s)) (c_on s)
        end
    end.
  Definition c_run (acts : list cact) : cst := fold_left c_step acts c_new.
End Names.

(** ** An attach running beside a stop or start (different threads). attach holds the mutex of its vector, start and stop take none;
    one statistics object, so that the state of the vectors does not matter. *)
Inductive apc := APush | ATest | AStart | ADone.                (* push_back; if (_running); stats->start() *)
Inductive kpc := KFlag | KLoop | KDone.                         (* _running = ...; the loops *)
Record ast := Ast { a_running : bool; a_in : bool; a_on : bool; a_pc : apc; a_ctl : list (bool * kpc) (* the calls of start (true) and stop (false) still to be done by the other thread *) }.
Definition a_step (s : ast) (attacher : bool) : ast :=
  if attacher then
    match a_pc s with
    | APush => Ast (a_running s) true (a_on s) ATest (a_ctl s)
    | ATest => Ast (a_running s) (a_in s) (a_on s) (if a_running s then AStart else ADone) (a_ctl s)
    | AStart => Ast (a_running s) (a_in s) true ADone (a_ctl s)
    | ADone => s
    end
  else
    match a_ctl s with
    | [] => s
    | (b, KFlag) :: r => Ast b (a_in s) (a_on s) (a_pc s) ((b, KLoop) :: r)
    | (b, KLoop) :: r => Ast (a_running s) (a_in s) (if a_in s then b else a_on s) (a_pc s) ((b, KDone) :: r)
    | (_, KDone) :: r => Ast (a_running s) (a_in s) (a_on s) (a_pc s) r
    end.
Definition a_run (calls : list bool) (sched : list bool) : ast := fold_left a_step sched (Ast false false false APush ((fun b => (b, KFlag)) <$> calls)).
