(** * Model of the configuration properties and environments.
    /repo/core/modules/core/include/klepsydra/core/configuration_properties.h 17-137 (getFullKey, DynamicConfigurationProperties, ConfigurationProperties),
    property.h 13-70, /repo/core/modules/core/src/configuration_environment.cpp 48-154, include/klepsydra/core/configuration_environment.h 139-149,
    /repo/core/modules/mem_mdlw/src/mem_env.cpp 17-116.
    Calls are sequential: ConfigurationEnvironment has no lock; MemEnv holds one mutex during each call (lines 22, 38, ...), so every concurrent history of it is one of
    these sequences. A float is an opaque number (its bits). Reading and writing JSON (cereal) is not modelled; logging neither. *)
From stdpp Require Import prelude strings gmap.
Local Open Scope string_scope.
Local Open Scope list_scope.

(** A value with its C++ type: std::string, int, float, bool. *)
Inductive pval := PStr (s : string) | PInt (z : Z) | PFloat (bits : Z) | PBool (b : bool).
Inductive ptype := TStr | TInt | TFloat | TBool.
Global Instance ptype_eq_dec : EqDecision ptype. Proof. solve_decision. Defined.
Global Instance pval_eq_dec : EqDecision pval. Proof. solve_decision. Defined.
Definition type_of (v : pval) : ptype := match v with PStr _ => TStr | PInt _ => TInt | PFloat _ => TFloat | PBool _ => TBool end.

(** getFullKey, lines 18-21. *)
Definition full_key (key root : string) : string := if decide (root = "") then key else root +:+ "/" +:+ key.

(** ** ConfigurationProperties<T>, lines 88-137: a std::map. *)
Notation props T := (gmap string T).
Section Props.
Context {T : Type}.
Definition get_property (m : props T) (k : string) : option T := m !! k.                       (* 96-106: Some v: true and v; None: false *)
Definition set_property (m : props T) (k : string) (v : T) : props T := <[k := v]> m.            (* 108-117 *)
(** copyFrom, lines 119-131: [entries] is the content of the other one, in its order (std::map: by key; the order does not matter). *)
Fixpoint copy_entries (m : props T) (prefix : string) (entries : list (string * T)) : props T * bool :=
  match entries with
  | [] => (m, true)
  | (k, v) :: rest =>
      match m !! full_key k prefix with
      | Some _ => let '(m', _) := copy_entries m prefix rest in (m', false)
      | None => copy_entries (<[full_key k prefix := v]> m) prefix rest
      end
  end.
Definition copy_props (m other : props T) (prefix : string) : props T * bool := copy_entries m prefix (map_to_list other).
End Props.

(** ** ConfigurationEnvironment. *)
Record cenv := CEnv { ce_str : props string; ce_bool : props bool; ce_int : props Z; ce_float : props Z }.
Definition cenv_new : cenv := CEnv ∅ ∅ ∅ ∅.
(** getProperty*, lines 48-90, with printGetError (configuration_environment.h 139-149): value (of the type of the default) and the returned flag. *)
Definition cenv_get (e : cenv) (key root : string) (default : pval) : pval * bool :=
  let pick {A} (f : A -> pval) (o : option A) := match o with Some v => (f v, true) | None => (default, false) end in
  match default with
  | PStr _ => pick PStr (get_property (ce_str e) (full_key key root))
  | PInt _ => pick PInt (get_property (ce_int e) (full_key key root))
  | PFloat _ => pick PFloat (get_property (ce_float e) (full_key key root))
  | PBool _ => pick PBool (get_property (ce_bool e) (full_key key root))
  end.
(** setProperty*, lines 92-126. *)
Definition cenv_set (e : cenv) (key root : string) (v : pval) : cenv :=
  match v with
  | PStr s => CEnv (set_property (ce_str e) (full_key key root) s) (ce_bool e) (ce_int e) (ce_float e)
  | PBool b => CEnv (ce_str e) (set_property (ce_bool e) (full_key key root) b) (ce_int e) (ce_float e)
  | PInt z => CEnv (ce_str e) (ce_bool e) (set_property (ce_int e) (full_key key root) z) (ce_float e)
  | PFloat z => CEnv (ce_str e) (ce_bool e) (ce_int e) (set_property (ce_float e) (full_key key root) z)
  end.
(** copyFrom, lines 143-154: && does not evaluate its second argument when the first is false. *)
Definition cenv_copy (e o : cenv) (root : string) : cenv * bool :=
  let '(s, r1) := copy_props (ce_str e) (ce_str o) root in
  let '(b, r2) := if r1 then copy_props (ce_bool e) (ce_bool o) root else (ce_bool e, false) in
  let '(i, r3) := if r2 then copy_props (ce_int e) (ce_int o) root else (ce_int e, false) in
  let '(f, r4) := if r3 then copy_props (ce_float e) (ce_float o) root else (ce_float e, false) in
  (CEnv s b i f, r4).

(** ** DynamicConfigurationProperties, lines 23-86. *)
Notation dyn := (gmap string pval).
Definition dyn_get (d : dyn) (name : string) (ty : ptype) : option pval :=                    (* 30-48 *)
  match d !! name with
  | Some v => if decide (type_of v = ty) then Some v else None
  | None => None
  end.
Definition dyn_set (d : dyn) (name : string) (v : pval) : dyn * bool :=                       (* 50-65 *)
  match d !! name with
  | Some v' => (d, false)      (* another type: 55-57; the same type: std::map::insert does not replace, 62-64 *)
  | None => (<[name := v]> d, true)
  end.
Definition dyn_copy (d other : dyn) (prefix : string) : dyn := (copy_props d other prefix).1. (* 67-76 *)

(** ** MemEnv: one map per type; the root is not used. *)
Record menv := MEnv { me_str : gmap string string; me_int : gmap string Z; me_float : gmap string Z; me_bool : gmap string bool }.
Definition menv_new : menv := MEnv ∅ ∅ ∅ ∅.
Definition menv_get (e : menv) (key root : string) (default : pval) : pval * bool :=          (* 17-79 *)
  let pick {A} (f : A -> pval) (o : option A) := match o with Some v => (f v, true) | None => (default, false) end in
  match default with
  | PStr _ => pick PStr (me_str e !! key)
  | PInt _ => pick PInt (me_int e !! key)
  | PFloat _ => pick PFloat (me_float e !! key)
  | PBool _ => pick PBool (me_bool e !! key)
  end.
Definition menv_set (e : menv) (key root : string) (v : pval) : menv :=                       (* 81-111 *)
  match v with
  | PStr s => MEnv (<[key := s]> (me_str e)) (me_int e) (me_float e) (me_bool e)
  | PInt z => MEnv (me_str e) (<[key := z]> (me_int e)) (me_float e) (me_bool e)
  | PFloat z => MEnv (me_str e) (me_int e) (<[key := z]> (me_float e)) (me_bool e)
  | PBool b => MEnv (me_str e) (me_int e) (me_float e) (<[key := b]> (me_bool e))
  end.

(** Histories of setProperty calls: key, root, value. *)
Notation write := (string * string * pval)%type (only parsing).
Definition cenv_run (e : cenv) (ws : list write) : cenv := fold_left (fun e w => cenv_set e w.1.1 w.1.2 w.2) ws e.
Definition menv_run (e : menv) (ws : list write) : menv := fold_left (fun e w => menv_set e w.1.1 w.1.2 w.2) ws e.
Definition dyn_run (d : dyn) (ws : list (string * pval)) : dyn := fold_left (fun d w => (dyn_set d w.1 w.2).1) ws d.
