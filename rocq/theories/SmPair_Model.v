(** * Model of a state machine and a listener made from the same file.
    /repo/state_machine/modules/json_conf/src/kpsr_state_machine.cpp 18-34 (FromJson::createStateMachine and createStateMachineListener), json_config_loader.cpp 21-33;
    /repo/state_machine/modules/state_machine/src/state_machine_listener.cpp 77-92 (names, getObserverFunc).
    Simplifications: reading the file is cereal's (not in the repository): [load] gives the description a file contains; both functions read the same description. *)
From stdpp Require Import prelude gmap strings.
From Verif Require Import StateMachine_Model.
Local Open Scope string_scope.
Local Open Scope list_scope.

(** createStateMachine(path), and the calls the program will make. *)
Definition from_json_machine (load : string -> config) (path : string) (user : list call) : sm := sm_new (load path) user.
(** createStateMachineListener(path). *)
Definition from_json_listener (load : string -> config) (path : string) : listener := listener_new (cf_id (load path)).
(** The listener after actions were added to it ([adds]) and its observer function, registered as observer [o], was called for the notifications [ns] of a machine. *)
Definition heard (l : listener) (adds : list lcall) (o : nat) (ns : list note) : listener := lrun l (adds ++ (as_lcall <$> List.filter (fun n => Nat.eqb (n_obs n) o) ns)).
