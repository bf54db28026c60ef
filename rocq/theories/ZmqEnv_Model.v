(** * Model of the environments shared through ZeroMQ: /repo/core/modules/zmq_mdlw/src/zmq_env.cpp 28-231, include/klepsydra/zmq_core/zmq_env.h,
    zmq_environment_data.h, with the configuration environment of Config_Model.v below each of them.
    Simplifications. ZeroMQ (not in the repository): a FIFO of messages from each publishing environment to each environment whose subscriber socket is connected to it
    and subscribed to its topic; [conn] says which are, and a message may also be lost (full queue), ZLose. JSON writing and reading (cereal, not in the repository):
    what is read is what was written; loading a std::map replaces it. The calls of the program on one environment and the poller thread's updates of it are taken one at a time
    (the code has no lock: concurrent use is a data race). *)
From stdpp Require Import prelude strings gmap.
From Verif Require Import Config_Model.

(** ZMQEnv with its poller: key, source id (the creation time in milliseconds, 43-45), the environment below. *)
Record zenv := ZEnv { z_key : string; z_sid : Z; z_cfg : cenv }.
(** ZMQEnvironmentData, zmq_environment_data.h 27-63. *)
Record zmsg := ZMsg { zm_key : string; zm_cfg : cenv; zm_sid : Z }.
Record znet := ZNet { zn_env : list zenv; zn_ch : nat -> nat -> list zmsg }.
Inductive zact :=
  | ZSet (i : nat) (key root : string) (v : pval)      (* one of the setProperty calls of environment i *)
  | ZLoad (i : nat) (file : cenv) (root : string)      (* loadFile of a file that can be read and has this content *)
  | ZPoll (j i : nat)                                  (* the poller of j, its socket handing over the next message of i, if any *)
  | ZLose (i j : nat).                                 (* the next message from i to j is lost *)
Section Net.
Context (conn : nat -> nat -> bool).
Definition set_cfg (envs : list zenv) (i : nat) (c : cenv) : list zenv := alter (fun e => ZEnv (z_key e) (z_sid e) c) i envs.
(** publishConfiguration, 165-176: the whole environment is sent. *)
Definition z_publish (s : znet) (i : nat) : znet :=
  match zn_env s !! i with
  | Some e => ZNet (zn_env s) (fun a b => if decide (a = i) then (if conn i b then zn_ch s a b ++ [ZMsg (z_key e) (z_cfg e) (z_sid e)] else zn_ch s a b) else zn_ch s a b)
  | None => s
  end.
Definition z_step (s : znet) (a : zact) : znet :=
  match a with
  | ZSet i key root v =>                                                                       (* 125-153 *)
      match zn_env s !! i with Some e => z_publish (ZNet (set_cfg (zn_env s) i (cenv_set (z_cfg e) key root v)) (zn_ch s)) i | None => s end
  | ZLoad i file root =>                                                                       (* 155-163 *)
      match zn_env s !! i with
      | Some e => let '(c, ok) := cenv_copy (z_cfg e) file root in
          let s' := ZNet (set_cfg (zn_env s) i c) (zn_ch s) in if (ok : bool) then z_publish s' i else s'
      | None => s
      end
  | ZPoll j i =>                                                                               (* poll, 208-231; updateConfiguration, configuration_environment.cpp 156-168 *)
      match zn_env s !! j, zn_ch s i j with
      | Some e, m :: rest =>
          ZNet (if decide (zm_key m = z_key e /\ zm_sid m <> z_sid e) then set_cfg (zn_env s) j (zm_cfg m) else zn_env s)
               (fun a b => if decide (a = i /\ b = j) then rest else zn_ch s a b)
      | _, _ => s
      end
  | ZLose i j => ZNet (zn_env s) (fun a b => if decide (a = i /\ b = j) then tail (zn_ch s a b) else zn_ch s a b)
  end.
Definition z_run (s : znet) (acts : list zact) : znet := fold_left z_step acts s.
End Net.
(** The constructors, 28-84: any content (configuration file, environment given), nothing sent yet. *)
Definition z_new (envs : list zenv) : znet := ZNet envs (fun _ _ => []).
