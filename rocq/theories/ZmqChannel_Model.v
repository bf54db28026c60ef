(** * Model of the ZeroMQ channels. All in /repo/core/modules/zmq_mdlw/include/klepsydra/zmq_core/.
    Sending: to_zmq_middleware_provider.h 80-173, binary_to_zmq_channel.h 50-80, json_to_zmq_channel.h 45-76, void_caster_to_zmq_channel.h 40-70, over core's to_middleware_channel.h 43-100
    and the pooled publisher (object_pool_publisher.h 60-173).
    Receiving: zmq_poller.h 109-143, binary_zmq_poller.h 55-75, json_zmq_poller.h 52-70, void_caster_zmq_poller.h 50-72, from_zmq_middleware_provider.h 56-105, over core's from_middleware_channel.h.
    A frame (topic or content) is its bytes. Serialisation (cereal, or the trivial-copy mapper of Mapper_Model.v) is a parameter of the theorems. Calls on one publishing socket
    come from one thread (ZeroMQ requires it). *)
From stdpp Require Import prelude gmap.
Notation frame := (list Z).

(** ** Sending. *)
Inductive zkind := KBinary | KJson | KVoidCaster.
Global Instance zkind_eq_dec : EqDecision zkind. Proof. solve_decision. Defined.
(** std::stringbuf written from its beginning (pubseekpos(0), to_zmq_middleware_provider.h 90-95, then the archive): what was there beyond the new bytes stays, and str() returns it all. *)
Definition buf_write (old new : frame) : frame := new ++ drop (length new) old.
(** The state of the channel of one topic: the buffers of its pool. Kinds other than binary assign the whole message (message = data, message = ss.str()). *)
Record zsend := ZSend { zs_kind : zkind; zs_topic : frame; zs_pool : list frame }.
(** Construction: binary (binary_to_zmq_channel.h 60) and void caster (void_caster_to_zmq_channel.h 52) pools have at least one element. All elements are empty. *)
Definition zsend_new (k : zkind) (topic : frame) (poolSize : nat) : zsend := ZSend k topic (replicate (match k with KJson => poolSize | _ => Nat.max 1 poolSize end) []).
(** publish: ToMiddlewareChannel::internalPublish (to_middleware_channel.h 72-100) -> ObjectPoolPublisher::processAndPublish -> internalPublish. [pick] is the element the pool hands out
    (the pool's order is SmartObjectPool_Model.v's; here any), None when it is empty or absent. Result: the frames sent, and the channel afterwards. *)
Definition zsend_publish (c : zsend) (pick : option nat) (bytes : frame) : list frame * zsend :=
  match pick ≫= fun i => (fun b => (i, b)) <$> zs_pool c !! i with
  | Some (i, b) => let m := match zs_kind c with KBinary => buf_write b bytes | _ => bytes end in ([zs_topic c; m], ZSend (zs_kind c) (zs_topic c) (<[i := m]> (zs_pool c)))
  | None => ([zs_topic c; bytes], c)          (* a new event: for binary a new stringbuf, 91-93 *)
  end.
(** ToZMQMiddlewareProvider: one map per kind from topic to channel (all three get functions are alike: 80-112, 120-142, 148-170); [ty] is the event type asked for, which is
    not part of the key. The program keeps the pointer; the channel at index n of the list is the n-th created. *)
Record zprov := ZProv { zp_map : gmap (nat * frame) (nat * nat); zp_made : nat }.
Definition kind_code (k : zkind) : nat := match k with KBinary => 0 | KJson => 1 | KVoidCaster => 2 end.
Definition zp_new : zprov := ZProv ∅ 0.
(** The answer: the channel's index and the type it was created for. *)
Definition zp_get (p : zprov) (k : zkind) (topic : frame) (ty : nat) : (nat * nat) * zprov :=
  match zp_map p !! (kind_code k, topic) with
  | Some x => (x, p)
  | None => ((zp_made p, ty), ZProv (<[(kind_code k, topic) := (zp_made p, ty)]> (zp_map p)) (S (zp_made p)))
  end.

(** ** Receiving. *)
Record zrecv := ZRecv {
  r_fun : gmap frame nat;            (* _functionTopicMap: the internal publisher behind the function *)
  r_known : gset frame;              (* keys of _subscriberMap *)
  r_in : list frame;                 (* frames waiting in the subscriber socket *)
  r_topic : option frame;            (* the poller thread between its two recv calls *)
  r_out : list (frame * nat * frame) (* forwarded: topic, internal publisher, message *)
}.
Definition zrecv_new : zrecv := ZRecv ∅ ∅ [] None [].
Inductive ract :=
  | RReg (topic : frame) (publisher : nat) | RUnreg (topic : frame)
  | RArrive (frames : list frame)    (* a whole message arrives at the socket (ZeroMQ delivers all frames of a message or none) *)
  | RRecv.                           (* the poller thread's next recv, if a frame is there (otherwise it waits) *)
Definition r_step (s : zrecv) (a : ract) : zrecv :=
  match a with
  | RReg t p =>                                                                     (* from_zmq_middleware_provider.h 67-84, zmq_poller.h 113-117 *)
      if decide (t ∈ r_known s) then s else ZRecv (<[t := p]> (r_fun s)) ({[t]} ∪ r_known s) (r_in s) (r_topic s) (r_out s)
  | RUnreg t => ZRecv (delete t (r_fun s)) (r_known s) (r_in s) (r_topic s) (r_out s) (* from_zmq_middleware_provider.h 89, zmq_poller.h 123-127 *)
  | RArrive fs => ZRecv (r_fun s) (r_known s) (r_in s ++ fs) (r_topic s) (r_out s)
  | RRecv =>
      match r_in s with
      | [] => s
      | f :: rest =>
          match r_topic s with
          | None => ZRecv (r_fun s) (r_known s) rest (Some f) (r_out s)              (* recv(topicMsg) *)
          | Some t => ZRecv (r_fun s) (r_known s) rest None                          (* recv(content); executeFunction, zmq_poller.h 134-141 *)
                        (match r_fun s !! t with Some p => r_out s ++ [(t, p, f)] | None => r_out s end)
          end
      end
  end.
Definition r_run (acts : list ract) : zrecv := fold_left r_step acts zrecv_new.
