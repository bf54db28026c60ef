(** * Model of the mappers that do not use cereal: void_caster_mapper.h and identity_mapper.h in /repo/serialization/modules/serialization/include/klepsydra/serialization/,
    and of the stream buffer over a received message, /repo/core/modules/core/include/klepsydra/core/non_copying_stream_buffer.h.
    An object of the mapped type T is its object representation: sizeof(T) bytes. Reading a byte outside of a vector is undefined behaviour: None. *)
From stdpp Require Import prelude.
Notation byte := Z (only parsing).
(** std::memcpy(dst, v.data(), n): the bytes v[0] ... v[n-1], each of which has to exist. *)
Definition memcpy_from (v : list byte) (n : nat) : option (list byte) := mapM (fun i => v !! i) (seq 0 n).
(** Mapper<T, std::vector<unsigned char>>::fromMiddleware, void_caster_mapper.h 46-49: the new representation of event. *)
Definition vc_from (sizeof_T : nat) (message : list byte) : option (list byte) := memcpy_from message sizeof_T.
(** toMiddleware, 56-61: the new content of message, whatever it was. *)
Definition vc_to (event message : list byte) : list byte := let data := event in data.
(** Mapper<T, T>, identity_mapper.h 45 and 53. *)
Definition id_from {T} (message event : T) : T := message.
Definition id_to {T} (event message : T) : T := event.

(** NonCopyingStringBuffer, non_copying_stream_buffer.h 43: setg(data, data, data + size); reading n characters (std::streambuf::sgetn) without underflow() redefined gives what is left. *)
Record ncbuf := NCBuf { nc_data : list byte; nc_pos : nat; nc_end : nat }.
Definition nc_new (data : list byte) (size : nat) : ncbuf := NCBuf data 0 size.
Definition nc_read (b : ncbuf) (n : nat) : option (list byte) * ncbuf :=
  let k := Nat.min n (nc_end b - nc_pos b) in (mapM (fun i => nc_data b !! i) (seq (nc_pos b) k), NCBuf (nc_data b) (nc_pos b + k) (nc_end b)).
