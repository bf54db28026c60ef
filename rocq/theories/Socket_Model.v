(** * Model of a message sent and received with ProtocolSimple over a connected pair of stream sockets.
    /repo/core/modules/socket_mdlw/src/data_socket.cpp 22-83 (putMessageData, putMessageClose),
    /repo/core/modules/socket_mdlw/include/klepsydra/socket_core/data_socket.tpp 36-105 (getMessageData),
    /repo/core/modules/socket_mdlw/src/protocol_simple.cpp 18-47, include/klepsydra/socket_core/string_resizer.h 48-56.
    The operating system is the environment: a pipe of bytes in flight; every write takes at least one byte, every read returns at least one byte if there is one,
    0 if there is none and the writing side is shut down, and otherwise blocks; each call may instead fail with any errno.
    Simplifications: sizes are natural numbers (no wrap-around of size_t; capacity * 1.5 + 10 is exact); SIGPIPE is not modelled; one message per connection, which is
    what the protocol does. *)
From stdpp Require Import prelude.

Inductive errno := EINTR | EAGAIN | ETIMEDOUT | ECONNRESET | ENOTCONN | EBADF | EFAULT | EINVAL | ENXIO | EIO | ENOBUFS | ENOMEM | EPIPE | EDQUOT | EFBIG | ENETDOWN | ENETUNREACH | ENOSPC | EOTHER.
Inductive after_error := Retry | EndOfData | Throw.
(** data_socket.tpp 52-89 *)
Definition on_read_error (e : errno) : after_error :=
  match e with EINTR | ETIMEDOUT | EAGAIN => Retry | ECONNRESET | ENOTCONN => EndOfData | _ => Throw end.
(** data_socket.cpp 29-67 *)
Definition on_write_error (e : errno) : after_error := match e with EINTR | EAGAIN => Retry | _ => Throw end.

Inductive sndpc := SWriting | SClosed | SThrew.
Inductive rcvpc := RReading | RDone | RThrew.
Record skst := Sk {
  k_written : nat;                (* dataWritten *)
  k_spc : sndpc;
  k_pipe : list Z;                (* bytes in flight *)
  k_shut : bool;                  (* the writing side is shut down *)
  k_str : list Z;                 (* the receiver's string: its size() bytes *)
  k_cap : nat;                    (* its capacity() *)
  k_read : nat;                   (* dataRead in recvMessage *)
  k_got : nat;                    (* dataRead in getMessageData *)
  k_rpc : rcvpc
}.
Inductive skact :=
| SStep (n : nat)                 (* the sender's next system call: write, of which the system takes at most n bytes (at least one); or shutdown *)
| SFail (e : errno)               (* its write fails *)
| SShutFail                       (* its shutdown fails *)
| SDrop                           (* the sender's end of the connection goes away (process ends, socket destroyed) *)
| RStep (n : nat)                 (* the receiver's next system call: read, which returns at most n bytes (at least one) *)
| RFail (e : errno).

(** std::string::resize *)
Definition resize (n : nat) (l : list Z) : list Z := take n l ++ replicate (n - length l) 0%Z.
(** read() into &message[0] + off *)
Definition store (off : nat) (b l : list Z) : list Z := take off l ++ b ++ drop (off + length b) l.
Section Conn.
  Context (msg : list Z) (grow : nat -> nat) (* capacity after reserve(capacity * 1.5 + 10) *) (fd : nat) (* the receiver's descriptor *).
  Definition sk_new (cap : nat) : skst := Sk 0 SWriting [] false (resize cap []) cap 0 0 RReading.   (* protocol_simple.cpp 26-30: clear(), StringSizer *)
  (** getMessageData has returned k_got bytes: protocol_simple.cpp 37-45, and the destructor and constructor of StringSizer. *)
  Definition end_call (s : skst) : skst :=
    let r := k_read s + k_got s in
    if decide (k_got s = 0) then Sk (k_written s) (k_spc s) (k_pipe s) (k_shut s) (resize r (k_str s)) (k_cap s) r 0 RDone
    else let cap := grow (k_cap s) in Sk (k_written s) (k_spc s) (k_pipe s) (k_shut s) (resize cap (resize r (k_str s))) cap r 0 RReading.
  (** An exception leaves recvMessage: the destructor of StringSizer. *)
  Definition rcv_throw (s : skst) : skst := Sk (k_written s) (k_spc s) (k_pipe s) (k_shut s) (resize (k_read s) (k_str s)) (k_cap s) (k_read s) (k_got s) RThrew.
  Definition sk_step (s : skst) (a : skact) : skst :=
    match a with
    | SStep n =>
        match k_spc s with
        | SWriting =>
            if decide (k_written s < length msg) then                      (* data_socket.cpp 26-27, 69 *)
              let put := Nat.min (Nat.max 1 n) (length msg - k_written s) in
              Sk (k_written s + put) SWriting (k_pipe s ++ take put (drop (k_written s) msg)) (k_shut s) (k_str s) (k_cap s) (k_read s) (k_got s) (k_rpc s)
            else Sk (k_written s) SClosed (k_pipe s) true (k_str s) (k_cap s) (k_read s) (k_got s) (k_rpc s)   (* 75-83 *)
        | _ => s
        end
    | SFail e =>
        match k_spc s with
        | SWriting =>
            if decide (k_written s < length msg) then
              match on_write_error e with
              | Retry => s
              | _ => Sk (k_written s) SThrew (k_pipe s) (k_shut s) (k_str s) (k_cap s) (k_read s) (k_got s) (k_rpc s)
              end
            else s
        | _ => s
        end
    | SShutFail =>
        match k_spc s with
        | SWriting =>
            if decide (k_written s < length msg) then s
            else Sk (k_written s) SThrew (k_pipe s) (k_shut s) (k_str s) (k_cap s) (k_read s) (k_got s) (k_rpc s)
        | _ => s
        end
    | SDrop => Sk (k_written s) (match k_spc s with SWriting => SThrew | p => p end) (k_pipe s) true (k_str s) (k_cap s) (k_read s) (k_got s) (k_rpc s)
    | RStep n =>
        match k_rpc s with
        | RReading =>
            if decide (fd = 0) then rcv_throw s                            (* data_socket.tpp 38-41 *)
            else
              let size := k_cap s - 1 - k_read s in                        (* protocol_simple.cpp 31-36 *)
              if decide (size <= k_got s) then end_call s                  (* data_socket.tpp 44 *)
              else match k_pipe s with
                   | [] => if k_shut s then end_call s else s              (* 91-94; or blocked *)
                   | _ => let b := take (Nat.min (Nat.max 1 n) (size - k_got s)) (k_pipe s) in
                          Sk (k_written s) (k_spc s) (drop (length b) (k_pipe s)) (k_shut s) (store (k_read s + k_got s) b (k_str s)) (k_cap s) (k_read s) (k_got s + length b) RReading   (* 47, 95 *)
                   end
        | _ => s
        end
    | RFail e =>
        match k_rpc s with
        | RReading =>
            if decide (fd = 0) then rcv_throw s
            else if decide (k_cap s - 1 - k_read s <= k_got s) then s
            else match on_read_error e with Retry => s | EndOfData => end_call s | Throw => rcv_throw s end
        | _ => s
        end
    end.
  Definition sk_run (cap : nat) (acts : list skact) : skst := fold_left sk_step acts (sk_new cap).
End Conn.

(** ** BaseSocket: close, destructor, move. base_socket.cpp 30-104.
    The system's close answers 0 or -1 with an errno; the model also has the value errno had before, which close leaves alone when it succeeds.
    The process's descriptor table is the environment: the log records which descriptor each ::close was asked to close. *)
Inductive clres := ClOk | ClErr (e : errno).
Inductive clout := ClReturned | ClThrew | ClPending.             (* ClPending: the answers given are used up, the loop goes on *)
(** Lines 61-83: result, descriptors closed, socketId at the end. *)
Fixpoint close_loop (id : Z) (stale : errno) (answers : list clres) : clout * nat * Z :=
  match answers with
  | [] => (ClPending, 0, id)
  | ClErr _ :: _ => (ClReturned, 1, (-1)%Z)                      (* state == -1: break; 84 *)
  | ClOk :: r =>
      match stale with
      | EINTR => let '(o, n, i) := close_loop id stale r in (o, S n, i)
      | _ => (ClThrew, 1, id)
      end
  end.
Definition base_close (id : Z) (stale : errno) (answers : list clres) : clout * nat * Z :=
  if decide (id = (-1)%Z) then (ClThrew, 0, id) else close_loop id stale answers.

(** ** Socket objects and the process's descriptors. base_socket.cpp 22-52, 87-104.
    Objects are numbered in order of construction; None: destroyed. The system closes an open descriptor and refuses (EBADF) one that is not open;
    descriptors are opened by the program for its objects (BNew) or by other code (BOther); a number is given out only while it is not open. *)
Record bst := Bst { b_objs : list (option Z); b_open : list Z; b_errno : errno; b_closes : list Z (* ghost: arguments of ::close that closed something, oldest first *);
  b_made : list Z; b_others : list Z (* ghost: the descriptors given to objects, and to other code *) }.
Inductive bact := BNew (fd : Z) | BOther (fd : Z) | BErrno (e : errno) | BMove (i : nat) | BAssign (i j : nat) | BClose (i : nat) | BDestroy (i : nat).
Definition os_answers (open : list Z) (fd : Z) : list clres := if decide (fd ∈ open) then [ClOk; ClErr EBADF] else [ClErr EBADF].
(** close() of an object holding id: new id, new state of the process. *)
Definition b_close (s : bst) (id : Z) : Z * list Z * errno * list Z :=
  let '(_, n, id') := base_close id (b_errno s) (os_answers (b_open s) id) in
  if decide (n = 0) then (id', b_open s, b_errno s, b_closes s)
  else (id', filter (fun x => x <> id) (b_open s), (if decide (id ∈ b_open s) then (if decide (n = 1) then b_errno s else EBADF) else EBADF), (if decide (id ∈ b_open s) then b_closes s ++ [id] else b_closes s)).
Definition b_step (s : bst) (a : bact) : bst :=
  match a with
  | BNew fd => if decide (fd ∈ b_open s \/ (fd < 0)%Z) then s else Bst (b_objs s ++ [Some fd]) (fd :: b_open s) (b_errno s) (b_closes s) (b_made s ++ [fd]) (b_others s)   (* 22-28 *)
  | BOther fd => if decide (fd ∈ b_open s \/ (fd < 0)%Z) then s else Bst (b_objs s) (fd :: b_open s) (b_errno s) (b_closes s) (b_made s) (b_others s ++ [fd])
  | BErrno e => Bst (b_objs s) (b_open s) e (b_closes s) (b_made s) (b_others s)                                                            (* some other call sets errno *)
  | BMove i =>                                                                                                      (* 93-97 *)
      match b_objs s !! i with Some (Some id) => Bst (<[i := Some (-1)%Z]> (b_objs s) ++ [Some id]) (b_open s) (b_errno s) (b_closes s) (b_made s) (b_others s) | _ => s end
  | BAssign i j =>                                                                                                  (* 99-104: swap *)
      match b_objs s !! i, b_objs s !! j with
      | Some (Some x), Some (Some y) => Bst (<[i := Some y]> (<[j := Some x]> (b_objs s))) (b_open s) (b_errno s) (b_closes s) (b_made s) (b_others s)
      | _, _ => s
      end
  | BClose i =>
      match b_objs s !! i with
      | Some (Some id) => let '(id', open, e, cl) := b_close s id in Bst (<[i := Some id']> (b_objs s)) open e cl (b_made s) (b_others s)
      | _ => s
      end
  | BDestroy i =>                                                                                                   (* 30-51: exceptions of close() are swallowed *)
      match b_objs s !! i with
      | Some (Some id) => if decide (id = (-1)%Z) then Bst (<[i := None]> (b_objs s)) (b_open s) (b_errno s) (b_closes s) (b_made s) (b_others s)
                          else let '(_, open, e, cl) := b_close s id in Bst (<[i := None]> (b_objs s)) open e cl (b_made s) (b_others s)
      | _ => s
      end
  end.
Definition b_run (acts : list bact) : bst := fold_left b_step acts (Bst [] [] EOTHER [] [] []).
