(** * Model of a server and its clients that exchange one request and one reply per connection.
    /repo/core/examples/socket_mdlw/src/server.cpp 54-71 (main: the loop of accept, a detached thread for each connection: recvMessage, sendMessage of the reply),
    /repo/core/examples/socket_mdlw/src/client.cpp 30-55 (main: sendMessage, recvMessage);
    /repo/core/modules/socket_mdlw/src/protocol_simple.cpp 18-47, data_socket.cpp, server_socket.cpp 74-109 through Socket_Model.v and SocketOpen_Model.v.
    A connection is two streams, one for each direction. Any number of clients; the reply is any function of the request (in the example the constant "OK").
    An exception that leaves a thread's function, or main, ends the whole process (std::terminate): its ends of all connections go away.
    Simplifications: a client's steps begin when its connection has been accepted; the descriptors are parameters; a process that has ended by itself is the step [DGone]; no SIGPIPE (a write
    to a connection that the other side has closed fails with EPIPE, one of the errors a write may have). *)
From stdpp Require Import prelude.
From Verif Require Import Socket_Model SocketOpen_Model.

Record sess := Sess {
  ss_req : skst;                   (* the stream from the client to the server *)
  ss_rep : skst;                   (* the stream from the server to the client *)
  ss_gone : bool                   (* the client's process has ended *)
}.
Record svst := Svst { sv_alive : bool (* the server's process *); sv_sess : list sess (* the connections, in the order of their acceptance *) }.
Inductive svact :=
| DAccept (o : accout)             (* the main thread's accept ends in this way *)
| DCli (i : nat) (a : skact)       (* the client of connection i makes a system call *)
| DSrv (i : nat) (a : skact)       (* the server's thread of connection i does *)
| DGone (i : nat).                 (* the process of that client ends *)
Section Server.
  Context (req : nat -> list Z) (reply : list Z -> list Z) (grow : nat -> nat) (sfd cfd : nat -> nat) (cap : nat).
  Definition sv_new : svst := Svst true [].
  Definition sender_act (a : skact) : bool := match a with SStep _ | SFail _ | SShutFail => true | _ => false end.
  Definition receiver_act (a : skact) : bool := match a with RStep _ | RFail _ => true | _ => false end.
  (** client.cpp 50-53: sendMessage, and when it has returned recvMessage. *)
  Definition cli_step (i : nat) (q : sess) (a : skact) : sess :=
    if ss_gone q then q
    else if sender_act a then Sess (sk_step (req i) grow (sfd i) (ss_req q) a) (ss_rep q) false
    else if receiver_act a then
      match k_spc (ss_req q) with
      | SClosed => Sess (ss_req q) (sk_step (reply (k_str (ss_req q))) grow (cfd i) (ss_rep q) a) false
      | _ => q
      end
    else q.
  (** server.cpp 61-68: recvMessage, and when it has returned sendMessage. *)
  Definition srv_step (i : nat) (q : sess) (a : skact) : sess :=
    if receiver_act a then Sess (sk_step (req i) grow (sfd i) (ss_req q) a) (ss_rep q) (ss_gone q)
    else if sender_act a then
      match k_rpc (ss_req q) with
      | RDone => Sess (ss_req q) (sk_step (reply (k_str (ss_req q))) grow (cfd i) (ss_rep q) a) (ss_gone q)
      | _ => q
      end
    else q.
  (** Has an exception left the thread? *)
  Definition srv_threw (q : sess) : bool := match k_rpc (ss_req q) with RThrew => true | _ => match k_spc (ss_rep q) with SThrew => true | _ => false end end.
  (** The server's process ends. *)
  Definition sv_die (l : list sess) : svst := Svst false ((fun q => Sess (ss_req q) (sk_step [] grow 0 (ss_rep q) SDrop) (ss_gone q)) <$> l).
  Definition sv_step (s : svst) (a : svact) : svst :=
    match a with
    | DAccept o =>
        if sv_alive s then
          match o with
          | AccOk _ => Svst true (sv_sess s ++ [Sess (sk_new cap) (sk_new cap) false])
          | _ => sv_die (sv_sess s)                                                     (* main throws *)
          end
        else s
    | DCli i x => match sv_sess s !! i with Some q => Svst (sv_alive s) (<[i := cli_step i q x]> (sv_sess s)) | None => s end
    | DSrv i x =>
        match sv_sess s !! i with
        | Some q => if sv_alive s then let q' := srv_step i q x in let l := <[i := q']> (sv_sess s) in if srv_threw q' then sv_die l else Svst true l else s
        | None => s
        end
    | DGone i => match sv_sess s !! i with Some q => Svst (sv_alive s) (<[i := Sess (sk_step (req i) grow (sfd i) (ss_req q) SDrop) (ss_rep q) true]> (sv_sess s)) | None => s end
    end.
  Definition sv_run (acts : list svact) : svst := fold_left sv_step acts sv_new.
End Server.
