(** * Model of how sockets come into being: ServerSocket, ConnectSocket, accept.
    /repo/core/modules/socket_mdlw/src/server_socket.cpp 24-109, connect_socket.cpp 25-55, base_socket.cpp 22-52 (constructor and destructor of the base).
    The system's answers are inputs. The log records the system calls that change the process's descriptors, in order. close() is [close_loop] of Socket_Model.v (base_socket.cpp 53-85).
    Simplifications: the address of a TCP socket is not modelled (htons, inet_addr); SO_* options are not set by the code; strerror and the texts are reduced to which call is reported. *)
From Coq Require Import Ascii String.
From stdpp Require Import prelude.
From Verif Require Import Base Socket_Model.
Local Open Scope nat_scope.
(** ** Constructors *)
(** What the exception is about. *)
Inductive about := AbSocket | AbBind | AbListen | AbConnect | AbClose.
Inductive newout := NewOk (fd : Z) | NewThrew (what : about).
(** The system's side of a construction: socket() gives a descriptor or fails; each of the following calls (bind, listen; connect) succeeds or fails with an errno. *)
Inductive callres := CallOk | CallErr (e : errno).
(** The failure path: close(), then (if it returned) the throw of the call's own error; the base is constructed, so its destructor runs (unwinding) and, if the object still holds a
    descriptor, calls close() again, swallowing its exceptions (base_socket.cpp 30-51). Result: what the user's exception is about, and the number of calls of ::close.
    [a1] and [a2]: the system's answers to the ::close calls of the first and of the second close(); errno is the failed call's until a ::close fails. *)
Definition fail_path (what : about) (fd : Z) (e : errno) (a1 a2 : list clres) : about * nat :=
  let '(o, n, id) := base_close fd e a1 in
  let thrown := match o with ClReturned => what | _ => AbClose end in
  if decide (id = (-1)%Z) then (thrown, n)
  else let '(_, n2, _) := base_close id e a2 in (thrown, n + n2).
(** ServerSocket (both constructors: 24-47, 49-72) and ConnectSocket (both: 25-40, 42-55): the calls after socket(), each with what it is. Result: the outcome, the number of ::close calls. *)
Fixpoint construct_calls (fd : Z) (calls : list (about * callres)) (a1 a2 : list clres) : newout * nat :=
  match calls with
  | [] => (NewOk fd, 0)
  | (_, CallOk) :: r => construct_calls fd r a1 a2
  | (w, CallErr e) :: _ => let '(t, n) := fail_path w fd e a1 a2 in (NewThrew t, n)
  end.
(** base_socket.cpp 22-28: a failed socket() throws before there is an object. *)
Definition construct (sock : option Z) (calls : list (about * callres)) (a1 a2 : list clres) : newout * nat :=
  match sock with None => (NewThrew AbSocket, 0) | Some fd => construct_calls fd calls a1 a2 end.
Definition new_server (sock : option Z) (b l : callres) := construct sock [(AbBind, b); (AbListen, l)].
Definition new_client (sock : option Z) (c : callres) := construct sock [(AbConnect, c)].
(** ** The address of a local socket. server_socket.cpp 52-55, connect_socket.cpp 45-48: strncpy of at most 107 characters (sizeof sun_path = 108), up to the first NUL. *)
Fixpoint to_nul (l : list ascii) : list ascii := match l with [] => [] | c :: r => if ascii_dec c zero then [] else c :: to_nul r end.
Definition sun_path (path : list ascii) : list ascii := take 107 (to_nul path).
(** ** accept. 74-109. select answers ready, not ready (time-out), or fails (-1), in which case the set is left as it was, that is with the descriptor in it. FD_SETSIZE is 1024. *)
Inductive selres := SelReady | SelTimeout | SelFail.
Inductive accout := AccOut_of_bounds | AccMoved | AccTimedOut | AccErr (e : errno) | AccOk (fd : Z).
Definition sk_accept (fd : Z) (sel : selres) (acc : Z + errno) : accout :=
  if decide (fd = (-1)%Z) then AccMoved
  else if decide (1024 <= fd)%Z then AccOut_of_bounds        (* 91: FD_SET past the end of the set *)
  else match sel with
       | SelTimeout => AccTimedOut
       | SelReady | SelFail => match acc with inl fd' => if decide (fd' = (-1)%Z) then AccErr EOTHER else AccOk fd' | inr e => AccErr e end
       end.
