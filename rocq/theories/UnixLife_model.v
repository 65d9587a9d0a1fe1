(** Model of the life of a Unix socket transport ([scalopus_transport/src/transport_unix.cpp]) in terms of file
    descriptors: making it ([serve], [connect], the factory), passes of its worker, and destroying it.

    What system calls return is input.  Here only the control flow around them is of interest: what is sent and
    received is in [UnixSystem_model] and [UnixPass_model].
    Simplifications: [FD_SETSIZE] is not exceeded; [select] does not fail and reports no exceptional conditions (the
    case of a failing [select] is C50); the loop variable [running_], a plain [bool], is read as last written. *)
From Coq Require Import List Arith Bool.
Import ListNotations.

(** The thread of a transport. *)
Inductive thread := NotStarted | Working | InCall | Finished.   (* [InCall]: inside a system call that never returns *)

Record utransport := {
  u_server : nat;                (* [server_fd_], 0 initially (transport_unix.h line 88) *)
  u_client : nat;                (* [client_fd_], 0 initially (line 89) *)
  u_conns : list nat;            (* [connections_] *)
  u_running : bool;              (* [running_] *)
  u_thread : thread;
  u_listen : option nat;         (* not in the code: the listening socket *)
}.

Definition fresh : utransport := {| u_server := 0; u_client := 0; u_conns := []; u_running := false; u_thread := NotStarted; u_listen := None |}.

(** Results of the system calls when making a transport; [socket] gives a descriptor or fails. *)
Record calls := { c_socket : option nat; c_bind : bool; c_listen : bool; c_connect : bool }.

(** [serve], lines 49-98: success and the transport afterwards. A failed [socket] leaves -1 in [server_fd_], which no
    later step looks at before the transport is destroyed; the model leaves 0. *)
Definition u_serve (c : calls) : bool * utransport :=
  match c_socket c with
  | None => (false, fresh)
  | Some fd =>
      let failed := {| u_server := fd; u_client := 0; u_conns := []; u_running := false; u_thread := NotStarted; u_listen := None |} in
      if negb (c_bind c) then (false, failed)                        (* lines 74-78 *)
      else if negb (c_listen c) then (false, failed)                 (* lines 81-85 *)
      else (true, {| u_server := fd; u_client := 0; u_conns := [fd]; u_running := true; u_thread := Working; u_listen := Some fd |})
  end.

(** [connect], lines 100-136. *)
Definition u_connect (c : calls) : bool * utransport :=
  match c_socket c with
  | None => (false, fresh)
  | Some fd =>
      if negb (c_connect c) then (false, {| u_server := 0; u_client := fd; u_conns := []; u_running := false; u_thread := NotStarted; u_listen := None |})
      else (true, {| u_server := 0; u_client := fd; u_conns := [fd]; u_running := true; u_thread := Working; u_listen := None |})
  end.

(** The destructor, lines 204-216. [join] of a thread that was never started throws, and a destructor is [noexcept];
    [join] of a thread that is inside a call that never returns does not return either. Otherwise the thread ends
    and the connections are closed. *)
Inductive dres := Destroyed (closed : list nat) | DTerminate | DHangs.
Definition destroy (t : utransport) : dres :=
  match u_thread t with
  | NotStarted => DTerminate
  | InCall => DHangs
  | Working | Finished => Destroyed (u_conns t)
  end.

(** [TransportUnixFactory::serve] and [connect], lines 446-471: on failure the only reference to the transport goes out of
    scope before [nullptr] is returned. *)
Inductive fres := Got (t : utransport) | GotNull | FTerminate | FHangs.
Definition factory (made : bool * utransport) : fres :=
  if fst made then Got (snd made)
  else match destroy (snd made) with Destroyed _ => GotNull | DTerminate => FTerminate | DHangs => FHangs end.

(** ** A pass of the worker, lines 224-383 *)
Definition inb (fd : nat) (l : list nat) : bool := existsb (Nat.eqb fd) l.
Definition remove_fd (fd : nat) (l : list nat) : list nat := filter (fun x => negb (x =? fd)) l.

(** The environment of a pass: which of the descriptors are readable, what [accept] gives, and for each descriptor whether
    receiving a message from it succeeds. *)
Record world := { w_ready : list nat; w_accept : option nat; w_receives : nat -> bool }.

(** Lines 316-352 for one connection that is neither server nor client. *)
Definition serve_conn (w : world) (fd : nat) (t : utransport) : utransport :=
  if inb fd (w_ready w) && negb (w_receives w fd)
  then {| u_server := u_server t; u_client := u_client t; u_conns := remove_fd fd (u_conns t); u_running := u_running t; u_thread := u_thread t; u_listen := u_listen t |}
  else t.

(** Only descriptors in [connections_] are asked for and can be reported (lines 232-240). A listening socket cannot be read from. *)
Definition u_pass (w : world) (t : utransport) : utransport :=
  let ready fd := inb fd (w_ready w) && inb fd (u_conns t) in
  let w' := {| w_ready := filter (fun fd => inb fd (u_conns t)) (w_ready w); w_accept := w_accept w;
               w_receives := fun fd => w_receives w fd && negb (match u_listen t with Some l => fd =? l | None => false end) |} in
  match (if ready (u_server t)
         then match w_accept w with                                  (* lines 248-259 *)
              | None => None
              | Some c => Some {| u_server := u_server t; u_client := u_client t; u_conns := c :: u_conns t; u_running := u_running t; u_thread := u_thread t; u_listen := u_listen t |}
              end
         else Some t) with
  | None => t                                                        (* continue *)
  | Some t1 =>
      let t2 := if ready (u_client t) && negb (w_receives w' (u_client t))          (* lines 262-271 *)
                then {| u_server := u_server t1; u_client := 0; u_conns := u_conns t1; u_running := false; u_thread := u_thread t1; u_listen := u_listen t1 |}
                else t1 in
      let t3 := fold_left (fun t fd => if (fd =? u_server t) || (fd =? u_client t) then t else serve_conn w' fd t) (u_conns t2) t2 in
      {| u_server := u_server t3; u_client := u_client t3; u_conns := u_conns t3; u_running := u_running t3;
         u_thread := if u_running t3 then u_thread t3 else Finished; u_listen := u_listen t3 |}             (* line 225 *)
  end.

(** Passes follow each other while [running_]. *)
Fixpoint u_passes (ws : list world) (t : utransport) : utransport :=
  match ws with
  | [] => t
  | w :: ws' => match u_thread t with Working => u_passes ws' (u_pass w t) | _ => t end
  end.

(** [isConnected], lines 164-167. *)
Definition u_is_connected (t : utransport) : bool := negb (u_client t =? 0) || negb (u_server t =? 0).

(** [request] on a transport, lines 138-162, as far as the descriptor matters: [protocol::send] refuses descriptor 0
    (protocol.cpp lines 157-160), and then the future holds the error of line 153 and nothing is booked. *)
Inductive rres := RError | RTried.
Definition u_request (t : utransport) : rres := if u_client t =? 0 then RError else RTried.

(** ** Closing a connection while other threads of the process open files *)
(** The descriptor table of the process: which object an open descriptor refers to. [cut] are the objects [shutdown] was
    applied to. Lines 211-215, 343-345 and 350-352 first close a descriptor and then call [shutdown] on its number. *)
Record fdtable := { ft_open : list (nat * nat); ft_cut : list nat }.

Definition ft_lookup (fd : nat) (f : fdtable) : option nat :=
  match find (fun e => fst e =? fd) (ft_open f) with Some e => Some (snd e) | None => None end.

Inductive fdcall := FClose (fd : nat) | FShutdown (fd : nat) | FOpen (obj : nat).

(** A new descriptor is the lowest free number. *)
Fixpoint lowest (n : nat) (fuel : nat) (used : list nat) : nat :=
  match fuel with
  | 0 => n
  | S k => if inb n used then lowest (S n) k used else n
  end.

Definition fd_step (c : fdcall) (f : fdtable) : fdtable :=
  match c with
  | FClose fd => {| ft_open := filter (fun e => negb (fst e =? fd)) (ft_open f); ft_cut := ft_cut f |}
  | FShutdown fd => {| ft_open := ft_open f; ft_cut := match ft_lookup fd f with Some o => o :: ft_cut f | None => ft_cut f end |}
  | FOpen o => {| ft_open := (lowest 0 (length (ft_open f)) (map fst (ft_open f)), o) :: ft_open f; ft_cut := ft_cut f |}
  end.

(** Dropping connection [fd], with what other threads do before, between and after its two calls. *)
Definition drop_connection (fd : nat) (before between after : list nat) (f : fdtable) : fdtable :=
  fold_left (fun f c => fd_step c f) (map FOpen before ++ [FClose fd] ++ map FOpen between ++ [FShutdown fd] ++ map FOpen after) f.

(** ** Endpoints and the transport they belong to *)
(** An endpoint keeps a plain pointer to its transport ([endpoint.h] line 90, set by [addEndpoint], transport.cpp line 63, or
    [setTransport], endpoint.cpp lines 44-51); nothing resets it when the transport is destroyed. Using an endpoint (for
    example [EndpointIntrospect::supported], endpoint_introspect.cpp lines 58-75) throws if the pointer is null and
    otherwise calls through it. *)
Record world_ep := { we_alive : list nat; we_ptr : list (nat * nat) }.   (* live transports; endpoint, its transport *)
Inductive ep_op := EpNewTransport (t : nat) | EpAttach (e t : nat) | EpDestroy (t : nat) | EpUse (e : nat).
Inductive ep_res := EpOk (w : world_ep) | EpThrows (w : world_ep) | EpUB | EpImpossible.

Definition ep_step (o : ep_op) (w : world_ep) : ep_res :=
  match o with
  | EpNewTransport t => if inb t (we_alive w) then EpImpossible else EpOk {| we_alive := t :: we_alive w; we_ptr := we_ptr w |}
  | EpAttach e t => if inb t (we_alive w) then EpOk {| we_alive := we_alive w; we_ptr := (e, t) :: we_ptr w |} else EpImpossible
  | EpDestroy t => if inb t (we_alive w) then EpOk {| we_alive := remove_fd t (we_alive w); we_ptr := we_ptr w |} else EpImpossible
  | EpUse e => match find (fun p => fst p =? e) (we_ptr w) with
               | None => EpThrows w
               | Some (_, t) => if inb t (we_alive w) then EpOk w else EpUB
               end
  end.

Fixpoint ep_run (os : list ep_op) (w : world_ep) : ep_res :=
  match os with
  | [] => EpOk w
  | o :: os' => match ep_step o w with EpOk w' | EpThrows w' => ep_run os' w' | r => r end
  end.
Definition ep0 : world_ep := {| we_alive := []; we_ptr := [] |}.
