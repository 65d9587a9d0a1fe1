(** Model of the descriptors behind the servers and connections of [scalopus_transport/src/transport_unix.cpp], and of
    what child processes do to them.

    [socket] at lines 52 and 102 and [accept] at line 251 are called without [SOCK_CLOEXEC], and [FD_CLOEXEC] is set
    nowhere in /repo, so every process started from one that holds a socket ([fork], with or without [exec] afterwards;
    [system]; the babeltrace of [subprocess.hpp] line 99; [multiprocessing] in Python) holds it too.  The kernel gives up
    a socket when the last descriptor for it is closed.

    Processes, listening sockets and connections are numbered in the order they are made.  Simplifications: [serve] is
    one step (lines 49-98), so is [connect] (lines 100-134) and each turn of the worker thread that takes a connection in
    or gives one up; the data on the connections is left out; waiting connections are taken in in any order; a child that
    closes what it inherited, such as one started with the [close_fds] of Python's [subprocess], is a [Start]. *)
From Coq Require Import List Arith Bool.
Import ListNotations.
From Verif Require Import UnixSystem_model.

(** What a descriptor can stand for: a listening socket, or an end of a connection. *)
Inductive obj := Listener (l : nat) | ClientEnd (c : nat) | ServerEnd (c : nat).
Definition obj_eqb (a b : obj) : bool :=
  match a, b with
  | Listener x, Listener y | ClientEnd x, ClientEnd y | ServerEnd x, ServerEnd y => x =? y
  | _, _ => false
  end.

(** A process: its number, whether it runs, the process it was forked from, and what its descriptors stand for. *)
Record proc := { p_pid : nat; p_alive : bool; p_parent : option nat; p_fds : list obj }.
(** A server: the number in its name (lines 64-66), the process that made it, whether the transport exists. *)
Record server := { s_pid : nat; s_maker : nat; s_up : bool }.
(** A connection: waiting to be accepted, accepted, given up by the server. [c_open]: the transport of the client exists. *)
Inductive stage := Waiting | Taken | Closed.
Record conn := { c_server : nat; c_client : nat; c_open : bool; c_stage : stage }.
Record world := { w_procs : list proc; w_servers : list server; w_conns : list conn }.
Definition world0 : world := {| w_procs := []; w_servers := []; w_conns := [] |}.

Definition has (o : obj) (p : proc) : bool := existsb (obj_eqb o) (p_fds p).
Definition held (o : obj) (w : world) : bool := existsb (has o) (w_procs w).
Definition alive (w : world) (p : nat) : bool := match nth_error (w_procs w) p with Some x => p_alive x | None => false end.

Definition with_fds (f : list obj -> list obj) (p : proc) : proc :=
  {| p_pid := p_pid p; p_alive := p_alive p; p_parent := p_parent p; p_fds := f (p_fds p) |}.
(** Process [p] changes its descriptors. *)
Definition fds (p : nat) (f : list obj -> list obj) (w : world) : list proc :=
  match nth_error (w_procs w) p with Some x => set_nth p (with_fds f x) (w_procs w) | None => w_procs w end.
Definition without (o : obj) (l : list obj) : list obj := filter (fun x => negb (obj_eqb o x)) l.

(** The listening socket bound to the name of [pid], for [bind] (line 73), [connect] (line 121) and /proc/net/unix (lines
    168-199). *)
Definition bound (pid : nat) (w : world) : option nat :=
  find (fun l => match nth_error (w_servers w) l with Some s => (s_pid s =? pid) && held (Listener l) w | None => false end)
       (seq 0 (length (w_servers w))).

(** The number of connections that wait at server [l]. [listen(fd, 5)], line 80: the kernel lets [connect] wait when more
    than five are there. *)
Definition queue (l : nat) (w : world) : nat :=
  length (filter (fun c => match c_stage c with Waiting => c_server c =? l | _ => false end) (w_conns w)).
Definition full (l : nat) (w : world) : bool := 5 <? queue l w.

(** What [connect] to [pid] does: it fails, it waits, or it makes a connection to a server. *)
Inductive reached := Refused | Blocks | Reaches (l : nat).
Definition connecting (pid : nat) (w : world) : reached :=
  match bound pid w with None => Refused | Some l => if full l w then Blocks else Reaches l end.

Inductive label :=
  | Start (pid : nat)               (* a process comes from elsewhere *)
  | Fork (p pid : nat)              (* process p makes a child *)
  | End (p : nat)                   (* process p ends, in whatever way *)
  | Serve (p : nat)                 (* process p calls serve *)
  | Connect (p pid : nat)           (* process p calls connect, which returns *)
  | Accept (c : nat)                (* lines 248-258 *)
  | Hangup (c : nat)                (* lines 332-339: the server reads the end of connection c *)
  | Destroy (l : nat)               (* the transport of server l is destroyed, lines 203-217 *)
  | Leave (c : nat).                (* the transport of the client of c is destroyed, lines 203-217 *)

(** No living process has the number [pid]. *)
Definition free (pid : nat) (w : world) : bool := negb (existsb (fun p => p_alive p && (p_pid p =? pid)) (w_procs w)).

(** The ends of connections accepted by server [l]. *)
Definition of_server (w : world) (l : nat) (o : obj) : bool :=
  match o with
  | Listener k => k =? l
  | ServerEnd c => match nth_error (w_conns w) c with Some x => c_server x =? l | None => false end
  | ClientEnd _ => false
  end.

Definition set_stage (st : stage) (x : conn) : conn := {| c_server := c_server x; c_client := c_client x; c_open := c_open x; c_stage := st |}.

Definition step (a : label) (w : world) : option world :=
  match a with
  | Start pid =>
      if free pid w then Some {| w_procs := w_procs w ++ [{| p_pid := pid; p_alive := true; p_parent := None; p_fds := [] |}]; w_servers := w_servers w; w_conns := w_conns w |}
      else None
  | Fork p pid =>
      match nth_error (w_procs w) p with
      | Some x => if p_alive x && free pid w then
                    Some {| w_procs := w_procs w ++ [{| p_pid := pid; p_alive := true; p_parent := Some p; p_fds := p_fds x |}]; w_servers := w_servers w; w_conns := w_conns w |}
                  else None
      | None => None
      end
  | End p =>
      match nth_error (w_procs w) p with
      | Some x => if p_alive x then
                    Some {| w_procs := set_nth p {| p_pid := p_pid x; p_alive := false; p_parent := p_parent x; p_fds := [] |} (w_procs w);
                            w_servers := w_servers w; w_conns := w_conns w |}
                  else None
      | None => None
      end
  | Serve p =>
      match nth_error (w_procs w) p with
      | Some x =>
          if p_alive x then
            match bound (p_pid x) w with
            | Some _ => Some w                                             (* lines 73-77: [serve] returns false *)
            | None => Some {| w_procs := fds p (cons (Listener (length (w_servers w)))) w;
                              w_servers := w_servers w ++ [{| s_pid := p_pid x; s_maker := p; s_up := true |}]; w_conns := w_conns w |}
            end
          else None
      | None => None
      end
  | Connect p pid =>
      if alive w p then
        match connecting pid w with
        | Refused => Some w                                                (* lines 121-125 *)
        | Blocks => None
        | Reaches l => Some {| w_procs := fds p (cons (ClientEnd (length (w_conns w)))) w; w_servers := w_servers w;
                               w_conns := w_conns w ++ [{| c_server := l; c_client := p; c_open := true; c_stage := Waiting |}] |}
        end
      else None
  | Accept c =>
      match nth_error (w_conns w) c with
      | Some x =>
          match c_stage x, nth_error (w_servers w) (c_server x) with
          | Waiting, Some s =>
              if s_up s && alive w (s_maker s) then
                Some {| w_procs := fds (s_maker s) (cons (ServerEnd c)) w; w_servers := w_servers w; w_conns := set_nth c (set_stage Taken x) (w_conns w) |}
              else None
          | _, _ => None
          end
      | None => None
      end
  | Hangup c =>
      match nth_error (w_conns w) c with
      | Some x =>
          match c_stage x, nth_error (w_servers w) (c_server x) with
          | Taken, Some s =>
              if s_up s && alive w (s_maker s) && negb (held (ClientEnd c) w) then
                Some {| w_procs := fds (s_maker s) (without (ServerEnd c)) w; w_servers := w_servers w; w_conns := set_nth c (set_stage Closed x) (w_conns w) |}
              else None
          | _, _ => None
          end
      | None => None
      end
  | Destroy l =>
      match nth_error (w_servers w) l with
      | Some s => if s_up s && alive w (s_maker s) then
                    Some {| w_procs := fds (s_maker s) (filter (fun o => negb (of_server w l o))) w;
                            w_servers := set_nth l {| s_pid := s_pid s; s_maker := s_maker s; s_up := false |} (w_servers w); w_conns := w_conns w |}
                  else None
      | None => None
      end
  | Leave c =>
      match nth_error (w_conns w) c with
      | Some x => if c_open x && alive w (c_client x) then
                    Some {| w_procs := fds (c_client x) (without (ClientEnd c)) w; w_servers := w_servers w;
                            w_conns := set_nth c {| c_server := c_server x; c_client := c_client x; c_open := false; c_stage := c_stage x |} (w_conns w) |}
                  else None
      | None => None
      end
  end.

Fixpoint run (h : list label) (w : world) : option world :=
  match h with
  | [] => Some w
  | a :: h' => match step a w with Some w' => run h' w' | None => None end
  end.

(** What discovery lists, lines 165-201: the names in /proc/net/unix. *)
Definition discovered (w : world) : list nat :=
  flat_map (fun l => match nth_error (w_servers w) l with Some s => if held (Listener l) w then [s_pid s] else [] | None => [] end)
           (seq 0 (length (w_servers w))).

(** The server's end of connection [c] exists: a waiting one goes when the listening socket goes. *)
Definition server_end (w : world) (c : nat) : bool :=
  match nth_error (w_conns w) c with
  | Some x => match c_stage x with Waiting => held (Listener (c_server x)) w | _ => held (ServerEnd c) w end
  | None => false
  end.
