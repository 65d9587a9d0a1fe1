(** The polling of the endpoint manager among processes that stand still, with the time it takes (C113).
    /repo/scalopus_general/src/endpoint_manager_poll.cpp lines 53-122 ([manage], [connect]), endpoint_introspect.cpp lines 58-75 ([supported]) and
    /repo/scalopus_transport/src/transport_unix.cpp lines 81 (listen with a backlog of 5), 100-136 ([connect]), 457-471 ([TransportUnixFactory::connect]).

    The kernel (unix_stream_connect): connect on a listening socket waits, without a limit, while more than [backlog] connections are not accepted yet, whatever
    became of those that made them; it fails when the socket is closed.
    Simplified: time is counted in milliseconds; what is sent over a connection and which endpoints are made of an answer is in [Manager_model.v] and
    [UnixSystem_model.v]; a server that runs accepts without time passing while the manager waits for it, and answers at any time, or not at all; the connections of other processes are only those in the queues. *)
From Coq Require Import List Arith Bool.
Import ListNotations.

Inductive up := Runs | Stands | Gone.                              (* stands still: SIGSTOP, a debugger, a worker thread that is held up *)
Record server := { sv_up : up; sv_queue : list bool }.             (* connections not accepted yet, [true]: that of the manager *)
Definition backlog : nat := 5.                                     (* transport_unix.cpp line 81 *)
Definition has_room (x : server) : bool := length (sv_queue x) <=? backlog.
Definition alive (x : server) : bool := match sv_up x with Gone => false | _ => true end.

(** [manage], under [mutex_]. *)
Inductive mpc :=
  | Idle                                  (* the mutex is free *)
  | Next (todo : list nat)                (* loop of lines 72-75, line 80 *)
  | Waits (p : nat) (todo : list nat)     (* in ::connect, transport_unix.cpp line 121 *)
  | Asks (p n : nat) (todo : list nat)    (* in [supported], [n] of the 200 ms are left *)
  | Crashed.                              (* the transport that was not made: see [TransportUnixFactory::connect], and [connect] line 87 *)
Record state := { now : nat; servers : list server; man : mpc; held : list nat; answered : list nat }.
Definition state0 (n : nat) : state := {| now := 0; servers := repeat {| sv_up := Runs; sv_queue := [] |} n; man := Idle; held := []; answered := [] |}.

Inductive label :=
  | Poll (found : list nat)     (* a poll begins; what was discovered, in this order *)
  | Go                          (* the polling thread goes on *)
  | Answer                      (* the answer it waits for comes *)
  | Accept (p : nat)            (* server [p] accepts a connection *)
  | Visit (p : nat)             (* another process connects to server [p] *)
  | Stop (p : nat) | Resume (p : nat) | Die (p : nat)
  | Tick.

Definition set_server (p : nat) (x : server) (l : list server) : list server := firstn p l ++ x :: skipn (S p) l.
Definition with_server (p : nat) (x : server) (s : state) : state :=
  {| now := now s; servers := set_server p x (servers s); man := man s; held := held s; answered := answered s |}.
Definition with_man (m : mpc) (s : state) : state := {| now := now s; servers := servers s; man := m; held := held s; answered := answered s |}.
Definition is_alive (s : state) (p : nat) : bool := match nth_error (servers s) p with Some x => alive x | None => false end.

Definition go (s : state) : option state :=
  match man s with
  | Next [] => Some (with_man Idle s)
  | Next (p :: todo) => Some (with_man (if existsb (Nat.eqb p) (held s) then Next todo else Waits p todo) s)
  | Waits p todo =>
      match nth_error (servers s) p with
      | Some x => if alive x then
                    if has_room x then Some {| now := now s; servers := set_server p {| sv_up := sv_up x; sv_queue := sv_queue x ++ [true] |} (servers s); man := Asks p 200 todo;
                                               held := held s ++ [p]; answered := answered s |}
                    else None
                  else Some (with_man Crashed s)
      | None => None
      end
  | Asks p 0 todo => Some (with_man (Next todo) s)
  | _ => None
  end.

Definition step (l : label) (s : state) : option state :=
  match l with
  | Poll found => match man s with
                  | Idle => if forallb (is_alive s) found
                            then Some {| now := now s; servers := servers s; man := Next found; held := filter (is_alive s) (held s); answered := answered s |} else None
                  | _ => None
                  end
  | Go => go s
  | Answer => match man s with
              | Asks p _ todo => match nth_error (servers s) p with
                                 | Some x => match sv_up x with
                                             | Runs => if existsb (fun b => b) (sv_queue x) then None
                                                       else Some {| now := now s; servers := servers s; man := Next todo; held := held s; answered := answered s ++ [p] |}
                                             | _ => None
                                             end
                                 | None => None
                                 end
              | _ => None
              end
  | Accept p => match nth_error (servers s) p with
                | Some x => match sv_up x, sv_queue x with Runs, _ :: q => Some (with_server p {| sv_up := Runs; sv_queue := q |} s) | _, _ => None end
                | None => None
                end
  | Visit p => match nth_error (servers s) p with
               | Some x => if alive x && has_room x then Some (with_server p {| sv_up := sv_up x; sv_queue := sv_queue x ++ [false] |} s) else None
               | None => None
               end
  | Stop p => match nth_error (servers s) p with
              | Some x => match sv_up x with Runs => Some (with_server p {| sv_up := Stands; sv_queue := sv_queue x |} s) | _ => None end
              | None => None
              end
  | Resume p => match nth_error (servers s) p with
                | Some x => match sv_up x with Stands => Some (with_server p {| sv_up := Runs; sv_queue := sv_queue x |} s) | _ => None end
                | None => None
                end
  | Die p => match nth_error (servers s) p with
             | Some x => if alive x then Some (with_server p {| sv_up := Gone; sv_queue := [] |} s) else None
             | None => None
             end
  | Tick => let later m := Some {| now := S (now s); servers := servers s; man := m; held := held s; answered := answered s |} in
            match man s with
            | Idle => later Idle
            | Asks p (S n) todo => later (Asks p n todo)
            | Waits p todo => match nth_error (servers s) p with
                              | Some x => match sv_up x with Stands => if has_room x then None else later (man s) | _ => None end
                              | None => None
                              end
            | _ => None
            end
  end.
Fixpoint run (ls : list label) (s : state) : option state :=
  match ls with [] => Some s | l :: ls' => match step l s with Some s' => run ls' s' | None => None end end.
