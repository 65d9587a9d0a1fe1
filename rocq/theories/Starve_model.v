(** The worker of a transport among threads that broadcast (C108).
    [/repo/scalopus_transport/src/transport_unix.cpp] lines 218-383 (server), [/repo/scalopus_transport/src/transport_loopback.cpp] lines 81-147,
    [/repo/scalopus_interface/src/transport.cpp] lines 39-57, destructors: transport_unix.cpp lines 204-216, transport_loopback.cpp lines 41-45. *)
From Coq Require Import List Arith Bool.
Import ListNotations.

(** Simplified: a message is a number. Broadcasts are numbered as they are made. Sending does not block (C49, C88 are about that), all connections are good and
    descriptors are free (C09), no handler throws. One step of the worker is what it does between two looks at something other threads change: at [running_], at
    the sockets (or the list of requests), at the queue of broadcasts. *)
Inductive kind := Unix | Loopback.
Inductive wpc :=
  | AtWhile                    (* while (running_): unix line 226, loopback line 83 *)
  | AtServe                    (* select and all it leads to: unix lines 228-346; the requests: loopback lines 86-118 *)
  | AtHave                     (* while (haveBroadcast()): unix line 349, loopback line 122 *)
  | AtPop                      (* popBroadcast: unix line 351, loopback line 124 *)
  | AtSend (x : nat)           (* to all clients: unix lines 352-364, loopback lines 125-144 *)
  | AtClean                    (* dropped requests: unix lines 366-382; the sleep: loopback line 146 *)
  | Ended.
Record worker := {
  k_running : bool;                 (* [running_] *)
  k_pc : wpc;
  k_queue : list nat;               (* [broadcast_messages_], the newest last *)
  k_next : nat;                     (* how many broadcasts were made *)
  k_sent : list nat;                (* broadcasts handed to the clients, in order *)
  k_in : list (list nat);           (* requests that wait, for each connection, the oldest first *)
  k_done : list nat                 (* requests that were handled *)
}.
Definition worker0 (conns : nat) : worker :=
  {| k_running := true; k_pc := AtWhile; k_queue := []; k_next := 0; k_sent := []; k_in := repeat [] conns; k_done := [] |}.

Inductive label :=
  | Cast                            (* some thread calls [broadcast], transport.cpp lines 39-43 *)
  | Ask (c r : nat)                 (* request [r] comes in on connection [c] *)
  | Stop                            (* the destructor begins: running_ = false; it then waits for the worker to end *)
  | Work.                           (* a step of the worker *)
Inductive outcome := Next (s : worker) | Undefined | Impossible.

Definition goto (p : wpc) (s : worker) : worker :=
  {| k_running := k_running s; k_pc := p; k_queue := k_queue s; k_next := k_next s; k_sent := k_sent s; k_in := k_in s; k_done := k_done s |}.
(** A pass takes one message from each connection of a Unix server (lines 308-339); the loopback worker takes all (lines 88-117). *)
Definition taken (k : kind) (l : list nat) : list nat := match k with Unix => firstn 1 l | Loopback => l end.
Definition left_over (k : kind) (l : list nat) : list nat := match k with Unix => skipn 1 l | Loopback => [] end.
Fixpoint put (c r : nat) (l : list (list nat)) : list (list nat) :=
  match l, c with
  | [], _ => []
  | x :: l', 0 => (x ++ [r]) :: l'
  | x :: l', S c' => x :: put c' r l'
  end.

Definition step (k : kind) (l : label) (s : worker) : outcome :=
  match l with
  | Cast => Next {| k_running := k_running s; k_pc := k_pc s; k_queue := k_queue s ++ [k_next s]; k_next := S (k_next s); k_sent := k_sent s; k_in := k_in s; k_done := k_done s |}
  | Ask c r => Next {| k_running := k_running s; k_pc := k_pc s; k_queue := k_queue s; k_next := k_next s; k_sent := k_sent s; k_in := put c r (k_in s); k_done := k_done s |}
  | Stop => Next {| k_running := false; k_pc := k_pc s; k_queue := k_queue s; k_next := k_next s; k_sent := k_sent s; k_in := k_in s; k_done := k_done s |}
  | Work =>
      match k_pc s with
      | AtWhile => Next (goto (if k_running s then AtServe else Ended) s)
      | AtServe => Next {| k_running := k_running s; k_pc := AtHave; k_queue := k_queue s; k_next := k_next s; k_sent := k_sent s;
                           k_in := map (left_over k) (k_in s); k_done := k_done s ++ flat_map (taken k) (k_in s) |}
      | AtHave => Next (goto (match k_queue s with [] => AtClean | _ => AtPop end) s)
      | AtPop =>                                                   (* back() and pop_back() of an empty vector are undefined *)
          match rev (k_queue s) with
          | x :: r => Next {| k_running := k_running s; k_pc := AtSend x; k_queue := rev r; k_next := k_next s; k_sent := k_sent s; k_in := k_in s; k_done := k_done s |}
          | [] => Undefined
          end
      | AtSend x => Next {| k_running := k_running s; k_pc := AtHave; k_queue := k_queue s; k_next := k_next s; k_sent := k_sent s ++ [x]; k_in := k_in s; k_done := k_done s |}
      | AtClean => Next (goto AtWhile s)
      | Ended => Impossible
      end
  end.
Fixpoint run (k : kind) (ls : list label) (s : worker) : outcome :=
  match ls with
  | [] => Next s
  | l :: ls' => match step k l s with Next s' => run k ls' s' | o => o end
  end.
