(** The thread of the viewer's server and the workers of its sessions, with the time they take (C111).
    /repo/scalopus_catapult/src/catapult_backend.cpp lines 92-177 and trace_session.cpp lines 36-92; destructor: lines 41-45.

    The web server (seasocks, not in /repo) has one thread, which calls the handlers of [CatapultBackend] one after the other in the order of what
    happens, and runs what was given to its [execute] in between. A session has a worker thread of its own.
    Simplified: time is counted in milliseconds; a handler takes no time unless it waits for a worker; who handles a message or works for the sources takes
    any time, given with the message or with the step; who can go on does so before time passes ([Tick]). What messages say is in [Session_model.v]. *)
From Coq Require Import List Arith Bool.
Import ListNotations.

Inductive event :=
  | Connect                        (* [onConnect], lines 92-96: a new viewer; viewers are numbered in this order *)
  | Data (v d : nat)               (* [onData], lines 103-114: a message of viewer [v], which takes [d] ms to handle *)
  | Close (v : nat)                (* [onDisconnect], lines 116-120 *)
  | Reply (v : nat)                (* the function a worker gave to [execute], catapult_backend.cpp lines 153-165 *)
  | Page.                          (* [handle], lines 53-90 *)

(** The worker, [TraceSession::loop], trace_session.cpp lines 72-92. *)
Inductive wpc :=
  | AtTop                          (* while (running_), line 74 *)
  | AtMore                         (* while (haveIncoming() && running_), line 77 *)
  | InMessage (n : nat)            (* [processMessage], line 79: [n] ms to go *)
  | InWork (n : nat)               (* [work] of the sources, lines 83-86 *)
  | InSleep (n : nat)              (* line 90 *)
  | Ended.
Record session := { se_running : bool; se_in : list nat (* [incoming_msg_]: how long each takes *); se_pc : wpc }.

(** What the thread of the server does: nothing, or it waits for the worker of a session that is destroyed ([worker_.join()], trace_session.cpp line 44, called
    by [erase] in [delSession], catapult_backend.cpp line 140). *)
Inductive server := Free | Joining (v : nat).

Record state := {
  now : nat;
  srv : server;
  inbox : list (event * nat);      (* what has happened and is not handled yet, with the time when it happened *)
  sessions : list session;
  handled : list (event * nat * nat)   (* what the server has begun to handle: when it happened, when it was begun *)
}.
Definition state0 : state := {| now := 0; srv := Free; inbox := []; sessions := []; handled := [] |}.

Inductive label :=
  | Arrive (e : event)             (* something happens *)
  | Serve                          (* the server takes the next *)
  | Joined                         (* the worker it waits for has ended *)
  | Step (v w : nat)               (* a step of the worker of viewer [v]; if it now works for the sources this takes [w] ms *)
  | Tick.                          (* a millisecond passes *)

Definition set_session (v : nat) (x : session) (l : list session) : list session := firstn v l ++ x :: skipn (S v) l.
Definition with_pc (p : wpc) (x : session) : session := {| se_running := se_running x; se_in := se_in x; se_pc := p |}.
Definition put (e : event) (s : state) : state :=
  {| now := now s; srv := srv s; inbox := inbox s ++ [(e, now s)]; sessions := sessions s; handled := handled s |}.
Definition with_sessions (l : list session) (s : state) : state :=
  {| now := now s; srv := srv s; inbox := inbox s; sessions := l; handled := handled s |}.
Definition with_srv (r : server) (s : state) : state :=
  {| now := now s; srv := r; inbox := inbox s; sessions := sessions s; handled := handled s |}.

(** The handlers. A session whose [running_] is false is no longer in [sessions_]: nothing is done for it. *)
Definition handle (e : event) (s : state) : state :=
  match e with
  | Connect => with_sessions (sessions s ++ [{| se_running := true; se_in := []; se_pc := AtTop |}]) s
  | Data v d => match nth_error (sessions s) v with
                | Some x => if se_running x then with_sessions (set_session v {| se_running := true; se_in := se_in x ++ [d]; se_pc := se_pc x |} (sessions s)) s else s
                | None => s
                end
  | Close v => match nth_error (sessions s) v with
               | Some x => if se_running x then with_srv (Joining v) (with_sessions (set_session v {| se_running := false; se_in := se_in x; se_pc := se_pc x |} (sessions s)) s) else s
               | None => s
               end
  | Reply _ | Page => s
  end.

(** A step of a worker: where it goes, and whether it has something for the viewer. *)
Definition work (w : nat) (x : session) : option (session * bool) :=
  match se_pc x with
  | AtTop => Some (with_pc (if se_running x then AtMore else Ended) x, false)
  | AtMore => match se_running x, se_in x with
              | true, d :: r => Some ({| se_running := true; se_in := r; se_pc := InMessage d |}, false)
              | _, _ => Some (with_pc (InWork w) x, false)
              end
  | InMessage 0 => Some (with_pc AtMore x, true)
  | InWork 0 => Some (with_pc (InSleep 10) x, false)
  | InSleep 0 => Some (with_pc AtTop x, false)
  | _ => None
  end.

(** A millisecond passes for a worker. *)
Definition later (x : session) : option session :=
  match se_pc x with
  | InMessage (S n) => Some (with_pc (InMessage n) x)
  | InWork (S n) => Some (with_pc (InWork n) x)
  | InSleep (S n) => Some (with_pc (InSleep n) x)
  | Ended => Some x
  | _ => None
  end.
Fixpoint all_later (l : list session) : option (list session) :=
  match l with
  | [] => Some []
  | x :: l' => match later x, all_later l' with Some y, Some r => Some (y :: r) | _, _ => None end
  end.
Definition server_waits (s : state) : bool :=
  match srv s with
  | Free => match inbox s with [] => true | _ => false end
  | Joining v => match nth_error (sessions s) v with Some x => match se_pc x with Ended => false | _ => true end | None => false end
  end.

Definition step (l : label) (s : state) : option state :=
  match l with
  | Arrive (Reply _) => None
  | Arrive e => Some (put e s)
  | Serve => match srv s, inbox s with
             | Free, (e, a) :: r => Some (handle e {| now := now s; srv := Free; inbox := r; sessions := sessions s; handled := handled s ++ [(e, a, now s)] |})
             | _, _ => None
             end
  | Joined => match srv s with
              | Joining v => if server_waits s then None else Some (with_srv Free s)
              | Free => None
              end
  | Step v w => match nth_error (sessions s) v with
                | Some x => match work w x with
                            | Some (y, b) => let s' := with_sessions (set_session v y (sessions s)) s in Some (if b then put (Reply v) s' else s')
                            | None => None
                            end
                | None => None
                end
  | Tick => if server_waits s then
              match all_later (sessions s) with
              | Some l => Some {| now := S (now s); srv := srv s; inbox := inbox s; sessions := l; handled := handled s |}
              | None => None
              end
            else None
  end.
Fixpoint run (ls : list label) (s : state) : option state :=
  match ls with [] => Some s | l :: ls' => match step l s with Some s' => run ls' s' | None => None end end.
