(** The polling of the endpoint manager, started and stopped by calls of any threads, with the time it takes (C112).
    /repo/scalopus_general/src/endpoint_manager_poll.cpp lines 48-51 (destructor) and 124-147; the members: endpoint_manager_poll.h lines 112-114.

    Simplified: time is counted in milliseconds and intervals are whole numbers of them; a poll ([manage], line 144) takes any time, given with the step that
    begins it, and what it does is in [Manager_model.v]; who can go on does so before time passes ([Tick]). The members [is_polling_] and
    [poll_interval_] are no atomics in the code: here each access is one step, what a race on them may do besides is C74. Calls after the destructor
    are possible here and do what they would do on the members. *)
From Coq Require Import List Arith Bool.
Import ListNotations.

Inductive what := Start (i : nat) | Stop | Destroy.

(** Where a call is. *)
Inductive cpc :=
  | AtTest                 (* if (is_polling_), line 134 *)
  | AtClear                (* is_polling_ = false, line 136 *)
  | AtJoin                 (* thread_.join(), line 137: about to *)
  | InJoin (w : nat)       (* waits for thread [w] *)
  | AtSet (i : nat)        (* lines 127-128 *)
  | AtCreate               (* line 129 *)
  | Returned (t : nat)     (* at time [t] *)
  | Threw.                 (* [std::system_error] *)
Record call := { ca_what : what; ca_begin : nat; ca_pc : cpc }.

(** The polling thread, lines 140-147. *)
Inductive wpc := WTest | WPoll (n : nat) | WSleep (n : nat) | WEnded.

(** What ends the program: [std::terminate], or two threads that join the same one (undefined). *)
Inductive how := Terminated | Undefined.
Record state := { now : nat; on : bool; interval : nat; thread : option nat; workers : list wpc; calls : list call; polls : list nat; over : option how }.
Definition state0 : state := {| now := 0; on := false; interval := 1000; thread := None; workers := []; calls := []; polls := []; over := None |}.

Inductive label :=
  | Call (c : what)            (* a thread calls it *)
  | Do (k : nat)               (* call number [k] goes on *)
  | Work (w m : nat)           (* polling thread number [w] goes on; a poll that begins takes [m] *)
  | Inside (w : nat) (c : what) (* within a poll of thread [w], a logger or a factory calls it *)
  | Tick.

Definition put {A} (k : nat) (x : A) (l : list A) : list A := firstn k l ++ x :: skipn (S k) l.
Definition with_calls (l : list call) (s : state) : state :=
  {| now := now s; on := on s; interval := interval s; thread := thread s; workers := workers s; calls := l; polls := polls s; over := over s |}.
Definition with_workers (l : list wpc) (s : state) : state :=
  {| now := now s; on := on s; interval := interval s; thread := thread s; workers := l; calls := calls s; polls := polls s; over := over s |}.
Definition with_on (b : bool) (s : state) : state :=
  {| now := now s; on := b; interval := interval s; thread := thread s; workers := workers s; calls := calls s; polls := polls s; over := over s |}.
Definition with_interval (i : nat) (s : state) : state :=
  {| now := now s; on := on s; interval := i; thread := thread s; workers := workers s; calls := calls s; polls := polls s; over := over s |}.
Definition with_thread (t : option nat) (s : state) : state :=
  {| now := now s; on := on s; interval := interval s; thread := t; workers := workers s; calls := calls s; polls := polls s; over := over s |}.
Definition ended (h : how) (s : state) : state :=
  {| now := now s; on := on s; interval := interval s; thread := thread s; workers := workers s; calls := calls s; polls := polls s; over := Some h |}.
Definition goes (k : nat) (x : call) (p : cpc) (s : state) : state :=
  with_calls (put k {| ca_what := ca_what x; ca_begin := ca_begin x; ca_pc := p |} (calls s)) s.

(** [thread_ = std::thread(...)], line 129: a thread that can be joined and is assigned to ends the program. *)
Definition create (s : state) : state :=
  match thread s with Some _ => ended Terminated s | None => with_thread (Some (length (workers s))) (with_workers (workers s ++ [WTest]) s) end.
(** After [stopPolling]: line 127, or the end of the call; the destructor of [thread_] ends the program if it can still be joined. *)
Definition stopped (k : nat) (x : call) (s : state) : state :=
  match ca_what x with
  | Start i => goes k x (AtSet i) s
  | Stop => goes k x (Returned (now s)) s
  | Destroy => match thread s with Some _ => ended Terminated s | None => goes k x (Returned (now s)) s end
  end.
Definition is_in_join (c : call) : bool := match ca_pc c with InJoin _ => true | _ => false end.
Definition go (k : nat) (x : call) (s : state) : option state :=
  match ca_pc x with
  | AtTest => Some (if on s then goes k x AtClear s else stopped k x s)
  | AtClear => Some (goes k x AtJoin (with_on false s))
  | AtJoin => match thread s with
              | None => Some (goes k x Threw s)
              | Some w => Some (if existsb is_in_join (calls s) then ended Undefined s else goes k x (InJoin w) s)
              end
  | InJoin w => match nth_error (workers s) w with
                | Some WEnded => Some (stopped k x (with_thread None s))
                | _ => None
                end
  | AtSet i => Some (goes k x AtCreate (with_interval i (with_on true s)))
  | AtCreate => Some (goes k x (Returned (now s)) (create s))
  | Returned _ | Threw => None
  end.

(** The polling thread. *)
Definition poll (w m : nat) (s : state) : option state :=
  match nth_error (workers s) w with
  | Some WTest => Some (if on s
      then {| now := now s; on := on s; interval := interval s; thread := thread s; workers := put w (WPoll m) (workers s); calls := calls s; polls := polls s ++ [now s]; over := over s |}
      else with_workers (put w WEnded (workers s)) s)
  | Some (WPoll 0) => Some (with_workers (put w (WSleep (interval s)) (workers s)) s)
  | Some (WSleep 0) => Some (with_workers (put w WTest (workers s)) s)
  | _ => None
  end.
(** A call by the polling thread itself: [join] throws for one's own thread, and nobody catches it. Simplified: in one step. *)
Definition inside (c : what) (s : state) : state :=
  if on s then ended Terminated (with_on false s)
  else match c with Start i => create (with_interval i (with_on true s)) | Stop => s | Destroy => match thread s with Some _ => ended Terminated s | None => s end end.

(** A millisecond passes. *)
Definition later (w : wpc) : option wpc := match w with WPoll (S n) => Some (WPoll n) | WSleep (S n) => Some (WSleep n) | WEnded => Some WEnded | _ => None end.
Fixpoint all_later (l : list wpc) : option (list wpc) :=
  match l with [] => Some [] | x :: l' => match later x, all_later l' with Some y, Some r => Some (y :: r) | _, _ => None end end.
Definition waits (s : state) (c : call) : bool :=
  match ca_pc c with
  | InJoin w => match nth_error (workers s) w with Some WEnded => false | _ => true end
  | Returned _ | Threw => true
  | _ => false
  end.

Definition step (l : label) (s : state) : option state :=
  match over s with
  | Some _ => None
  | None =>
    match l with
    | Call c => Some (with_calls (calls s ++ [{| ca_what := c; ca_begin := now s; ca_pc := AtTest |}]) s)
    | Do k => match nth_error (calls s) k with Some x => go k x s | None => None end
    | Work w m => poll w m s
    | Inside w c => match nth_error (workers s) w with Some (WPoll _) => Some (inside c s) | _ => None end
    | Tick => if forallb (waits s) (calls s) then
                match all_later (workers s) with
                | Some l => Some {| now := S (now s); on := on s; interval := interval s; thread := thread s; workers := l; calls := calls s; polls := polls s; over := None |}
                | None => None
                end
              else None
    end
  end.
Fixpoint run (ls : list label) (s : state) : option state :=
  match ls with [] => Some s | l :: ls' => match step l s with Some s' => run ls' s' | None => None end end.
