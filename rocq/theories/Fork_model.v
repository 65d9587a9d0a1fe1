(** A traced process that forks (C98).

    Modelled: what [fork] makes of the collected events and of the thread that sends them:
    scalopus_tracing/src/native/tracepoint_collector_native.cpp 42-113 (one collector per process, a buffer per thread),
    native_tracepoint.cpp 62-138 (a thread keeps a pointer to its buffer), endpoint_native_trace_sender.cpp 47-113 (the worker thread of the
    sender; [getpid] is asked when a message is made, line 66; the destructor waits for the worker, 53-58),
    scalopus_general/include/scalopus_general/map_tracker.h 45-105 (the mutex of the table of buffers).

    The rules of the system (POSIX, fork): the child has a copy of the memory and one thread, the one that has called fork, with the same
    [pthread_self]; the other threads are not there, their buffers and the mutexes they held are copied as they were; waiting for the end
    of a thread that is not there never returns.

    Simplifications: buffers do not overflow (C14); active and orphaned buffers are one list; a process has one sender at a time (C58);
    that a thread is forked away from while it holds the mutex for itself, in [insert], is left out;
    the broadcast of a message and its receipt are one step (C47); a process number is not used twice. *)
From Coq Require Import List Arith Bool.
Import ListNotations.

(** An event; for the sake of the statements it says who has made it, which the code does not record. *)
Record event := { e_pid : nat; e_tid : nat; e_num : nat }.
Definition buffers := list (nat * list event).

Record proc := {
  p_threads : list nat;            (* running *)
  p_bufs : buffers;                (* the collector *)
  p_hand : option buffers;         (* the worker of the sender, if there is one, and the events it has taken *)
  p_locked : bool;                 (* the mutex of the table is held by the worker, shared *)
  p_lost : bool;                   (* the mutex of the table is held, shared, by a thread that is not there *)
  p_ghost : bool;                  (* there is a sender whose worker is not there *)
  p_stuck : list nat }.            (* threads that wait for ever *)

Record world := { w_procs : nat -> option proc; w_used : list nat; w_next : nat;
                  w_forks : list (nat * nat);                      (* parent, child *)
                  w_shown : list (nat * nat * event) }.            (* received: the process and the thread it is shown under *)
Definition world0 : world := {| w_procs := fun _ => None; w_used := []; w_next := 0; w_forks := []; w_shown := [] |}.

Definition put (pid : nat) (p : option proc) (w : world) : world :=
  {| w_procs := fun q => if Nat.eqb q pid then p else w_procs w q; w_used := w_used w; w_next := w_next w; w_forks := w_forks w; w_shown := w_shown w |}.
Definition mem (n : nat) (l : list nat) : bool := existsb (Nat.eqb n) l.

(** [buffer->push]: at the end of the thread's buffer; a thread's first tracepoint makes it (tracepoint_collector_native.cpp 79-91). *)
Fixpoint push (tid : nat) (e : event) (b : buffers) : buffers :=
  match b with
  | [] => [(tid, [e])]
  | (t, l) :: r => if Nat.eqb t tid then (t, l ++ [e]) :: r else (t, l) :: push tid e r
  end.
Definition has (tid : nat) (b : buffers) : bool := existsb (fun x => Nat.eqb (fst x) tid) b.
(** The worker takes so many events of each buffer, endpoint_native_trace_sender.cpp 91-102. *)
Fixpoint taken (ks : list nat) (b : buffers) : buffers :=
  match b with [] => [] | (t, l) :: r => (t, firstn (hd 0 ks) l) :: taken (tl ks) r end.
Fixpoint rest (ks : list nat) (b : buffers) : buffers :=
  match b with [] => [] | (t, l) :: r => (t, skipn (hd 0 ks) l) :: rest (tl ks) r end.
(** What a receiver makes of a message. *)
Definition shown (pid : nat) (b : buffers) : list (nat * nat * event) := flat_map (fun x => map (fun e => (pid, fst x, e)) (snd x)) b.

Inductive label :=
| Start (pid tid : nat)            (* a program is started *)
| Thread (pid tid : nat)           (* a new thread *)
| Trace (pid tid : nat)            (* a tracepoint *)
| Expose (pid : nat)               (* a sender is made, on a transport *)
| Lock (pid : nat)                 (* the worker is in [getMap] *)
| Pop (pid : nat) (ks : list nat)  (* it has left it and takes events *)
| Send (pid : nat)                 (* it broadcasts them *)
| Fork (pid tid child : nat)
| Drop (pid tid : nat)             (* the thread destroys all senders of the process *)
| End (pid : nat).

Definition runs (tid : nat) (p : proc) : bool := mem tid (p_threads p) && negb (mem tid (p_stuck p)).

Definition step (a : label) (w : world) : option world :=
  match a with
  | Start pid tid =>
      if mem pid (w_used w) then None
      else Some (put pid (Some {| p_threads := [tid]; p_bufs := []; p_hand := None; p_locked := false; p_lost := false; p_ghost := false; p_stuck := [] |})
                     {| w_procs := w_procs w; w_used := pid :: w_used w; w_next := w_next w; w_forks := w_forks w; w_shown := w_shown w |})
  | Thread pid tid =>
      match w_procs w pid with
      | Some p => if mem tid (p_threads p) then None
                  else Some (put pid (Some {| p_threads := tid :: p_threads p; p_bufs := p_bufs p; p_hand := p_hand p; p_locked := p_locked p;
                                              p_lost := p_lost p; p_ghost := p_ghost p; p_stuck := p_stuck p |}) w)
      | None => None
      end
  | Trace pid tid =>
      match w_procs w pid with
      | Some p =>
          if runs tid p
          then if has tid (p_bufs p)
               then Some (put pid (Some {| p_threads := p_threads p; p_bufs := push tid {| e_pid := pid; e_tid := tid; e_num := w_next w |} (p_bufs p);
                                           p_hand := p_hand p; p_locked := p_locked p; p_lost := p_lost p; p_ghost := p_ghost p; p_stuck := p_stuck p |})
                              {| w_procs := w_procs w; w_used := w_used w; w_next := S (w_next w); w_forks := w_forks w; w_shown := w_shown w |})
               else if p_lost p                                          (* [insert] wants the mutex for itself *)
               then Some (put pid (Some {| p_threads := p_threads p; p_bufs := p_bufs p; p_hand := p_hand p; p_locked := p_locked p; p_lost := p_lost p;
                                           p_ghost := p_ghost p; p_stuck := tid :: p_stuck p |}) w)
               else if p_locked p then None                              (* it waits until the worker is done *)
               else Some (put pid (Some {| p_threads := p_threads p; p_bufs := push tid {| e_pid := pid; e_tid := tid; e_num := w_next w |} (p_bufs p);
                                           p_hand := p_hand p; p_locked := p_locked p; p_lost := p_lost p; p_ghost := p_ghost p; p_stuck := p_stuck p |})
                              {| w_procs := w_procs w; w_used := w_used w; w_next := S (w_next w); w_forks := w_forks w; w_shown := w_shown w |})
          else None
      | None => None
      end
  | Expose pid =>
      match w_procs w pid with
      | Some p => match p_hand p with
                  | Some _ => None
                  | None => Some (put pid (Some {| p_threads := p_threads p; p_bufs := p_bufs p; p_hand := Some []; p_locked := false; p_lost := p_lost p;
                                                   p_ghost := p_ghost p; p_stuck := p_stuck p |}) w)
                  end
      | None => None
      end
  | Lock pid =>                                                          (* line 85 *)
      match w_procs w pid with
      | Some p => match p_hand p with
                  | Some [] => if p_locked p then None
                               else Some (put pid (Some {| p_threads := p_threads p; p_bufs := p_bufs p; p_hand := Some []; p_locked := true; p_lost := p_lost p;
                                                           p_ghost := p_ghost p; p_stuck := p_stuck p |}) w)
                  | _ => None
                  end
      | None => None
      end
  | Pop pid ks =>                                                        (* lines 91-102 *)
      match w_procs w pid with
      | Some p => match p_hand p with
                  | Some [] => if p_locked p
                               then Some (put pid (Some {| p_threads := p_threads p; p_bufs := rest ks (p_bufs p); p_hand := Some (taken ks (p_bufs p)); p_locked := false;
                                                           p_lost := p_lost p; p_ghost := p_ghost p; p_stuck := p_stuck p |}) w)
                               else None
                  | _ => None
                  end
      | None => None
      end
  | Send pid =>                                                          (* lines 103-110 *)
      match w_procs w pid with
      | Some p => match p_hand p with
                  | Some (x :: r) =>
                      Some (put pid (Some {| p_threads := p_threads p; p_bufs := p_bufs p; p_hand := Some []; p_locked := p_locked p; p_lost := p_lost p;
                                             p_ghost := p_ghost p; p_stuck := p_stuck p |})
                                {| w_procs := w_procs w; w_used := w_used w; w_next := w_next w; w_forks := w_forks w;
                                   w_shown := w_shown w ++ shown pid (x :: r) |})
                  | _ => None
                  end
      | None => None
      end
  | Fork pid tid child =>
      match w_procs w pid with
      | Some p =>
          if runs tid p && negb (mem child (w_used w))
          then Some (put child (Some {| p_threads := [tid]; p_bufs := p_bufs p; p_hand := None; p_locked := false; p_lost := p_lost p || p_locked p;
                                        p_ghost := p_ghost p || match p_hand p with Some _ => true | None => false end; p_stuck := [] |})
                         {| w_procs := w_procs w; w_used := child :: w_used w; w_next := w_next w; w_forks := (pid, child) :: w_forks w; w_shown := w_shown w |})
          else None
      | None => None
      end
  | Drop pid tid =>                                                      (* lines 53-58 *)
      match w_procs w pid with
      | Some p =>
          if runs tid p
          then if p_ghost p
               then Some (put pid (Some {| p_threads := p_threads p; p_bufs := p_bufs p; p_hand := p_hand p; p_locked := p_locked p; p_lost := p_lost p;
                                           p_ghost := p_ghost p; p_stuck := tid :: p_stuck p |}) w)
               else match p_hand p with
                    | Some [] => if p_locked p then None                 (* the worker finishes its round first *)
                                 else Some (put pid (Some {| p_threads := p_threads p; p_bufs := p_bufs p; p_hand := None; p_locked := false; p_lost := p_lost p;
                                                             p_ghost := p_ghost p; p_stuck := p_stuck p |}) w)
                    | _ => None
                    end
          else None
      | None => None
      end
  | End pid => match w_procs w pid with Some _ => Some (put pid None w) | None => None end
  end.

Fixpoint run (h : list label) (w : world) : option world :=
  match h with [] => Some w | a :: r => match step a w with Some w' => run r w' | None => None end end.
