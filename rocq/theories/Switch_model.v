(** Switching tracing from outside while the program runs (C100).

    Modelled, one access to shared memory per step: the tracepoints, scalopus_tracing/src/native/native_tracepoint.cpp 62-76 (the other three, 78-137, make the
    same accesses in the same order); [TraceConfigurator], scalopus_tracing/src/trace_configurator.cpp 40-66 (the flag of a thread, made on first use), 67-71
    (forgotten at its end), 73-95 and 97-101; [TraceConfigurationRAII], trace_configuration_raii.cpp 35-59; [EndpointTraceConfigurator::handle],
    endpoint_trace_configurator.cpp 106-147, by any number of servers of the process at once.
    Loads and stores are sequentially consistent (no memory order is given anywhere), so steps interleave.

    Simplifications: the four tracepoint functions of a thread share one pointer to its flag (they have one each, all from [getThreadStatePtr]; Config_model
    keeps them apart, C18); an event is a number; uses of the configurator while the thread-local objects of a thread are destroyed are left out (C60);
    what the bytes of a request mean is in Wire_model. *)
From Coq Require Import List Arith Bool.
Import ListNotations.

(** Where a thread is in a tracepoint for event [e]. *)
Inductive pc :=
| Idle
| AtProcess (e : nat)      (* line 69: the process flag is loaded next *)
| AtThread (e : nat)       (* line 69: that was set; the flag of the thread is loaded next *)
| AtPush (e : nat).        (* line 74 *)
Record thread := {
  t_id : nat;                          (* [pthread_self()] *)
  t_live : bool;
  t_flag : option nat;                 (* the flag of the thread, once it is made *)
  t_pc : pc;
  t_saved : list (bool * bool);        (* open scoped changes, innermost first: [is_process_], [previous_state_] *)
  t_events : list nat                  (* what was pushed *)
}.

(** A request, and the answer: process state, state of each thread. *)
Inductive request := Query | Change (set_process process : bool) (threads : list (nat * bool)).
Definition reply := (bool * list (nat * bool))%type.
(** What [handle] does once it has copied the map (line 111): stores 117-130, loads 138-142. *)
Inductive act := StoreP (b : bool) | StoreT (k : nat) (b : bool) | GetP | GetT (tid k : nat).
Record job := { j_req : request; j_todo : list act; j_reply : reply }.

Record state := {
  s_proc : bool;
  s_flags : list bool;
  s_map : list (nat * nat);            (* [thread_state_]: thread id, flag *)
  s_threads : list thread;
  s_jobs : nat -> option job;          (* what each server handles *)
  s_log : list (nat * request * reply)
}.
Definition state0 : state := {| s_proc := true; s_flags := []; s_map := []; s_threads := []; s_jobs := fun _ => None; s_log := [] |}.

Fixpoint find_id (tid : nat) (m : list (nat * nat)) : option nat :=
  match m with [] => None | (t, k) :: r => if Nat.eqb t tid then Some k else find_id tid r end.
Definition stores (r : request) (m : list (nat * nat)) : list act :=
  match r with
  | Query => []
  | Change sp p ths =>
      (if sp then [StoreP p] else []) ++ flat_map (fun tb => match find_id (fst tb) m with Some k => [StoreT k (snd tb)] | None => [] end) ths
  end.
Definition program (r : request) (m : list (nat * nat)) : list act := stores r m ++ GetP :: map (fun e => GetT (fst e) (snd e)) m.

Fixpoint set_nth {A} (i : nat) (x : A) (l : list A) : list A :=
  match l, i with
  | [], _ => []
  | _ :: r, 0 => x :: r
  | a :: r, S i' => a :: set_nth i' x r
  end.
Definition flag (k : nat) (s : state) : bool := nth k (s_flags s) true.

Inductive label :=
| Start (tid : nat) | End (i : nat)                       (* threads begin and end *)
| Enter (i e : nat) | LoadP (i : nat) | LoadT (i : nat) | Push (i : nat) (room : bool)      (* a tracepoint of thread [i] *)
| SetT (i : nat) (b : bool) | SetP (b : bool)             (* setThreadState, setProcessState *)
| Open (i : nat) (is_process b : bool) | Close (i : nat)  (* a scoped change *)
| Begin (h : nat) (r : request) | Step (h : nat) | Answer (h : nat).  (* server [h] *)

Definition with_thread (i : nat) (t : thread) (s : state) : state :=
  {| s_proc := s_proc s; s_flags := s_flags s; s_map := s_map s; s_threads := set_nth i t (s_threads s); s_jobs := s_jobs s; s_log := s_log s |}.
Definition with_proc (b : bool) (s : state) : state :=
  {| s_proc := b; s_flags := s_flags s; s_map := s_map s; s_threads := s_threads s; s_jobs := s_jobs s; s_log := s_log s |}.
Definition with_flag (k : nat) (b : bool) (s : state) : state :=
  {| s_proc := s_proc s; s_flags := set_nth k b (s_flags s); s_map := s_map s; s_threads := s_threads s; s_jobs := s_jobs s; s_log := s_log s |}.
Definition with_job (h : nat) (j : option job) (s : state) : state :=
  {| s_proc := s_proc s; s_flags := s_flags s; s_map := s_map s; s_threads := s_threads s;
     s_jobs := fun g => if Nat.eqb g h then j else s_jobs s g; s_log := s_log s |}.
Definition at_pc (p : pc) (t : thread) : thread :=
  {| t_id := t_id t; t_live := t_live t; t_flag := t_flag t; t_pc := p; t_saved := t_saved t; t_events := t_events t |}.
Definition saved (l : list (bool * bool)) (t : thread) : thread :=
  {| t_id := t_id t; t_live := t_live t; t_flag := t_flag t; t_pc := t_pc t; t_saved := l; t_events := t_events t |}.

(** [getThreadStatePtr] by thread [i]: the thread, the flag, the state. *)
Definition own_flag (i : nat) (t : thread) (s : state) : thread * nat * state :=
  match t_flag t with
  | Some k => (t, k, s)
  | None =>
      let k := length (s_flags s) in
      let t' := {| t_id := t_id t; t_live := t_live t; t_flag := Some k; t_pc := t_pc t; t_saved := t_saved t; t_events := t_events t |} in
      (t', k, {| s_proc := s_proc s; s_flags := s_flags s ++ [true]; s_map := (t_id t, k) :: s_map s;
                 s_threads := set_nth i t' (s_threads s); s_jobs := s_jobs s; s_log := s_log s |})
  end.

(** A live thread that is in no tracepoint. *)
Definition idle (i : nat) (s : state) : option thread :=
  match nth_error (s_threads s) i with
  | Some t => if t_live t then match t_pc t with Idle => Some t | _ => None end else None
  | None => None
  end.

Definition step (l : label) (s : state) : option state :=
  match l with
  | Start tid =>
      if existsb (fun t => t_live t && Nat.eqb (t_id t) tid) (s_threads s) then None
      else Some {| s_proc := s_proc s; s_flags := s_flags s; s_map := s_map s;
                   s_threads := s_threads s ++ [{| t_id := tid; t_live := true; t_flag := None; t_pc := Idle; t_saved := []; t_events := [] |}];
                   s_jobs := s_jobs s; s_log := s_log s |}
  | End i =>
      match idle i s with
      | Some t =>
          match t_saved t with
          | [] => Some {| s_proc := s_proc s; s_flags := s_flags s;
                          s_map := match t_flag t with
                                   | Some _ => filter (fun e => negb (Nat.eqb (fst e) (t_id t))) (s_map s)      (* removeThread *)
                                   | None => s_map s
                                   end;
                          s_threads := set_nth i {| t_id := t_id t; t_live := false; t_flag := t_flag t; t_pc := Idle; t_saved := []; t_events := t_events t |} (s_threads s);
                          s_jobs := s_jobs s; s_log := s_log s |}
          | _ => None
          end
      | None => None
      end
  | Enter i e =>
      match idle i s with
      | Some t => let '(t', k, s') := own_flag i t s in Some (with_thread i (at_pc (AtProcess e) t') s')
      | None => None
      end
  | LoadP i =>
      match nth_error (s_threads s) i with
      | Some t => match t_pc t with AtProcess e => Some (with_thread i (at_pc (if s_proc s then AtThread e else Idle) t) s) | _ => None end
      | None => None
      end
  | LoadT i =>
      match nth_error (s_threads s) i with
      | Some t => match t_pc t, t_flag t with
                  | AtThread e, Some k => Some (with_thread i (at_pc (if flag k s then AtPush e else Idle) t) s)
                  | _, _ => None
                  end
      | None => None
      end
  | Push i room =>
      match nth_error (s_threads s) i with
      | Some t => match t_pc t with
                  | AtPush e => Some (with_thread i {| t_id := t_id t; t_live := t_live t; t_flag := t_flag t; t_pc := Idle; t_saved := t_saved t;
                                                       t_events := t_events t ++ (if room then [e] else []) |} s)
                  | _ => None
                  end
      | None => None
      end
  | SetT i b =>
      match idle i s with
      | Some t => let '(_, k, s') := own_flag i t s in Some (with_flag k b s')
      | None => None
      end
  | SetP b => Some (with_proc b s)
  | Open i isp b =>
      match idle i s with
      | Some t =>
          if isp then Some (with_thread i (saved ((true, s_proc s) :: t_saved t) t) (with_proc b s))
          else let '(t', k, s') := own_flag i t s in Some (with_thread i (saved ((false, flag k s') :: t_saved t) t') (with_flag k b s'))
      | None => None
      end
  | Close i =>
      match idle i s with
      | Some t =>
          match t_saved t with
          | [] => None
          | (true, b) :: r => Some (with_thread i (saved r t) (with_proc b s))
          | (false, b) :: r => let '(t', k, s') := own_flag i t s in Some (with_thread i (saved r t') (with_flag k b s'))
          end
      | None => None
      end
  | Begin h r =>
      match s_jobs s h with
      | None => Some (with_job h (Some {| j_req := r; j_todo := program r (s_map s); j_reply := (true, []) |}) s)
      | Some _ => None
      end
  | Step h =>
      match s_jobs s h with
      | Some j =>
          match j_todo j with
          | [] => None
          | StoreP b :: r => Some (with_job h (Some {| j_req := j_req j; j_todo := r; j_reply := j_reply j |}) (with_proc b s))
          | StoreT k b :: r => Some (with_job h (Some {| j_req := j_req j; j_todo := r; j_reply := j_reply j |}) (with_flag k b s))
          | GetP :: r => Some (with_job h (Some {| j_req := j_req j; j_todo := r; j_reply := (s_proc s, snd (j_reply j)) |}) s)
          | GetT tid k :: r =>
              Some (with_job h (Some {| j_req := j_req j; j_todo := r; j_reply := (fst (j_reply j), snd (j_reply j) ++ [(tid, flag k s)]) |}) s)
          end
      | None => None
      end
  | Answer h =>
      match s_jobs s h with
      | Some j => match j_todo j with
                  | [] => Some {| s_proc := s_proc s; s_flags := s_flags s; s_map := s_map s; s_threads := s_threads s;
                                  s_jobs := fun g => if Nat.eqb g h then None else s_jobs s g; s_log := s_log s ++ [(h, j_req j, j_reply j)] |}
                  | _ => None
                  end
      | None => None
      end
  end.
Fixpoint run (ls : list label) (s : state) : option state :=
  match ls with
  | [] => Some s
  | l :: r => match step l s with Some s' => run r s' | None => None end
  end.
