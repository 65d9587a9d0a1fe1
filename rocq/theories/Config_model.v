(** Model of the tracepoints and of the state that enables them:
    [scalopus_tracing/src/trace_configurator.cpp], [trace_configuration_raii.cpp], [scope_trace_raii.cpp],
    [native/native_tracepoint.cpp] and [endpoint_trace_configurator.cpp].

    A state is a heap of [std::atomic_bool], the map from thread ids to them, and for each thread what it keeps in
    thread-local storage.  A step is one call; inside the configurator the map is protected by a mutex, and the flags are
    atomic, so calls take effect one after the other.
    Simplifications: [handle] of the endpoint is one step (it copies the map and then stores to the flags one by one);
    [push] succeeds or not as the step says (C14 tells when); exhaustion of memory is not modelled; the destructor
    callback registered by a thread runs when the thread ends. *)
From Coq Require Import List Arith NArith ZArith Bool.
Import ListNotations.
From Verif Require Import UnixSystem_model OMap_model TraceEvent_model.

(** The tracepoint functions; each has thread-local variables of its own. *)
Inductive level := LGlobal | LProcess | LThread.
Inductive tpoint := TpEntry (id : N) | TpExit (id : N) | TpMark (l : level) (id : N) | TpCount (id : N) (v : Z).

Definition fn_of (t : tpoint) : nat := match t with TpEntry _ => 0 | TpExit _ => 1 | TpMark _ _ => 2 | TpCount _ _ => 3 end.

(** What each of them pushes: lines 74-75, 90-91, 109-119, 135-137. *)
Definition event_of (t : tpoint) (time : N) : tev :=
  match t with
  | TpEntry id => {| te_time := time; te_id := id; te_type := SCOPE_ENTRY; te_value := None |}
  | TpExit id => {| te_time := time; te_id := id; te_type := SCOPE_EXIT; te_value := None |}
  | TpMark LGlobal id => {| te_time := time; te_id := id; te_type := MARK_GLOBAL; te_value := None |}
  | TpMark LProcess id => {| te_time := time; te_id := id; te_type := MARK_PROCESS; te_value := None |}
  | TpMark LThread id => {| te_time := time; te_id := id; te_type := MARK_THREAD; te_value := None |}
  | TpCount id v => {| te_time := time; te_id := id; te_type := COUNTER; te_value := Some v |}
  end.

Record thr := {
  t_tid : nat;                        (* [pthread_self()] *)
  t_live : bool;
  t_cleanup : bool;                   (* the callback of line 46 of the configurator is registered *)
  t_cache : list (nat * nat);         (* [thread_state] of each tracepoint function that was used: function, flag *)
  t_scopes : list (bool * bool);      (* scoped changes that are open, innermost first: [is_process_], [previous_state_] *)
  t_events : list tev;                (* everything pushed to the buffer of the thread *)
}.

Record cfg := {
  g_process : bool;                   (* [process_state_] *)
  g_flags : list bool;                (* the heap of thread flags *)
  g_map : list (nat * nat);           (* [thread_state_]: thread id, flag *)
  g_threads : list thr;
}.

Definition cfg0 : cfg := {| g_process := true; g_flags := []; g_map := []; g_threads := [] |}.     (* constructor, line 37 *)

Definition flag (k : nat) (s : cfg) : bool := nth k (g_flags s) true.
Definition with_thr (i : nat) (t : thr) (s : cfg) : cfg :=
  {| g_process := g_process s; g_flags := g_flags s; g_map := g_map s; g_threads := set_nth i t (g_threads s) |}.
Definition store_flag (k : nat) (b : bool) (s : cfg) : cfg :=
  {| g_process := g_process s; g_flags := set_nth k b (g_flags s); g_map := g_map s; g_threads := g_threads s |}.
Definition store_process (b : bool) (s : cfg) : cfg :=
  {| g_process := b; g_flags := g_flags s; g_map := g_map s; g_threads := g_threads s |}.

(** [getThreadStatePtr], lines 40-66, called by thread [i]. *)
Definition thread_state_ptr (i : nat) (t : thr) (s : cfg) : nat * cfg :=
  let t' := {| t_tid := t_tid t; t_live := t_live t; t_cleanup := true; t_cache := t_cache t; t_scopes := t_scopes t; t_events := t_events t |} in
  let s1 := with_thr i t' s in
  match mfind Nat.ltb (t_tid t) (g_map s) with
  | Some k => (k, s1)
  | None => (length (g_flags s), {| g_process := g_process s1; g_flags := g_flags s1 ++ [true];
                                    g_map := minsert Nat.ltb (t_tid t) (length (g_flags s)) (g_map s1); g_threads := g_threads s1 |})
  end.

(** A request to the endpoint: [TraceConfiguration] as sent (endpoint_trace_configurator.h), or a query. *)
Inductive creq := CQuery | CChange (set_process process : bool) (threads : list (nat * bool)).
Definition creply := (bool * list (nat * bool))%type.    (* process state, state of each thread *)

(** [handle], endpoint_trace_configurator.cpp lines 106-147. *)
Definition c_handle (r : creq) (s : cfg) : cfg * creply :=
  let s' :=
    match r with
    | CQuery => s
    | CChange sp p ths =>
        fold_left (fun s kv => match mfind Nat.ltb (fst kv) (g_map s) with Some k => store_flag k (snd kv) s | None => s end) ths
          (if sp then store_process p s else s)
    end in
  (s', (g_process s', map (fun e => (fst e, flag (snd e) s')) (g_map s'))).

Inductive cfg_label :=
  | GStart (tid : nat)                              (* a new thread *)
  | GTrace (i : nat) (t : tpoint) (time : N) (room : bool)   (* thread [i] runs into a tracepoint *)
  | GGetThread (i : nat)                            (* getThreadState *)
  | GSetThread (i : nat) (b : bool)                 (* setThreadState *)
  | GSetProcess (b : bool)                          (* setProcessState *)
  | GScope (i : nat) (is_process new_state : bool)  (* TraceConfigurationRAII constructed, trace_configuration_raii.cpp 35-46 *)
  | GUnscope (i : nat)                              (* the innermost one is destroyed, lines 48-59 *)
  | GRemote (r : creq)                              (* the endpoint handles a request *)
  | GExit (i : nat)                                 (* the thread ends *)
  | GLateSet (i : nat) (b : bool).                  (* setThreadState from the destructor of a thread-local object, after the callback ran *)

Definition g_on_thread {A} (i : nat) (s : cfg) (f : thr -> option A) : option A :=
  match nth_error (g_threads s) i with
  | Some t => if t_live t then f t else None
  | None => None
  end.

(** [setThreadState], lines 78-81: the previous value and the new state. *)
Definition set_thread_state (i : nat) (t : thr) (b : bool) (s : cfg) : bool * cfg :=
  let '(k, s1) := thread_state_ptr i t s in (flag k s1, store_flag k b s1).

Definition upd_scopes (i : nat) (l : list (bool * bool)) (s : cfg) : cfg :=
  match nth_error (g_threads s) i with
  | Some t => with_thr i {| t_tid := t_tid t; t_live := t_live t; t_cleanup := t_cleanup t; t_cache := t_cache t; t_scopes := l; t_events := t_events t |} s
  | None => s
  end.

Definition gstep (l : cfg_label) (s : cfg) : option cfg :=
  match l with
  | GStart tid =>
      if existsb (fun t => (t_tid t =? tid) && t_live t) (g_threads s) then None
      else Some {| g_process := g_process s; g_flags := g_flags s; g_map := g_map s;
                   g_threads := g_threads s ++ [{| t_tid := tid; t_live := true; t_cleanup := false; t_cache := []; t_scopes := []; t_events := [] |}] |}
  | GTrace i p time room =>
      g_on_thread i s (fun t =>
        (* the thread-local [thread_state] of this function, made on first use *)
        let '(k, s1) := match find (fun e => fst e =? fn_of p) (t_cache t) with
                        | Some e => (snd e, s)
                        | None => thread_state_ptr i t s
                        end in
        match nth_error (g_threads s1) i with
        | Some t1 =>
            let fire := g_process s1 && flag k s1 && room in
            Some (with_thr i {| t_tid := t_tid t1; t_live := t_live t1; t_cleanup := t_cleanup t1;
                                t_cache := match find (fun e => fst e =? fn_of p) (t_cache t1) with Some _ => t_cache t1 | None => (fn_of p, k) :: t_cache t1 end;
                                t_scopes := t_scopes t1;
                                t_events := if fire then t_events t1 ++ [event_of p time] else t_events t1 |} s1)
        | None => None
        end)
  | GGetThread i => g_on_thread i s (fun t => Some (snd (thread_state_ptr i t s)))
  | GSetThread i b => g_on_thread i s (fun t => Some (snd (set_thread_state i t b s)))
  | GSetProcess b => Some (store_process b s)
  | GScope i isp b =>
      g_on_thread i s (fun t =>
        if isp then Some (upd_scopes i ((true, g_process s) :: t_scopes t) (store_process b s))
        else let '(old, s1) := set_thread_state i t b s in Some (upd_scopes i ((false, old) :: t_scopes t) s1))
  | GUnscope i =>
      g_on_thread i s (fun t =>
        match t_scopes t with
        | [] => None
        | (true, prev) :: r => Some (upd_scopes i r (store_process prev s))
        | (false, prev) :: r => Some (upd_scopes i r (snd (set_thread_state i t prev s)))
        end)
  | GRemote r => Some (fst (c_handle r s))
  | GExit i =>
      g_on_thread i s (fun t => Some
        {| g_process := g_process s; g_flags := g_flags s;
           g_map := if t_cleanup t then merase Nat.ltb (t_tid t) (g_map s) else g_map s;      (* removeThread, lines 67-71 *)
           g_threads := set_nth i {| t_tid := t_tid t; t_live := false; t_cleanup := t_cleanup t; t_cache := t_cache t; t_scopes := t_scopes t; t_events := t_events t |} (g_threads s) |})
  | GLateSet i b =>
      match nth_error (g_threads s) i with
      | Some t => if t_live t || negb (t_cleanup t) then None
                  else if existsb (fun u => (t_tid u =? t_tid t) && t_live u) (g_threads s) then None   (* the id is still the old thread's *)
                  else Some (snd (set_thread_state i t b s))
      | None => None
      end
  end.

Fixpoint grun (ls : list cfg_label) (s : cfg) : option cfg :=
  match ls with
  | [] => Some s
  | l :: ls' => match gstep l s with Some s' => grun ls' s' | None => None end
  end.
