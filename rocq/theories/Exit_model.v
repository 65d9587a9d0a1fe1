(** The objects of the library with static and thread storage, and the end of threads and of the program (C109).
    [/repo/scalopus_tracing/src/native/native_tracepoint.cpp] lines 62-140, [/repo/scalopus_tracing/src/native/tracepoint_collector_native.cpp] lines 42-93,
    [/repo/scalopus_tracing/src/trace_configurator.cpp] lines 40-66 and 104-113, [/repo/scalopus_tracing/src/static_string_tracker.cpp] lines 34-38,
    [/repo/scalopus_general/src/thread_name_tracker.cpp] lines 35-47, [/repo/scalopus_tracing/include/scalopus_tracing/internal/trace_macro.h] lines 48-54. *)
From Coq Require Import List Arith Bool.
Import ListNotations.

(** The rules of C++ used: an object defined in a function is made when control passes its definition for the first time; objects with thread storage are destroyed
    when their thread ends, objects with static storage when the program exits (after those of the main thread), in both cases in the reverse order of the ends of their
    constructors. Passing the definition of an object that has been destroyed, or using it, is undefined (C++17 [basic.start.term] 4, 6). *)
Inductive fn := Entry | Leave | Mark | Count.                       (* scope_entry, scope_exit, mark_event, count_event *)
Inductive stat :=
  | SConfigurator                    (* instance, trace_configurator.cpp line 111 *)
  | SCollector                       (* instance, tracepoint_collector_native.cpp line 49 *)
  | SStrings                         (* instance, static_string_tracker.cpp line 36 *)
  | SNames                           (* instance, thread_name_tracker.cpp line 37 *)
  | SPtr (f : fn)                    (* configurator_ptr, native_tracepoint.cpp lines 64, 80, 96, 125 *)
  | SState (f : fn)                  (* process_state, lines 67, 83, 99, 128 *)
  | SUser (k : nat).                 (* an object of the program *)
Inductive tls :=
  | TPtr (f : fn)                    (* buffer_ptr, lines 65, 81, 97, 126 *)
  | TBuffer (f : fn)                 (* buffer, lines 66, 82, 98, 127 *)
  | TState (f : fn)                  (* thread_state, lines 68, 84, 100, 129 *)
  | TLeaveBuffer                     (* cleanup, tracepoint_collector_native.cpp line 58 *)
  | TLeaveState                      (* cleanup, trace_configurator.cpp line 46 *)
  | TLeaveName                       (* cleanup, thread_name_tracker.cpp line 45 *)
  | TUser (k : nat).                 (* an object of the program *)
Definition fn_dec (a b : fn) : {a = b} + {a <> b}. Proof. decide equality. Defined.
Definition stat_dec (a b : stat) : {a = b} + {a <> b}. Proof. decide equality; (apply fn_dec || apply Nat.eq_dec). Defined.
Definition tls_dec (a b : tls) : {a = b} + {a <> b}. Proof. decide equality; (apply fn_dec || apply Nat.eq_dec). Defined.

(** What a thread uses of the library. *)
Inductive use :=
  | UTrace (f : fn)                  (* a tracepoint *)
  | UStrings                         (* the names of tracepoints: one is registered, trace_macro.h lines 47-53 (the static bool there has no destructor), or an endpoint sends
                                        them, endpoint_trace_mapping.cpp line 51 *)
  | USetName                         (* a name is given to the thread, thread_naming.h line 42 *)
  | UNames                           (* the names of the threads are sent, endpoint_process_info.cpp line 70 *)
  | USetState                        (* the thread's own tracing is switched, trace_configuration_raii.cpp lines 37-44 and 50-57 *)
  | USwitch.                         (* the process' tracing is switched, there, or an endpoint looks at the switches, endpoint_trace_configurator.cpp line 109 *)

Inductive phase := Unborn | Running | Unwinding | Over.
Record thread := { h_phase : phase; h_live : list tls; h_gone : list tls }.     (* its thread-local objects, the newest first; those that were destroyed *)
Record state := {
  g_threads : nat -> thread;                (* number 0 is the main thread *)
  g_live : list stat;                       (* the newest first *)
  g_gone : list stat;
  g_active : list nat;                      (* threads with a buffer in [active_tid_buffers_] *)
  g_orphans : list nat;                     (* and in [orphaned_tid_buffers_] *)
  g_states : list nat;                      (* threads in [thread_state_] of the configurator *)
  g_named : list nat;                       (* threads in the map of names *)
  g_log : list (nat * fn * bool)            (* pushes: thread, function, whether the buffer pushed to was in [active_tid_buffers_] *)
}.
Definition state0 : state :=
  {| g_threads := fun t => {| h_phase := if t =? 0 then Running else Unborn; h_live := []; h_gone := [] |};
     g_live := []; g_gone := []; g_active := []; g_orphans := []; g_states := []; g_named := []; g_log := [] |}.

Definition inb {A} (dec : forall a b : A, {a = b} + {a <> b}) (x : A) (l : list A) : bool := if in_dec dec x l then true else false.
Definition with_threads (h : nat -> thread) (s : state) : state :=
  {| g_threads := h; g_live := g_live s; g_gone := g_gone s; g_active := g_active s; g_orphans := g_orphans s; g_states := g_states s; g_named := g_named s; g_log := g_log s |}.
Definition with_statics (live gone : list stat) (s : state) : state :=
  {| g_threads := g_threads s; g_live := live; g_gone := gone; g_active := g_active s; g_orphans := g_orphans s; g_states := g_states s; g_named := g_named s; g_log := g_log s |}.
Definition with_tables (active orphans states named : list nat) (s : state) : state :=
  {| g_threads := g_threads s; g_live := g_live s; g_gone := g_gone s; g_active := active; g_orphans := orphans; g_states := states; g_named := named; g_log := g_log s |}.
Definition with_log (l : list (nat * fn * bool)) (s : state) : state :=
  {| g_threads := g_threads s; g_live := g_live s; g_gone := g_gone s; g_active := g_active s; g_orphans := g_orphans s; g_states := g_states s; g_named := g_named s; g_log := l |}.
Definition set_thread (t : nat) (h : thread) (s : state) : state := with_threads (fun i => if i =? t then h else g_threads s i) s.
Definition push_tls (t : nat) (o : tls) (s : state) : state :=
  let h := g_threads s t in set_thread t {| h_phase := h_phase h; h_live := o :: h_live h; h_gone := h_gone h |} s.

(** Control passes the definition of an object; [None]: undefined. *)
Definition bind (a : option state) (f : state -> option state) : option state := match a with Some s => f s | None => None end.
Definition def_static (o : stat) (init : state -> option state) (s : state) : option state :=
  if inb stat_dec o (g_gone s) then None
  else if inb stat_dec o (g_live s) then Some s
  else bind (init s) (fun s' => Some (with_statics (o :: g_live s') (g_gone s') s')).
Definition def_tls (t : nat) (o : tls) (init : state -> option state) (s : state) : option state :=
  if inb tls_dec o (h_gone (g_threads s t)) then None
  else if inb tls_dec o (h_live (g_threads s t)) then Some s
  else bind (init s) (fun s' => Some (push_tls t o s')).
Definition plain (s : state) : option state := Some s.
Definition add (t : nat) (l : list nat) : list nat := if inb Nat.eq_dec t l then l else t :: l.
Definition drop (t : nat) (l : list nat) : list nat := filter (fun i => negb (i =? t)) l.

(** [getBuffer], tracepoint_collector_native.cpp lines 53-93. *)
Definition get_buffer (t : nat) (s : state) : option state :=
  bind (def_static SCollector plain s) (fun s =>
  bind (def_tls t TLeaveBuffer plain s) (fun s =>
  Some (with_tables (add t (g_active s)) (g_orphans s) (g_states s) (g_named s) s))).
(** [getThreadStatePtr], trace_configurator.cpp lines 40-66. *)
Definition get_state (t : nat) (s : state) : option state :=
  bind (def_static SConfigurator plain s) (fun s =>
  bind (def_tls t TLeaveState plain s) (fun s =>
  Some (with_tables (g_active s) (g_orphans s) (add t (g_states s)) (g_named s) s))).
(** A tracepoint, native_tracepoint.cpp lines 62-77 (and the like); simplified: tracing is on. *)
Definition trace (t : nat) (f : fn) (s : state) : option state :=
  bind (def_static (SPtr f) (def_static SConfigurator plain) s) (fun s =>
  bind (def_tls t (TPtr f) (def_static SCollector plain) s) (fun s =>
  bind (def_tls t (TBuffer f) (get_buffer t) s) (fun s =>
  bind (def_static (SState f) plain s) (fun s =>
  bind (def_tls t (TState f) (get_state t) s) (fun s =>
  Some (with_log (g_log s ++ [(t, f, inb Nat.eq_dec t (g_active s))]) s)))))).
(** [setCurrentName] of the only instance, thread_name_tracker.cpp lines 35-47. *)
Definition set_name (t : nat) (s : state) : option state :=
  bind (def_static SNames plain s) (fun s =>
  bind (def_tls t TLeaveName plain s) (fun s =>
  Some (with_tables (g_active s) (g_orphans s) (g_states s) (add t (g_named s)) s))).
Definition perform (t : nat) (u : use) (s : state) : option state :=
  match u with
  | UTrace f => trace t f s
  | UStrings => def_static SStrings plain s
  | USetName => set_name t s
  | UNames => def_static SNames plain s
  | USetState => get_state t s
  | USwitch => def_static SConfigurator plain s
  end.
Fixpoint performs (t : nat) (us : list use) (s : state) : option state :=
  match us with [] => Some s | u :: us' => bind (perform t u s) (performs t us') end.

(** Whether the shared objects still exist: something points to them. Simplified: of the threads, only the one that asks is looked at for the collector. *)
Definition holds_collector (h : thread) : bool := existsb (fun o => match o with TPtr _ => true | _ => false end) (h_live h).
Definition holds_configurator (s : state) : bool := existsb (fun o => match o with SConfigurator | SPtr _ => true | _ => false end) (g_live s).

Section Program.
Variable body : nat -> list use.            (* what the destructor of object [k] of the program uses; simplified: in one step, and it makes no further objects of the program *)

(** The destructor of a thread-local object of thread [t], which is no more among the live ones. *)
Definition destroy_tls (t : nat) (o : tls) (s : state) : option state :=
  match o with
  | TUser k => performs t (body k) s
  | TLeaveBuffer =>                         (* tracepoint_collector_native.cpp lines 59-76 *)
      if inb stat_dec SCollector (g_live s) || holds_collector (g_threads s t)
      then Some (with_tables (drop t (g_active s)) (if inb Nat.eq_dec t (g_active s) then g_orphans s ++ [t] else g_orphans s) (g_states s) (g_named s) s)
      else Some s
  | TLeaveState => if holds_configurator s then Some (with_tables (g_active s) (g_orphans s) (drop t (g_states s)) (g_named s) s) else Some s
  | TLeaveName =>                           (* thread_name_tracker.cpp line 45: uses the instance through [this] *)
      if inb stat_dec SNames (g_gone s) then None else Some (with_tables (g_active s) (g_orphans s) (g_states s) (drop t (g_named s)) s)
  | _ => Some s
  end.

Inductive label :=
  | Start (t : nat)                  (* a thread starts *)
  | Do (t : nat) (u : use)           (* it uses the library *)
  | Local (t k : nat)                (* it passes the definition of thread-local object [k] of the program *)
  | Static (t k : nat)               (* it passes the definition of static object [k] of the program *)
  | Return (t : nat)                 (* its function returns; of number 0: main returns *)
  | Drop (t : nat)                   (* its newest thread-local object is destroyed *)
  | End (t : nat)                    (* there are none left *)
  | Exit.                            (* after the end of the main thread: the newest static object is destroyed, by the main thread *)
Inductive outcome := Next (s : state) | Undefined | Impossible.
Definition undefined_or (r : option state) : outcome := match r with Some s => Next s | None => Undefined end.
Definition with_phase (p : phase) (h : thread) : thread := {| h_phase := p; h_live := h_live h; h_gone := h_gone h |}.

Definition step (l : label) (s : state) : outcome :=
  match l with
  | Start t => match h_phase (g_threads s t) with Unborn => Next (set_thread t (with_phase Running (g_threads s t)) s) | _ => Impossible end
  | Do t u => match h_phase (g_threads s t) with Running => undefined_or (perform t u s) | _ => Impossible end
  | Local t k => match h_phase (g_threads s t) with Running => undefined_or (def_tls t (TUser k) plain s) | _ => Impossible end
  | Static t k => match h_phase (g_threads s t) with Running => undefined_or (def_static (SUser k) plain s) | _ => Impossible end
  | Return t => match h_phase (g_threads s t) with Running => Next (set_thread t (with_phase Unwinding (g_threads s t)) s) | _ => Impossible end
  | Drop t =>
      match h_phase (g_threads s t), h_live (g_threads s t) with
      | Unwinding, o :: r => undefined_or (destroy_tls t o (set_thread t {| h_phase := Unwinding; h_live := r; h_gone := o :: h_gone (g_threads s t) |} s))
      | _, _ => Impossible
      end
  | End t => match h_phase (g_threads s t), h_live (g_threads s t) with Unwinding, [] => Next (set_thread t (with_phase Over (g_threads s t)) s) | _, _ => Impossible end
  | Exit =>
      match h_phase (g_threads s 0), g_live s with
      | Over, o :: r => let s' := with_statics r (o :: g_gone s) s in
                        undefined_or (match o with SUser k => performs 0 (body k) s' | _ => Some s' end)
      | _, _ => Impossible
      end
  end.
Fixpoint run (ls : list label) (s : state) : outcome :=
  match ls with
  | [] => Next s
  | l :: ls' => match step l s with Next s' => run ls' s' | o => o end
  end.
End Program.
