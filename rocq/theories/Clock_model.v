(** The clock of the computer and the times of the events: [nativeGetChrono], scalopus_tracing/src/native/native_tracepoint.cpp lines 54-60.

    [std::chrono::high_resolution_clock] is, in the GNU library this project is built with, another name of [system_clock]: the clock that
    shows the time of day, in nanoseconds since 1970 as a signed number. It is one clock for all processes of the computer. It goes on with time,
    and anyone who may (an administrator, a time service) can set it. (With a library in which it is [steady_clock] there are no [Shift] steps.)

    Simplified: a tracepoint takes no time, and nothing is said of the buffers and of the way to the viewer (see [Clock_spec.v]: [arrived]). *)
From Coq Require Import List NArith ZArith.
Import ListNotations.
From Verif Require Import TraceEvent_model.
Local Open Scope Z_scope.

(** What happens on the computer: [d] nanoseconds pass; someone sets the clock, which makes it jump by [z] nanoseconds; thread [tid] of process
    [pid] runs into a tracepoint (native_tracepoint.cpp lines 62-154: [scope_entry], [scope_exit], [mark_event], [count_event]). *)
Inductive action := Pass (d : N) | Shift (z : Z) | Trace (pid : Z) (tid type id : N) (v : option Z).

(** Line 59: the signed number of nanoseconds becomes an unsigned 64 bit one. *)
Definition reading (c : Z) : N := Z.to_N (c mod 2 ^ 64).

(** The events that are recorded, from the moment when the clock shows [c]: each with the reading of the clock at its tracepoint. *)
Fixpoint record (c : Z) (ls : list action) : list (Z * N * tev) :=
  match ls with
  | [] => []
  | Pass d :: ls' => record (c + Z.of_N d) ls'
  | Shift z :: ls' => record (c + z) ls'
  | Trace pid tid type id v :: ls' => (pid, tid, {| te_time := reading c; te_id := id; te_type := type; te_value := v |}) :: record c ls'
  end.
