(** The trace event as it is kept in a thread's buffer. *)
From Coq Require Import NArith ZArith.

(** [StaticTraceEvent], scalopus_tracing/src/native/tracepoint_collector_native.h lines 55-61: time in nanoseconds (64 bits),
    trace id (32 bits), type (8 bits) and dynamic data; the only dynamic data there is, is the value of a counter. *)
Record tev := { te_time : N; te_id : N; te_type : N; te_value : option Z }.

(** The constants of tracepoint_collector_native.cpp lines 35-40. *)
Definition SCOPE_ENTRY : N := 1.
Definition SCOPE_EXIT : N := 2.
Definition MARK_GLOBAL : N := 3.
Definition MARK_PROCESS : N := 4.
Definition MARK_THREAD : N := 5.
Definition COUNTER : N := 6.
