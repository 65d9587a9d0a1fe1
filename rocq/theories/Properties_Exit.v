(** C109: tracing at the end of threads and of the program. *)
From Coq Require Import List Arith.
From Verif Require Import Exit_model Exit_spec Exit_proofs Exit_witness.
Import ListNotations.

(** A thread makes a thread-local object with a mark in its destructor, marks an event, and ends while main waits for it: undefined. *)
Theorem C109_early_refuted :
  run (fun _ => [UTrace Mark]) ([Start 1; Local 1 0; Do 1 (UTrace Mark); Return 1] ++ repeat (Drop 1) 6) state0 = Undefined.
Proof. exact early_w. Qed.
(** Main marks an event, makes a static object with a mark in its destructor, and returns: undefined. *)
Theorem C109_static_refuted :
  run (fun _ => [UTrace Mark]) ([Do 0 (UTrace Mark); Static 0 0; Return 0] ++ repeat (Drop 0) 5 ++ [End 0; Exit]) state0 = Undefined.
Proof. exact static_w. Qed.
(** A thread marks an event, main returns, one static object is destroyed, the thread marks another event: undefined. No destructor of the program is involved. *)
Theorem C109_running_refuted :
  run (fun _ => []) [Start 1; Do 1 (UTrace Mark); Return 0; End 0; Exit; Do 1 (UTrace Mark)] state0 = Undefined.
Proof. exact running_w. Qed.
(** A thread gives itself a name, main returns, the thread ends: undefined, although the thread used nothing after the return of main. *)
Theorem C109_named_refuted :
  run (fun _ => []) [Start 1; Do 1 USetName; Return 0; End 0; Exit; Return 1; Drop 1] state0 = Undefined.
Proof. exact named_w. Qed.

(** Always: a thread-local object with a tracepoint in its destructor that a thread made before its first tracepoint is never destroyed in a defined way,
    and the thread never ends, whatever the program does. *)
Theorem C109_early : forall body a b s t k f g,
  reached body (a ++ Local t k :: b) s -> (forall f', ~ In (Do t (UTrace f')) a) -> In (Do t (UTrace f)) b -> In (UTrace g) (body k) ->
  In (TUser k) (h_live (g_threads s t)) /\ ~ In (End t) (a ++ Local t k :: b).
Proof. exact early_stays. Qed.
(** Always: a static object with a tracepoint in its destructor is never destroyed in a defined way once the main thread has traced. *)
Theorem C109_static : forall body ls s t k f g,
  reached body ls s -> In (Do 0 (UTrace f)) ls -> In (Static t k) ls -> In (UTrace g) (body k) -> In (SUser k) (g_live s).
Proof. exact static_stays. Qed.
(** Always: when the static objects have been destroyed, a thread that uses what was used before makes the program undefined. *)
Theorem C109_after : forall body ls s t t' u,
  reached body ls s -> In (Do t' u) ls -> g_live s = [] -> h_phase (g_threads s t) = Running -> run body (ls ++ [Do t u]) state0 = Undefined.
Proof. exact after_exit. Qed.
(** Always: and a thread that still has its name then cannot end. *)
Theorem C109_named : forall body a b s s' t,
  reached body a s -> g_live s = [] -> t <> 0 -> In t (g_named s) -> reached body (a ++ b) s' -> ~ In (End t) b.
Proof. exact named_never_ends. Qed.

(** Programs that take care never do anything undefined. *)
Theorem C109_careful : forall body ls, careful body ls -> run body ls state0 <> Undefined.
Proof. exact careful_safe. Qed.
(** In all programs, every tracepoint passed is pushed, and always to a buffer the collector knows as that of a running thread. *)
Theorem C109_pushes : forall body ls s, reached body ls s ->
  (forall t f, In (Do t (UTrace f)) ls -> In (t, f, true) (g_log s)) /\ (forall t f b, In (t, f, b) (g_log s) -> b = true).
Proof. exact pushes. Qed.
(** In all programs, a thread that has ended, even after main, has left nothing among the running threads and the names, and has put its buffer aside exactly once. *)
Theorem C109_leaves : forall body ls s t, reached body ls s -> t <> 0 -> In (End t) ls ->
  ~ In t (g_active s) /\ ~ In t (g_named s) /\ (forall f, In (Do t (UTrace f)) ls -> count_occ Nat.eq_dec (g_orphans s) t = 1).
Proof. exact leaves. Qed.
(** In all programs, as long as no static object has been destroyed: a running thread that has traced or set its switch has one, and a thread that has ended has none. *)
Theorem C109_switches : forall body ls s t, reached body ls s -> ~ In Exit ls ->
  (h_phase (g_threads s t) = Running -> (In (Do t USetState) ls \/ exists f, In (Do t (UTrace f)) ls) -> In t (g_states s)) /\
  (t <> 0 -> In (End t) ls -> ~ In t (g_states s)).
Proof. exact switches. Qed.

Print Assumptions C109_early_refuted. Print Assumptions C109_static_refuted. Print Assumptions C109_running_refuted. Print Assumptions C109_named_refuted.
Print Assumptions C109_early. Print Assumptions C109_static. Print Assumptions C109_after. Print Assumptions C109_named.
Print Assumptions C109_careful. Print Assumptions C109_pushes. Print Assumptions C109_leaves. Print Assumptions C109_switches.
