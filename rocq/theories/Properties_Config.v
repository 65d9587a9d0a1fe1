(** Properties of the tracepoints and their configuration: C18, C19, C20, C21, C59, C60.
    The concrete cases that meet the hypotheses are at the end of [Config_proofs.v] ([ex_nested], [ex_lifo_ok], [ex_remote]). *)
From Coq Require Import List Arith NArith ZArith Bool.
Import ListNotations.
From Verif Require Import TraceEvent_model Config_model Config_spec Config_proofs.

(** The model behaves as the abstract machine of [Config_spec.v] (no heap of flags, no map, no cached pointers): the same
    steps are possible, and process state, thread states, scopes and events are the same after each history. *)
Theorem C18_refines : forall ls,
  Forall not_late ls ->
  match grun ls cfg0, arun ls acfg0 with Some s, Some a => same_seen s a | None, None => True | _, _ => False end.
Proof. exact refines. Qed.
Print Assumptions C18_refines.

(** A tracepoint adds its event to the events of its own thread exactly if the process, the thread and the buffer allow it. *)
Theorem C18_emits : forall ls s i p time room s',
  Forall not_late ls -> grun ls cfg0 = Some s -> gstep (GTrace i p time room) s = Some s' ->
  exists on evs, thread_is s i on /\ events_are s i evs /\
   events_are s' i (evs ++ if g_process s && on && room then [event_of p time] else []) /\
   (forall j l, j <> i -> events_are s j l -> events_are s' j l) /\
   g_process s' = g_process s /\ (forall j b, thread_is s j b -> thread_is s' j b).
Proof. exact tracepoint_emits. Qed.
Print Assumptions C18_emits.

(** The event says which tracepoint it was: kind, level, id, value, and the time. *)
Theorem C18_event_readable : forall p time, reads_as (event_of p time) = Some (p, time).
Proof. exact event_readable. Qed.
Print Assumptions C18_event_readable.

(** A step of another thread changes neither the state of thread [i] nor its events. *)
Theorem C18_independent : forall ls s l s' i b,
  Forall not_late ls -> grun ls cfg0 = Some s -> not_late l -> gstep l s = Some s' -> thread_is s i b ->
  thread_of l <> Some i -> (forall r, l <> GRemote r) -> thread_is s' i b /\ (forall evs, events_are s i evs -> events_are s' i evs).
Proof. exact threads_independent. Qed.
Print Assumptions C18_independent.

(** A new thread is enabled, also when the id was used by a thread before. *)
Theorem C18_starts_enabled : forall ls s tid s',
  Forall not_late ls -> grun ls cfg0 = Some s -> gstep (GStart tid) s = Some s' -> thread_is s' (length (g_threads s)) true.
Proof. exact thread_starts_enabled. Qed.
Print Assumptions C18_starts_enabled.

(** A call made while thread-local objects are destroyed outlives its thread. *)
Theorem C60_late_call_refuted : 
  exists s, grun w_late cfg0 = Some s /\ g_process s = true /\ thread_is s 1 false /\ events_are s 1 [] /\
   (forall b, ~ In (GSetThread 1 b) w_late) /\ (forall r, ~ In (GRemote r) w_late).
Proof. exact late_inherited. Qed.
Print Assumptions C60_late_call_refuted.

(** Missing for C19: buffers that overflow (see below). *)
Theorem C19_nested_partial : forall ls0 s0 i p ls s evs0 on0,
  Forall not_late ls0 -> grun ls0 cfg0 = Some s0 -> thread_is s0 i on0 -> events_are s0 i evs0 ->
  (forall j l v, j <> i -> scopes_are s0 j l -> ~ In (true, v) l) ->
  scoped_only p -> steps_of i ls = fst (calls_of i p) -> Forall (minds_own_business i) ls -> grun ls s0 = Some s ->
  exists evs, events_are s i (evs0 ++ evs) /\ nested evs /\ thread_is s i on0 /\ g_process s = g_process s0.
Proof. exact scoped_program_nested. Qed.
Print Assumptions C19_nested_partial.

(** With a full buffer the begin event may be dropped and the end event kept. *)
Theorem C19_overflow_refuted : 
  exists s0 s evs, grun [GStart 7] cfg0 = Some s0 /\ grun w_overflow s0 = Some s /\ thread_is s0 0 true /\ g_process s0 = true /\
   events_are s0 0 [] /\ events_are s 0 evs /\ ~ nested evs.
Proof. exact overflow_not_nested. Qed.
Print Assumptions C19_overflow_refuted.

(** A scope of a thread, with any program of this thread inside and anything the other threads do in between. *)
Theorem C20_restores : forall ls0 s0 i isp b p ls s1 s2 s3 on0,
  Forall not_late ls0 -> grun ls0 cfg0 = Some s0 -> thread_is s0 i on0 ->
  gstep (GScope i isp b) s0 = Some s1 ->
  steps_of i ls = fst (calls_of i p) -> Forall not_late ls -> grun ls s1 = Some s2 ->
  gstep (GUnscope i) s2 = Some s3 ->
  (if isp then g_process s1 = b /\ g_process s3 = g_process s0 /\ (forall j v, thread_is s2 j v -> thread_is s3 j v)
   else thread_is s1 i b /\ thread_is s3 i on0 /\ g_process s3 = g_process s2 /\ (forall j v, j <> i -> thread_is s2 j v -> thread_is s3 j v)).
Proof. exact scope_exit_restores. Qed.
Print Assumptions C20_restores.

(** Missing for C59: scopes of two threads that overlap (see below). *)
Theorem C59_last_opened_first_partial : forall ls0 s0 ls s,
  Forall not_late ls0 -> grun ls0 cfg0 = Some s0 -> (forall i l v, scopes_are s0 i l -> ~ In (true, v) l) ->
  Forall scopes_only ls -> grun ls s0 = Some s -> last_opened_first [] ls s0 = Some [] -> g_process s = g_process s0.
Proof. exact lifo_scopes_restore. Qed.
Print Assumptions C59_last_opened_first_partial.

(** Two threads disable the process in overlapping scopes: it stays disabled when both are closed. *)
Theorem C59_overlap_refuted : 
  exists s0 s, grun [GStart 7; GStart 8] cfg0 = Some s0 /\ grun w_overlap s0 = Some s /\
   Forall scopes_only w_overlap /\ (forall i, i < 2 -> scopes_are s0 i [] /\ scopes_are s i []) /\ g_process s0 = true /\ g_process s = false.
Proof. exact overlapping_scopes. Qed.
Print Assumptions C59_overlap_refuted.

(** A query changes nothing and reports all threads that have come across tracing. *)
Theorem C21_query : forall ls s,
  Forall not_late ls -> grun ls cfg0 = Some s ->
  let '(s', reply) := c_handle CQuery s in
  s' = s /\ fst reply = g_process s /\ NoDup (map fst (snd reply)) /\
  (forall tid, In tid (map fst (snd reply)) <-> exists i t, nth_error (g_threads s) i = Some t /\ t_live t = true /\ t_cleanup t = true /\ t_tid t = tid) /\
  (forall i t b, nth_error (g_threads s) i = Some t -> t_live t = true -> In (t_tid t, b) (snd reply) -> thread_is s i b).
Proof. exact remote_query. Qed.
Print Assumptions C21_query.

(** A change does what was asked for, and nothing else, and is answered with the complete new state. *)
Theorem C21_change : forall ls s sp p ths,
  Forall not_late ls -> grun ls cfg0 = Some s ->
  let before := snd (c_handle CQuery s) in
  let '(s', reply) := c_handle (CChange sp p ths) s in
  (fst reply = if sp then p else fst before) /\
  map fst (snd reply) = map fst (snd before) /\
  (forall tid b, In (tid, b) (snd before) -> In (tid, match asked ths tid with Some b' => b' | None => b end) (snd reply)) /\
  reply = snd (c_handle CQuery s') /\
  g_threads s' = g_threads s /\
  (forall i t b, nth_error (g_threads s) i = Some t -> thread_is s i b ->
     thread_is s' i (if t_cleanup t then match asked ths (t_tid t) with Some b' => b' | None => b end else b)) /\
  (exists ls', Forall not_late ls' /\ grun ls' cfg0 = Some s').
Proof. exact remote_change. Qed.
Print Assumptions C21_change.
