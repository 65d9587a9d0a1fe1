(** C100: switching tracing from outside while the program runs. *)
From Coq Require Import List Arith Bool.
From Verif Require Import Switch_model Switch_spec Switch_proofs Switch_witness.
Import ListNotations.

(** If nothing else switches meanwhile: whatever the threads of the program do while a request is handled, process and threads are then as asked, threads that
    are not named, or not yet known, are as they were, new ones are on, and the answer says exactly this of the threads that were known. *)
Theorem C100_done : forall ls0 s h r ls s1, run ls0 state0 = Some s -> no_requests s -> Forall quiet ls -> ~ In (Answer h) ls -> run (handling h r ls) s = Some s1 ->
  s_proc s1 = wanted_process r (s_proc s) /\ (forall i, not_ended s i -> thread_on s1 i = wanted_of r s i) /\
  exists ts, s_log s1 = s_log s ++ [(h, r, (s_proc s1, ts))] /\
    (forall tid b, In (tid, b) ts <-> exists i t, nth_error (s_threads s) i = Some t /\ t_live t = true /\ known t /\ t_id t = tid /\ thread_on s1 i = b).
Proof. exact done_as_asked. Qed.
Print Assumptions C100_done.

(** After the answer to a request that switches off, a thread can add the event of the tracepoint it was in, if it had already looked at the switch, and nothing else.
    Missing: that event (see [C100_straggler_refuted]). *)
Theorem C100_off_partial : forall ls0 s h r ls s1 ls2 s2 i,
  run ls0 state0 = Some s -> no_requests s -> Forall quiet ls -> ~ In (Answer h) ls -> run (handling h r ls) s = Some s1 ->
  Forall quiet ls2 -> run ls2 s1 = Some s2 ->
  (wanted_process r (s_proc s) = false -> exists x, events s2 i = events s1 i ++ x /\ (x = [] \/ x = past_process (place s1 i))) /\
  (not_ended s i -> wanted_of r s i = false -> exists x, events s2 i = events s1 i ++ x /\ (x = [] \/ x = past_both (place s1 i))).
Proof. exact off_stops. Qed.
Print Assumptions C100_off_partial.

(** After the answer to a request that leaves process and thread switched on, every tracepoint the thread comes to is recorded, in order, once, if there is room. *)
Theorem C100_on : forall ls0 s h r ls s1 ls2 s2 i,
  run ls0 state0 = Some s -> no_requests s -> Forall quiet ls -> ~ In (Answer h) ls -> run (handling h r ls) s = Some s1 ->
  Forall quiet ls2 -> run ls2 s1 = Some s2 -> Forall (roomy i) ls2 ->
  wanted_process r (s_proc s) = true -> not_ended s i -> wanted_of r s i = true ->
  events s2 i ++ under_way (place s2 i) = events s1 i ++ under_way (place s1 i) ++ come_to i ls2.
Proof. exact on_records. Qed.
Print Assumptions C100_on.

(** The same for a switch that stays off, or on, for whatever reason and whatever else is switched. *)
Theorem C100_while_off : forall i ls s s', run ls s = Some s' ->
  (throughout (fun s => s_proc s = false) ls s -> exists x, events s' i = events s i ++ x /\ (x = [] \/ x = past_process (place s i))) /\
  (throughout (fun s => thread_on s i = false) ls s -> exists x, events s' i = events s i ++ x /\ (x = [] \/ x = past_both (place s i))).
Proof. exact (fun i ls s s' R => conj (stops_process i ls s s' R) (stops_thread i ls s s' R)). Qed.
Print Assumptions C100_while_off.
Theorem C100_while_on : forall i ls s s', run ls s = Some s' -> throughout (fun s => s_proc s = true /\ thread_on s i = true) ls s -> Forall (roomy i) ls ->
  events s' i ++ under_way (place s' i) = events s i ++ under_way (place s i) ++ come_to i ls.
Proof. exact records. Qed.
Print Assumptions C100_while_on.

(** Whatever else is switched meanwhile, by the program or by other requests: each switch is reported as it was at some time while the request was handled, for every known thread, once. *)
Theorem C100_reported : forall ls0 s h r ls s1, run ls0 state0 = Some s -> ~ In (Answer h) ls -> run (handling h r ls) s = Some s1 ->
  exists p ts, (exists log, s_log s1 = log ++ [(h, r, (p, ts))]) /\
    (exists u, moment (Begin h r :: ls) s u /\ s_proc u = p) /\
    NoDup (map fst ts) /\
    (forall tid b, In (tid, b) ts -> exists i t u, nth_error (s_threads s) i = Some t /\ t_live t = true /\ known t /\ t_id t = tid /\ moment (Begin h r :: ls) s u /\ thread_on u i = b) /\
    (forall i t, nth_error (s_threads s) i = Some t -> t_live t = true -> known t -> In (t_id t) (map fst ts)).
Proof. exact reported. Qed.
Print Assumptions C100_reported.

(** The answer says that the process is off, no other request is handled, and then an event is recorded. *)
Theorem C100_straggler_refuted : exists s s', run w_straggler state0 = Some s /\ no_requests s /\ s_log s = [(1, Change true false [], (false, [(7, true)]))] /\
  run [Push 0 true] s = Some s' /\ events s 0 = [] /\ events s' 0 = [5].
Proof. exact straggler. Qed.
Print Assumptions C100_straggler_refuted.

(** A tracepoint is recorded though at no time from its begin on process and thread were both switched on. *)
Theorem C100_between_refuted : exists s s', run w_before state0 = Some s /\ run w_between s = Some s' /\
  throughout (fun s => s_proc s && thread_on s 0 = false) w_between s /\ place s 0 = Idle /\ events s 0 = [] /\ events s' 0 = [5].
Proof. exact between. Qed.
Print Assumptions C100_between_refuted.

(** The answer as a whole need not be a state there ever was: process and thread are reported on, and never were at the same time. *)
Theorem C100_answer_refuted : exists s s', run w_before state0 = Some s /\ run (handling 1 Query w_answer) s = Some s' /\
  s_log s' = [(1, Query, (true, [(7, true)]))] /\ throughout (fun s => s_proc s && thread_on s 0 = false) (handling 1 Query w_answer) s.
Proof. exact never_was. Qed.
Print Assumptions C100_answer_refuted.

(** A request that comes within a scoped change of the program is undone at the end of it. *)
Theorem C100_undone_refuted : exists s s', run w_scoped state0 = Some s /\ s_log s = [(1, Change true false [], (false, []))] /\ s_proc s = false /\
  run w_closed s = Some s' /\ s_proc s' = true /\ events s' 0 = [5].
Proof. exact undone. Qed.
Print Assumptions C100_undone_refuted.

(** The thread that is switched need not be the one that was seen: its number may have gone to another one. *)
Theorem C100_reused_refuted : exists s s', run w_seen state0 = Some s /\ s_log s = [(1, Query, (true, [(7, true)]))] /\ length (s_threads s) = 1 /\
  run w_reused s = Some s' /\ thread_on s' 0 = true /\ thread_on s' 1 = false.
Proof. exact reused. Qed.
Print Assumptions C100_reused_refuted.
