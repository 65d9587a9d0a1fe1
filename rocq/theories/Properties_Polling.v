(** C112: polling that is started and stopped by any threads. *)
From Coq Require Import List Arith Bool.
Import ListNotations.
From Verif Require Import Polling_model Polling_spec Polling_proofs.

(** As long as no two calls overlap and none is made from within a poll: the program is never ended, no call throws, and there are never two threads that poll. *)
Theorem C112_safe_partial : forall ls s, serial ls s -> over s = None /\ Forall (fun c => ca_pc c <> Threw) (calls s) /\ living s <= 1.
Proof. exact serial_safe. Qed.
Print Assumptions C112_safe_partial.

(** Between the calls there is a thread that polls exactly if the last call was [startPolling]. *)
Theorem C112_polls_partial : forall ls s, serial ls s -> quiet s -> living s = if polling_wanted s then 1 else 0.
Proof. exact serial_polls. Qed.
Print Assumptions C112_polls_partial.

(** With polls of at most [M] ms and intervals of at most [I], every call returns within [M + I] ms. *)
Theorem C112_time_partial : forall M I ls s c, serial ls s -> Forall (within M I) ls -> In c (calls s) ->
  match ca_pc c with Returned t => ca_begin c <= t <= ca_begin c + (M + I) | _ => now s <= ca_begin c + (M + I) end.
Proof. exact serial_time. Qed.
Print Assumptions C112_time_partial.

(** After [startPolling] has returned, at time [t], and until the next call: a poll has begun since and not longer than [M + i] ms ago, or no time has passed. *)
Theorem C112_fresh_partial : forall M I ls s cs c i t, serial ls s -> Forall (within M I) ls -> quiet s -> calls s = cs ++ [c] -> ca_what c = Start i -> ca_pc c = Returned t ->
  now s = t \/ exists b, In b (polls s) /\ t <= b <= now s /\ now s <= b + (M + i).
Proof. exact serial_fresh. Qed.
Print Assumptions C112_fresh_partial.

(** Nothing gets stuck: without any further call, something can always happen. *)
Theorem C112_alive_partial : forall ls s, serial ls s -> exists l s', (forall c, l <> Call c) /\ (forall w c, l <> Inside w c) /\ step l s = Some s'.
Proof. exact serial_alive. Qed.
Print Assumptions C112_alive_partial.

(** Two threads stop the polling: both join the same thread, undefined. *)
Theorem C112_two_stops_refuted : exists ls s, run ls state0 = Some s /\ (forall w c, ~ In (Inside w c) ls) /\ map ca_what (calls s) = [Start 5; Stop; Stop] /\ over s = Some Undefined.
Proof. exact two_stops. Qed.
Print Assumptions C112_two_stops_refuted.

(** One stops it while another starts it: [stopPolling] throws, and the destructor of the manager ends the program later. *)
Theorem C112_start_stop_refuted : exists ls s, run ls state0 = Some s /\ (forall w c, ~ In (Inside w c) ls) /\ map ca_what (calls s) = [Start 5; Stop; Destroy] /\
  nth_error (map ca_pc (calls s)) 1 = Some Threw /\ over s = Some Terminated.
Proof. exact stop_in_start. Qed.
Print Assumptions C112_start_stop_refuted.

(** Two threads start it: the program is ended. *)
Theorem C112_two_starts_refuted : exists ls s, run ls state0 = Some s /\ (forall w c, ~ In (Inside w c) ls) /\ map ca_what (calls s) = [Start 5; Start 7] /\ over s = Some Terminated.
Proof. exact two_starts. Qed.
Print Assumptions C112_two_starts_refuted.

(** A logger or a factory stops it, within a poll: the program is ended. *)
Theorem C112_inside_refuted : exists ls s, run ls state0 = Some s /\ map ca_what (calls s) = [Start 5] /\ Forall returned (calls s) /\ over s = Some Terminated.
Proof. exact stop_inside. Qed.
Print Assumptions C112_inside_refuted.

(** For every interval [i]: stopping can take all of it, although a poll takes no time. *)
Theorem C112_slow_refuted : forall i, exists ls s c, serial ls s /\ Forall (within 0 i) ls /\ nth_error (calls s) 1 = Some c /\ ca_what c = Stop /\ ca_begin c = 0 /\ ca_pc c = Returned i /\ polls s = [0].
Proof. exact slow_stop. Qed.
Print Assumptions C112_slow_refuted.
