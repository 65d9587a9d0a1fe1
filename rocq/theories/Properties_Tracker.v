(** C44: the tables of names, used by any number of threads. *)
From Coq Require Import List Arith NArith.
From Verif Require Import Tracker_model Tracker_spec Tracker_proofs.

(** Whatever the schedule, all that the callers see is explained by the calls taking effect one after the other, each between its call and its return,
    every operation giving what the last writes before it left. *)
Theorem C44_linearizable {V} (blank : V) n xs s h : run blank xs (start n) = Some (s, h) -> linearizable h.
Proof. exact (linearized blank n xs s h). Qed.

(** Calls are told apart by their number, so that the history says what each call gave. *)
Theorem C44_apart {V} (blank : V) n xs s h : run blank xs (start n) = Some (s, h) -> told_apart h.
Proof. exact (apart blank n xs s h). Qed.

(** No schedule leaves a caller with nothing that can go on. *)
Theorem C44_progress {V} (blank : V) n xs s h : run blank xs (start n) = Some (s, h) ->
  at_rest s \/ exists x s' e, goes_on x /\ step blank x s = Some (s', e).
Proof. exact (never_stuck blank n xs s h). Qed.

Print Assumptions C44_linearizable.
Print Assumptions C44_apart.
Print Assumptions C44_progress.
