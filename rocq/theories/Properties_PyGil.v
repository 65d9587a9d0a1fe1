(** C75: the interpreter of Python is only used by the thread that has its lock. Proved as long as Python code does not call [wait_for] on what a
    request returns and gives the web server no logger; with either, two threads can be in the interpreter at once. *)
From Coq Require Import List.
From Verif Require Import PyGil_model PyGil_spec PyGil_proofs PyGil_witness.

Theorem C75_partial : forall prog s, program false false prog -> reachable prog s -> sound s /\ ~ clash s.
Proof. exact gil_sound. Qed.
Theorem C75_progress : forall waits logger prog s, program waits logger prog -> reachable prog s ->
  forall t, todo s t <> nil -> exists u s', step u s = Some s'.
Proof. exact goes_on. Qed.
Theorem C75_refuted : (exists prog s, program true false prog /\ reachable prog s /\ clash s) /\ (exists prog s, program false true prog /\ reachable prog s /\ clash s).
Proof. exact (conj wait_for_clash logger_clash). Qed.

Print Assumptions C75_partial.
Print Assumptions C75_progress.
Print Assumptions C75_refuted.
