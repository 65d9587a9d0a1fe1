(** C113: a process that stands still. *)
From Coq Require Import List Arith Bool.
Import ListNotations.
From Verif Require Import Still_model Still_spec Still_proofs.

(** As long as the manager does not come to a server that stands still and has six connections it did not accept: a poll, during which nobody gets the endpoints, takes at most 200 ms for each server found,
    whatever the servers do. *)
Theorem C113_time_partial : forall n s ds s1 ls s',
  reached n s -> step (Poll ds) s = Some s1 -> run ls s1 = Some s' -> no_poll ls -> calm ls s1 -> man s' <> Idle -> man s' <> Crashed -> now s' <= now s + 200 * length ds.
Proof. exact poll_time. Qed.
Print Assumptions C113_time_partial.

(** When a poll has ended, there is a connection to each server found, whichever of them stand still. *)
Theorem C113_connects_partial : forall n s ds s1 ls s',
  reached n s -> step (Poll ds) s = Some s1 -> run ls s1 = Some s' -> no_poll ls -> man s' = Idle -> forall p, In p ds -> In p (held s').
Proof. exact poll_connects. Qed.
Print Assumptions C113_connects_partial.

(** And nothing else holds a poll up: outside such a server there is always a next step of the manager, of the clock while a question is out, or of the running server it waits for. *)
Theorem C113_never_stuck_partial : forall n s, reached n s -> man s <> Idle -> man s <> Crashed -> (forall p, ~ blocked p s) ->
  (exists s', step Go s = Some s') \/ (exists s', step Tick s = Some s' /\ now s' = S (now s)) \/
  (exists p todo s', man s = Waits p todo /\ step (Accept p) s = Some s').
Proof. exact never_stuck. Qed.
Print Assumptions C113_never_stuck_partial.

(** A manager that came to such a server stays there, holds its mutex and connects to nobody else, whatever happens to all other processes, until that one goes on or ends. *)
Theorem C113_for_ever_refuted : forall p todo ls s s', man s = Waits p todo -> full p s -> ~ In (Resume p) ls -> ~ In (Die p) ls -> run ls s = Some s' ->
  man s' = Waits p todo /\ full p s' /\ held s' = held s.
Proof. exact blocked_for_ever. Qed.
Print Assumptions C113_for_ever_refuted.

(** It does come to that, for any time: server 0 stands still, six others have connected to it, and server 1, which runs, is not connected. *)
Theorem C113_refuted : forall k, exists ls s, run ls (state0 2) = Some s /\ man s = Waits 0 [1] /\ full 0 s /\ k <= now s /\
  nth_error (servers s) 1 = Some {| sv_up := Runs; sv_queue := [] |} /\ ~ In 1 (held s).
Proof. exact others_wait. Qed.
Print Assumptions C113_refuted.

(** If the process goes on and accepts, so does the manager. *)
Theorem C113_goes_on : forall s p todo q, man s = Waits p todo -> nth_error (servers s) p = Some {| sv_up := Stands; sv_queue := q |} -> length q = 6 ->
  exists s', run [Resume p; Accept p; Go] s = Some s' /\ man s' = Asks p 200 todo /\ In p (held s').
Proof. exact goes_on. Qed.
Print Assumptions C113_goes_on.

(** If it ends, for instance because somebody kills it, the manager's program ends too. *)
Theorem C113_killed_refuted : forall s p todo, blocked p s -> man s = Waits p todo -> exists s', run [Die p; Go] s = Some s' /\ man s' = Crashed.
Proof. exact dies. Qed.
Print Assumptions C113_killed_refuted.

(** In a poll each process is asked at most once, in the order in which they were found: those that answer are among them, in this order, each once. *)
Theorem C113_answers : forall s ds s1 ls s', step (Poll ds) s = Some s1 -> run ls s1 = Some s' -> no_poll ls -> exists a, answered s' = answered s ++ a /\ within a ds.
Proof. exact poll_answers. Qed.
Print Assumptions C113_answers.
