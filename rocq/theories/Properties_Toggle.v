(** Property C91: what the record says of blocks when tracing is switched on and off while they run.
    Cases that meet the hypotheses: [ex_one_stretch], [ex_scoped_only] in [Toggle_proofs.v]. *)
From Coq Require Import List Arith NArith ZArith Bool.
Import ListNotations.
From Verif Require Import UnixSystem_model TraceEvent_model Config_model Config_spec Toggle_spec Toggle_proofs.

(** Whatever anyone switches, and whenever: the events of a thread are those of its program, in their order, each present exactly if
    tracing was on for the process and for the thread when the thread ran into its tracepoint (and the buffer had room). *)
Theorem C91_recorded : forall ls0 s0 i p ls s evs0,
  Forall not_late ls0 -> grun ls0 cfg0 = Some s0 -> events_are s0 i evs0 ->
  runs_program i p ls -> Forall not_late ls -> grun ls s0 = Some s ->
  length (marks i ls s0) = length (events_of p) /\
  events_are s i (evs0 ++ map snd (recorded 0 (marks i ls s0) (events_of p))).
Proof. exact record_of_program. Qed.
Print Assumptions C91_recorded.

(** The whole record shows exactly the blocks of the program. *)
Theorem C91_whole : forall p, scoped_only p ->
  forall x y, In (x, y) (shown [] (recorded 0 (repeat true (length (events_of p))) (events_of p))) <-> In (x, y) (blocks p).
Proof. exact whole_record. Qed.
Print Assumptions C91_whole.

(** If tracing was on during one stretch, a reader sees exactly the blocks that began and ended in it, from their own begin to their
    own end.  Missing for C91: more than one stretch (below). *)
Theorem C91_partial : forall p m, scoped_only p -> length m = length (events_of p) -> one_stretch m ->
  forall x y, In (x, y) (shown [] (recorded 0 m (events_of p))) <-> In (x, y) (blocks p) /\ in_record m x /\ in_record m y.
Proof. exact stretch_right. Qed.
Print Assumptions C91_partial.

(** With any number of stretches, and any events dropped: a block with both events in the record is shown right if no block inside it
    has only one of its two. *)
Theorem C91_inside : forall p m x y st, scoped_only p -> length m = length (events_of p) ->
  In (x, y) (blocks p) -> in_record m x -> in_record m y ->
  (forall x' y', In (x', y') (blocks p) -> x < x' -> y' < y -> ~ halved m (x', y')) ->
  In (x, y) (shown st (recorded 0 m (events_of p))).
Proof. exact block_right. Qed.
Print Assumptions C91_inside.

(** It is shown right exactly if the recorded events inside it even out. *)
Theorem C91_exact : forall p m x y, scoped_only p -> length m = length (events_of p) ->
  In (x, y) (blocks p) -> in_record m x -> in_record m y ->
  (In (x, y) (shown [] (recorded 0 m (events_of p))) <-> evens_out x y (recorded 0 m (events_of p))).
Proof. exact block_exact. Qed.
Print Assumptions C91_exact.

(** If no block has only one of its events in the record, exactly the recorded blocks are shown. *)
Theorem C91_none_halved : forall p m st, scoped_only p -> length m = length (events_of p) -> (forall b, In b (blocks p) -> ~ halved m b) ->
  forall x y, In (x, y) (shown st (recorded 0 m (events_of p))) <-> In (x, y) (blocks p) /\ in_record m x /\ in_record m y.
Proof. exact none_halved. Qed.
Print Assumptions C91_none_halved.

(** Off and on again: block 1 (tracepoints 0 to 3) is shown to end where block 2 inside it (1 to 2) ends, although both its own events
    are in the record. *)
Theorem C91_refuted : exists s0 s,
  grun [GStart 7] cfg0 = Some s0 /\ runs_program 0 w_prog w_toggled /\ grun w_toggled s0 = Some s /\
  marks 0 w_toggled s0 = [true; false; true; true] /\
  blocks w_prog = [(0, 3); (1, 2)] /\
  shown [] (recorded 0 (marks 0 w_toggled s0) (events_of w_prog)) = [(0, 2)].
Proof. exact wrong_duration. Qed.
Print Assumptions C91_refuted.

(** The same without anyone remote: another thread has a scoped, process-wide change. *)
Theorem C91_scoped_refuted : exists s0 s,
  grun [GStart 7; GStart 8] cfg0 = Some s0 /\ runs_program 0 w_prog w_scoped /\ grun w_scoped s0 = Some s /\
  marks 0 w_scoped s0 = [true; false; true; true] /\
  shown [] (recorded 0 (marks 0 w_scoped s0) (events_of w_prog)) = [(0, 2)].
Proof. exact wrong_duration_scoped. Qed.
Print Assumptions C91_scoped_refuted.
