(** C101, continued: a thread that runs on. A concrete case is [fresh_case] in [RingsFresh_proofs.v]. *)
From Coq Require Import List Arith Bool.
From Verif Require RingBuffer_model.
From Verif Require Import Collector_model Rings_model Rings_spec RingsFresh_spec RingsFresh_proofs.
Import ListNotations.

(** A pass whose loads from the buffer of a running thread return the last index stored sends all that was accepted of this thread before the pass began, whatever the thread does in the meantime,
    as long as it does not end (for that see [C101_ended]). [C101_running_refuted] shows what happens without the assumption on the loads. *)
Theorem C101_current : forall n ls1 s ls2 s' i t, rrun n ls1 (rstate0 true) = Some s -> rs_pc s = RIdle -> nth_error (rs_threads s) i = Some t -> r_phase t = TRunning ->
  rrun n ls2 s = Some s' -> In RSend ls2 -> ~ In (ROrphan i) ls2 -> loads_current n i ls2 s -> exists more, sent_of i s' = map Some (accepted_of t) ++ more.
Proof. exact fresh_sent. Qed.
Print Assumptions C101_current.
