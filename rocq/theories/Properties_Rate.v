(** C116: a thread that does not trace faster than its buffer is emptied loses nothing. Concrete cases are in [Rate_witness.v]. *)
From Coq Require Import List Arith Bool.
From Verif Require RingBuffer_model.
From Verif Require Import Collector_model Rings_model Rings_spec RingsFresh_spec Rate_spec Rate_proofs Rate_witness.
Import ListNotations.

(** A buffer of [n] elements has [n - 1] places. If the thread traces fewer events than that in every part of the history in which at most one pass ends, and the loads of thread and sender
    return the last index stored, then every event traced is accepted, or its [push] is still going on. Missing: loads that return older values. *)
Theorem C116_partial : forall n ls s i t, rrun n ls (rstate0 true) = Some s -> slow i (n - 1) ls -> loads_current n i ls (rstate0 true) -> pushes_current n i ls (rstate0 true) ->
  nth_error (rs_threads s) i = Some t -> accepted_of t ++ unanswered t = called i ls.
Proof. exact none_dropped. Qed.
Print Assumptions C116_partial.

(** And once the thread has ended and a pass begun after that is done: what was broadcast of it is what it traced, in order. *)
Theorem C116_all_partial : forall n ls1 s ls2 s' i, rrun n ls1 (rstate0 true) = Some s -> ended i s -> rs_pc s = RIdle -> rrun n ls2 s = Some s' -> In RSend ls2 ->
  slow i (n - 1) (ls1 ++ ls2) -> loads_current n i (ls1 ++ ls2) (rstate0 true) -> pushes_current n i (ls1 ++ ls2) (rstate0 true) -> sent_of i s' = map Some (called i (ls1 ++ ls2)).
Proof. exact all_sent. Qed.
Print Assumptions C116_all_partial.

(** The loads of the thread may return an older index: an event is lost although the buffer is empty and the thread is slow. *)
Theorem C116_push_refuted : exists s t, rrun 4 old_push (rstate0 true) = Some s /\ slow 0 3 old_push /\ loads_current 4 0 old_push (rstate0 true) /\ nth_error (rs_threads s) 0 = Some t /\
  unanswered t = [] /\ called 0 old_push = map (pair 0) [1; 2; 3; 4] /\ accepted_of t = map (pair 0) [1; 2; 3] /\ sent_of 0 s = map (fun x => Some (0, x)) [1; 2; 3].
Proof. exact old_push_drops. Qed.
Print Assumptions C116_push_refuted.

(** So may those of the sender: three passes find nothing, and an event is lost. *)
Theorem C116_take_refuted : exists s t, rrun 4 old_take (rstate0 true) = Some s /\ slow 0 3 old_take /\ pushes_current 4 0 old_take (rstate0 true) /\ nth_error (rs_threads s) 0 = Some t /\
  unanswered t = [] /\ called 0 old_take = map (pair 0) [1; 2; 3; 4] /\ accepted_of t = map (pair 0) [1; 2; 3] /\ sent_of 0 s = [].
Proof. exact old_take_drops. Qed.
Print Assumptions C116_take_refuted.

(** The bound is the best there is: with as many events as places, here two, one can be lost with all loads up to date. *)
Theorem C116_tight : exists s t, rrun 3 held_up (rstate0 true) = Some s /\ slow 0 3 held_up /\ loads_current 3 0 held_up (rstate0 true) /\ pushes_current 3 0 held_up (rstate0 true) /\
  nth_error (rs_threads s) 0 = Some t /\ unanswered t = [] /\ called 0 held_up = map (pair 0) [1; 2; 3] /\ accepted_of t = map (pair 0) [1; 2].
Proof. exact held_up_drops. Qed.
Print Assumptions C116_tight.
