(** C101: from the tracepoint through the ring buffers to the broadcast, one memory access at a time. *)
From Coq Require Import List Arith Bool.
From Verif Require RingBuffer_model.
From Verif Require Import Collector_model Collector_spec Collector_proofs Rings_model Rings_spec RingsUse_proofs RingsPass_proofs Rings_witness.
Import ListNotations.

(** In whatever order threads and sender take their steps, and whatever the loads return: what was accepted of a thread is what was broadcast of it, then what the pass going on has
    popped, then what is in its buffer; in order, each event once.  Only a sender without transport loses any. *)
Theorem C101_exactly_once : forall n b ls s i t, rrun n ls (rstate0 b) = Some s -> nth_error (rs_threads s) i = Some t ->
  exists rest, map Some (accepted_of t) = filter (is_of i) (all_filed (rs_lost s)) ++ sent_of i s ++ popped_of i s ++ map Some rest /\ length rest <= n - 1 /\
    (b = true -> rs_lost s = []).
Proof. exact whole_once. Qed.
Print Assumptions C101_exactly_once.

(** The accepted events are some of those the thread traced, in order; all of them as long as they are fewer than the places of the buffer. *)
Theorem C101_called : forall n b ls s i t, rrun n ls (rstate0 b) = Some s -> nth_error (rs_threads s) i = Some t ->
  subseq (accepted_of t ++ unanswered t) (called i ls) /\ (length (called i ls) <= n - 1 -> accepted_of t ++ unanswered t = called i ls).
Proof. exact accepted_called. Qed.
Print Assumptions C101_called.

(** Every element of a broadcast is a whole event, traced by a thread with that number. *)
Theorem C101_only_whole : forall n b ls s m k l o, rrun n ls (rstate0 b) = Some s -> In m (rs_sent s) -> In (k, l) m -> In o l ->
  exists e t, o = Some e /\ nth_error (rs_threads s) (fst e) = Some t /\ r_tid t = k /\ In e (called (fst e) ls).
Proof. exact only_whole. Qed.
Print Assumptions C101_only_whole.

(** No data race on the places of a buffer and no access outside of it. *)
Theorem C101_no_race : forall n b ls s i t, rrun n ls (rstate0 b) = Some s -> nth_error (rs_threads s) i = Some t ->
  RingBuffer_model.raced (r_ring t) = false /\ RingBuffer_model.oob (r_ring t) = false.
Proof. exact rings_safe. Qed.
Print Assumptions C101_no_race.

(** What Collector_model says with buffers that are lists, emptied in one step, holds of the ring buffers: every run shows what a run of that model shows. *)
Theorem C101_refines : forall n b ls s, rrun n ls (rstate0 b) = Some s ->
  exists cs c, crun (n - 1) cs (if b then c_attached else c0) = Some c /\ shows s c /\ forall i t, nth_error (rs_threads s) i = Some t -> emissions i cs = accepted_of t.
Proof. exact refines. Qed.
Print Assumptions C101_refines.

(** A thread has ended: the next pass that begins sends all that is left of it, whatever the loads return. *)
Theorem C101_ended : forall n ls1 s ls2 s' i, rrun n ls1 (rstate0 true) = Some s -> ended i s -> rs_pc s = RIdle -> rrun n ls2 s = Some s' -> In RSend ls2 ->
  exists t, nth_error (rs_threads s') i = Some t /\ sent_of i s' = map Some (accepted_of t).
Proof. exact ended_sent. Qed.
Print Assumptions C101_ended.

(** No thread waits: at most three accesses for each event traced, each of them always possible. *)
Theorem C101_wait_free : forall n b ls s i, rrun n ls (rstate0 b) = Some s -> accesses i ls <= 3 * length (called i ls) /\
  forall t, nth_error (rs_threads s) i = Some t -> unanswered t <> [] -> exists c s', rstep n (RAccess i c) s = Some s'.
Proof. exact wait_free. Qed.
Print Assumptions C101_wait_free.

(** Nor does the sender: a pass can be completed by its own steps, wherever the threads are. *)
Theorem C101_pass : forall n b ls s, rrun n ls (rstate0 b) = Some s -> rs_pc s = RIdle ->
  exists ls2 s', rrun n (ls2 ++ [RSend]) s = Some s' /\ Forall of_sender ls2 /\ rs_pc s' = RIdle.
Proof. exact pass_possible. Qed.
Print Assumptions C101_pass.

(** But: an event can be refused although all before it have been broadcast and the buffer is empty. *)
Theorem C101_room_refuted : exists s t s' t', rrun 2 before (rstate0 true) = Some s /\ nth_error (rs_threads s) 0 = Some t /\ rs_pc s = RIdle /\
  accepted_of t = [(0, 1)] /\ sent_of 0 s = [Some (0, 1)] /\
  rrun 2 [RPush 0 2; RAccess 0 0] s = Some s' /\ nth_error (rs_threads s') 0 = Some t' /\ unanswered t' = [] /\ accepted_of t' = [(0, 1)].
Proof. exact refused_although_empty. Qed.
Print Assumptions C101_room_refuted.

(** And of a thread that runs on, no number of passes is known to send an accepted event: the loads may go on returning the index from before. *)
Theorem C101_running_refuted : forall k, exists s t, rrun 2 (started ++ passes k) (rstate0 true) = Some s /\ rs_pc s = RIdle /\
  nth_error (rs_threads s) 0 = Some t /\ accepted_of t = [(0, 1)] /\ sent_of 0 s = [].
Proof. exact never_found. Qed.
Print Assumptions C101_running_refuted.
