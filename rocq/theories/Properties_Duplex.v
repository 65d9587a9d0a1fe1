(** C88: a server and its clients that send at the same time. *)
From Coq Require Import List Arith Bool.
Import ListNotations.
From Verif Require Import Duplex_model Duplex_spec Duplex_proofs Duplex_witness.

(** C88 in full: whatever a server and its clients have to send, a run that goes on as long as it can ends with everything
    received.  This is false: [C88_refuted], [C88_answer_refuted].  What holds: *)

(** If clients do not broadcast and do not answer broadcasts, everything is received, whatever the sizes. *)
Theorem C88_partial cap cl casts es s : 0 < cap -> Forall (fun p => snd p = []) cl -> Forall (fun m => m_answer m = None) casts ->
  d_run cap es (duplex0 cl casts) = Some s -> stuck cap s -> finished s.
Proof. exact (one_way cap cl casts es s). Qed.
Print Assumptions C88_partial.

(** So it is if, for every client, everything sent in one of the two directions fits into the connection. *)
Theorem C88_fits_partial cap cl casts es s : 0 < cap ->
  (forall rq cs, In (rq, cs) cl ->
     total size rq + total size cs + total answer_size casts <= cap \/ total size casts + total answer_size rq + total answer_size cs <= cap) ->
  d_run cap es (duplex0 cl casts) = Some s -> stuck cap s -> finished s.
Proof. exact (fits cap cl casts es s). Qed.
Print Assumptions C88_fits_partial.

(** In the end the numbers of messages received are those sent, on both sides. *)
Theorem C88_received cap cl casts es s i p : d_run cap es (duplex0 cl casts) = Some s -> finished s -> nth_error cl i = Some p ->
  exists c, nth_error (d_clients s) i = Some c /\
    c_upgot c = length (fst p) + length (snd p) + answered casts /\
    c_downgot c = length casts + answered (fst p) + answered (snd p).
Proof. exact (all_received cap cl casts es s i p). Qed.
Print Assumptions C88_received.

(** No run goes on for ever, and every run goes on until nobody can do anything. *)
Theorem C88_bounded cap s : exists n, forall es s', d_run cap es s = Some s' -> length es <= n.
Proof. exact (bounded cap s). Qed.
Print Assumptions C88_bounded.
Theorem C88_goes_on cap s : exists es s', d_run cap es s = Some s' /\ stuck cap s'.
Proof. exact (goes_on cap s). Qed.
Print Assumptions C88_goes_on.

(** There is one way only in which it can fail: the workers of the server and of a client send to each other, and both
    directions are full. *)
Theorem C88_ring cap cl casts es s : 0 < cap -> d_run cap es (duplex0 cl casts) = Some s -> stuck cap s -> finished s \/ ring cap s.
Proof. exact (stuck_ring cap cl casts es s). Qed.
Print Assumptions C88_ring.

(** Then it is for ever, and the server does not read anything from anybody any more. *)
Theorem C88_forever cap es s s' : ring cap s -> d_run cap es s = Some s' -> ring cap s' /\ map c_upgot (d_clients s') = map c_upgot (d_clients s).
Proof. exact (ring_forever cap es s s'). Qed.
Print Assumptions C88_forever.

(** It happens whenever the server and its client broadcast something larger than the connection holds, at the same time
    (a broadcast that just fits does no harm: [C88_fits_partial]). *)
Theorem C88_refuted cap n1 n2 a1 a2 : 0 < cap -> cap <= n1 -> cap <= n2 ->
  exists es s, d_run cap es (duplex0 [([], [{| m_more := n2; m_answer := a2 |}])] [{| m_more := n1; m_answer := a1 |}]) = Some s /\ stuck cap s /\ ~ finished s.
Proof. exact (both_broadcast cap n1 n2 a1 a2). Qed.
Print Assumptions C88_refuted.

(** Nor is a broadcast of the client needed: an endpoint that answers a broadcast of the server will do. *)
Theorem C88_answer_refuted cap n k a : 0 < cap -> cap <= n -> cap <= k ->
  exists es s, d_run cap es (duplex0 [([], [])] [{| m_more := 0; m_answer := Some k |}; {| m_more := n; m_answer := a |}]) = Some s /\ stuck cap s /\ ~ finished s.
Proof. exact (answers_broadcast cap n k a). Qed.
Print Assumptions C88_answer_refuted.
