(** Properties C01, C02 and C03: the wire protocol of the Unix socket transport. *)
From Coq Require Import List Arith NArith Ascii Bool.
Import ListNotations.
From Verif Require Import Protocol_model Protocol_spec Protocol_proofs.

(** C01: whatever sequence of messages (within the limits of the length fields) is successfully sent,
    the same sequence is received, and exactly the bytes following it remain in the stream. *)
Theorem C01_round_trip : forall fd ms outs s rest,
  Forall fits ms ->
  Forall2 (fun m out => exists res, send fd m res = (true, out)) ms outs ->
  full_reads (reads s) -> stream s = concat outs ++ rest ->
  exists rs', full_reads rs' /\ receive_n (length ms) s = (ms, {| stream := rest; reads := rs' |}).
Proof. exact sequence_via_send. Qed.
Print Assumptions C01_round_trip.

(** C01, non-vacuity: a successful send exists for every message, and a failed one leaves a proper prefix. *)
Theorem C01_send_succeeds : forall fd m, fd <> 0%N -> send fd m [] = (true, wire m).
Proof. exact send_nil. Qed.
Print Assumptions C01_send_succeeds.

Theorem C01_failed_send_is_prefix : forall fd m res ok out, send fd m res = (ok, out) ->
  exists rest, wire m = out ++ rest /\ (ok = false -> rest <> []).
Proof. exact send_prefix. Qed.
Print Assumptions C01_failed_send_is_prefix.

Example C01_example : receive_n 2 {| stream := wire w_msg ++ wire {| req_id := 2; ep_name := []; payload := [] |}; reads := [RGot 5000] |}
  = ([w_msg; {| req_id := 2; ep_name := []; payload := [] |}], {| stream := []; reads := [] |}).
Proof. reflexivity. Qed.

(** C02, the full statement: for a peer sending one message, of which the prefix [p] arrives, and any
    segmentation of the stream, success implies that the whole message arrived, and undefined behaviour
    does not occur. *)
Definition C02_statement : Prop := forall m p rest rs s',
  fits m -> wire m = p ++ rest -> no_read_error rs ->
  (forall m', receive {| stream := p; reads := rs |} = (RxTrue m', s') -> rest = [] /\ m' = m) /\
  fst (receive {| stream := p; reads := rs |}) <> RxUB.

(** The sender dies within the payload: success with part of the payload. *)
Theorem C02_crash_refuted : exists m p rest s', fits m /\ wire m = p ++ rest /\ rest <> [] /\
  receive {| stream := p; reads := [] |} = (RxTrue {| req_id := 1; ep_name := ["e"; "p"]; payload := ["a"; "b"; "c"] |}%char, s') /\
  payload m = ["a"; "b"; "c"; "d"]%char.
Proof. exact witness_crash. Qed.
Print Assumptions C02_crash_refuted.

(** All bytes were sent, a read was short: success with a different message, the remaining bytes are
    taken for the next message. *)
Theorem C02_short_read_refuted : exists m rs m' s', fits m /\ no_read_error rs /\
  receive {| stream := wire m; reads := rs |} = (RxTrue m', s') /\ m' <> m /\ stream s' <> [].
Proof. exact witness_short_read. Qed.
Print Assumptions C02_short_read_refuted.

(** The sender dies within the request id: undefined behaviour. *)
Theorem C02_header_refuted : exists m p rest, fits m /\ wire m = p ++ rest /\
  fst (receive {| stream := p; reads := [] |}) = RxUB.
Proof. exact witness_ub. Qed.
Print Assumptions C02_header_refuted.

Theorem C02_statement_refuted : ~ C02_statement.
Proof. exact (fun H => match witness_ub with ex_intro _ m (ex_intro _ p (ex_intro _ rest (conj Hf (conj Hw E)))) =>
  proj2 (H m p rest [] {| stream := []; reads := [] |} Hf Hw (fun x => x)) E end). Qed.
Print Assumptions C02_statement_refuted.

(** Exactly when a sender dying inside the payload goes unnoticed (full reads): whenever the number of
    payload bytes that arrived is not a multiple of 4096. *)
Theorem C02_truncated_payload_exact : forall m j, fits m -> j < length (payload m) ->
  fst (receive {| stream := firstn (length (header m) + j) (wire m); reads := [] |}) =
  (let m' := {| req_id := req_id m; ep_name := ep_name m; payload := firstn j (payload m) |} in
   if j mod chunk_size =? 0 then RxFalse m' else RxTrue m').
Proof. exact truncated_payload. Qed.
Print Assumptions C02_truncated_payload_exact.

(** The part that holds: when reads are satisfied in full and the stream goes on behind the message,
    a received message was completely sent.  Missing: a message at the very end of the stream of a dead
    peer, and short reads (both refuted above). *)
Theorem C02_success_is_complete_partial : forall s m s', full_reads (reads s) ->
  receive s = (RxTrue m, s') -> stream s' <> [] -> stream s = wire m ++ stream s' /\ fits m.
Proof. exact success_complete. Qed.
Print Assumptions C02_success_is_complete_partial.

Example C02_partial_example : exists s', receive {| stream := wire w_msg ++ ["z"%char]; reads := [] |} = (RxTrue w_msg, s')
  /\ stream s' <> [].
Proof. eexists. split; [reflexivity|discriminate]. Qed.

(** C03 is refuted: an oversized message is sent successfully and received as another message. *)
Theorem C03_oversize_refuted : exists m m' , ~ fits m /\ send 3 m [] = (true, wire m) /\
  receive {| stream := wire m; reads := [] |} = (RxTrue m', {| stream := []; reads := [] |}) /\ m' <> m.
Proof. exact oversize_witness. Qed.
Print Assumptions C03_oversize_refuted.

(** What happens to every message with too long a name: the name is cut to its length modulo 2^16. *)
Theorem C03_long_name_refuted : forall m rest, (req_id m < 2 ^ 64)%N -> (2 ^ 16 <= N.of_nat (length (ep_name m)))%N ->
  (N.of_nat (length (payload m)) < 2 ^ 32)%N ->
  exists m', receive {| stream := wire m ++ rest; reads := [] |} = (RxTrue m', {| stream := rest; reads := [] |}) /\
    ep_name m' = firstn (N.to_nat (N.of_nat (length (ep_name m)) mod 2 ^ 16)) (ep_name m) /\ m' <> m.
Proof. exact long_name_truncated. Qed.
Print Assumptions C03_long_name_refuted.

(** What happens to every message with too long a payload: the payload is cut to its length modulo 2^32 and
    the rest of it is left in the stream, in front of the next message. *)
Theorem C03_long_payload_refuted : forall m rest, fits {| req_id := req_id m; ep_name := ep_name m; payload := [] |} ->
  (2 ^ 32 <= N.of_nat (length (payload m)))%N ->
  let k := N.to_nat (N.of_nat (length (payload m)) mod 2 ^ 32) in
  exists s', receive {| stream := wire m ++ rest; reads := [] |} =
      (RxTrue {| req_id := req_id m; ep_name := ep_name m; payload := firstn k (payload m) |}, s') /\
    stream s' = skipn k (payload m) ++ rest /\ skipn k (payload m) <> [] /\ firstn k (payload m) <> payload m.
Proof. exact long_payload_breaks_framing. Qed.
Print Assumptions C03_long_payload_refuted.

(** The part that holds: below the limits nothing is corrupted (one message in front of any stream). *)
Theorem C03_within_limits_partial : forall s m rest, fits m -> full_reads (reads s) -> stream s = wire m ++ rest ->
  exists rs', full_reads rs' /\ receive s = (RxTrue m, {| stream := rest; reads := rs' |}).
Proof. exact receive_wire. Qed.
Print Assumptions C03_within_limits_partial.
