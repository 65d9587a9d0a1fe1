(** Properties of the messages with trace events: C73. *)
From Coq Require Import List NArith ZArith Ascii.
Import ListNotations.
From Verif Require Import Protocol_model TraceEvent_model Native_model Cbor_model Cbor_spec Cbor_proofs CborAny_proofs.

(** What a process packs, the recorder unpacks: its number and all events of all threads, every bit of them. *)
Theorem C73_round_trip : forall pid ths, process_number pid -> event_map ths ->
  unpack (pack pid ths) = CGood {| nc_pid := pid; nc_threads := ths |}.
Proof. exact unpack_pack. Qed.
Print Assumptions C73_round_trip.

(** A message which was cut short anywhere is recognised as bad; it is never taken for another one. *)
Theorem C73_cut_short : forall pid ths k, process_number pid -> event_map ths -> k < length (pack pid ths) ->
  unpack (firstn k (pack pid ths)) = CBad.
Proof. exact cut_short. Qed.
Print Assumptions C73_cut_short.

Theorem C73_distinct : forall pid ths pid' ths', process_number pid -> event_map ths -> process_number pid' -> event_map ths' ->
  pack pid ths = pack pid' ths' -> pid = pid' /\ ths = ths'.
Proof. exact pack_injective. Qed.
Print Assumptions C73_distinct.

(** Whatever bytes are received, what is unpacked is a process number and events of threads as a process can hold them. *)
Theorem C73_any : forall b c, unpack b = CGood c -> (- 2 ^ 31 <= nc_pid c < 2 ^ 31)%Z /\ event_map (nc_threads c).
Proof. exact unpack_sane. Qed.
Print Assumptions C73_any.

Example C73_example : event_map ex_events /\ process_number 4194303%Z /\ length (pack 4194303 ex_events) = 86 /\
  unpack (pack 4194303 ex_events) = CGood {| nc_pid := 4194303; nc_threads := ex_events |} /\ unpack (firstn 85 (pack 4194303 ex_events)) = CBad.
Proof. split; [exact ex_events_fit|]. split; [split; reflexivity|]. vm_compute. auto. Qed.
