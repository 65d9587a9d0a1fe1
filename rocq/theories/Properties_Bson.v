(** C67: the binary form of the messages. The concrete value is [sample] in [Wire_witness.v]. *)
From Coq Require Import String List Arith NArith ZArith Ascii Bool.
Import ListNotations.
From Verif Require Import Json_model Bson_model Bson_spec Bson_proofs.
Local Notation length := List.length.

(** What is sent is what is read, whatever the depth. *)
Theorem C67_roundtrip {F} (f64 : F -> bytes) unf64 : eight f64 unf64 -> forall j, sendable j -> is_object j ->
  exists b, to_bson f64 j = Some b /\ from_bson unf64 b = Some j.
Proof. exact (sent_received f64 unf64). Qed.
Print Assumptions C67_roundtrip.

(** Whatever bytes are read, what is read could have been sent: an object, all numbers in range, the keys in order and each once. *)
Theorem C67_decoded {F} (unf64 : bytes -> F) s j : from_bson unf64 s = Some j -> sendable j /\ is_object j.
Proof. exact (received_sendable unf64 s j). Qed.
Print Assumptions C67_decoded.

(** Exactly which values are written; all others are errors, nothing is left out silently. *)
Theorem C67_written {F} (f64 : F -> bytes) j : to_bson f64 j <> None <-> writable j /\ is_object j.
Proof. exact (written_exactly f64 j). Qed.
Print Assumptions C67_written.

(** A message begins with its own length (below 4 GiB). *)
Theorem C67_size {F} (f64 : F -> bytes) j b : to_bson f64 j = Some b -> le_val (firstn 4 b) = (Z.of_nat (length b) mod 4294967296)%Z.
Proof. exact (size_right f64 j b). Qed.
Print Assumptions C67_size.

(** The reader ends by itself on every input: the bound on its steps in the model is not what stops it. *)
Theorem C67_steps {F} (unf64 : bytes -> F) n m s : length s < n -> n <= m -> dec_list unf64 m s = dec_list unf64 n s.
Proof. exact (proj2 (read_enough unf64 n) m s). Qed.
Print Assumptions C67_steps.
