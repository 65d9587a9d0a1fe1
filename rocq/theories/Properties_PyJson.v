(** C41: Python values and JSON; C71: payloads of endpoints written in Python. Floats: any type with any comparison, unless said otherwise
    ([PyJson_witness.v] has IEEE doubles). *)
From Coq Require Import String List Arith NArith ZArith Ascii Bool Floats.SpecFloat.
Import ListNotations.
From Verif Require Import Json_model Json_spec PyJson_model PyJson_spec PyJson_proofs Native_model PyJson_witness.

(** What is converted comes back: equal but for the types JSON does not have. Missing for C41: sets with floats or bytes in them (see below). *)
Theorem C41_back_partial {F} fcmp of_int : forall p : py F, valid p -> forall j, to_json fcmp of_int p = Some j -> exists q, to_py j = Some q /\ back p q.
Proof. exact (nothing_lost fcmp of_int). Qed.
Print Assumptions C41_back_partial.
Example C41_back_case : valid sample /\ valid sample_set /\
  trip sample = Some (PDict [(PStr (str "a"), PStr [0; 255; 1114111]%N); (PStr (str "z"), PList [PNone; PBool true; PInt 9223372036854775807; PFloat (to_double 3)]); (PStr [8364; 128169]%N, PDict [])]) /\
  trip sample_set = Some (PList [PNone; PList [PInt 1]; PList [PInt 2; PStr (str "b")]]).
Proof. exact (conj sample_valid (conj sample_set_valid (conj sample_back sample_set_back))). Qed.

(** A value of the plain types comes back as one. *)
Theorem C41_plain {F} : forall p q : py F, plain p -> back p q -> plain q.
Proof. exact plain_stays. Qed.
Print Assumptions C41_plain.

(** Exactly these values are converted at all: integers in 64 bits with sign, no surrogates, keys that are strings. *)
Theorem C41_converts {F} fcmp of_int : forall p : py F, to_json fcmp of_int p <> None <-> fits p.
Proof. exact (converts fcmp of_int). Qed.
Print Assumptions C41_converts.

(** JSON to Python and back: unchanged. Missing for C41: integers from 2^63 on (see below) and text that is not UTF-8. *)
Theorem C41_json_partial {F} fcmp of_int : forall j : json F, a_json j -> usual_json j -> exists p, to_py j = Some p /\ to_json fcmp of_int p = Some j.
Proof. exact (json_back fcmp of_int). Qed.
Print Assumptions C41_json_partial.

(** Whatever the JSON value: if it goes there and back, it is unchanged. *)
Theorem C41_json_unchanged {F} fcmp of_int : forall j : json F, a_json j -> forall p, to_py j = Some p -> plain p /\ forall j', to_json fcmp of_int p = Some j' -> j' = j.
Proof. exact (json_unchanged fcmp of_int). Qed.
Print Assumptions C41_json_unchanged.

(** Integers beyond 64 bits with sign raise, also those that came from JSON. *)
Theorem C41_int_refuted : json_of (PInt 9223372036854775808) = None /\ exists p, to_py (F := spec_float) (JInt 9223372036854775808) = Some p /\ json_of p = None.
Proof. exact big_int. Qed.
Print Assumptions C41_int_refuted.
(** A string that is not all text raises. *)
Theorem C41_str_refuted : json_of (PList [PStr [55296]%N]) = None.
Proof. exact bad_str. Qed.
Print Assumptions C41_str_refuted.
(** Sets of two elements that come back as lists with one: a tuple and bytes, a NaN and a number, an integer and a float near it. *)
Theorem C41_set_refuted : trip (PSet [PTuple [PInt 1; PInt 2]; PBytes [ch 1; ch 2]]) = Some (PList [PList [PInt 1; PInt 2]]).
Proof. exact set_lost. Qed.
Print Assumptions C41_set_refuted.
Theorem C41_nan_refuted : trip (PSet [PFloat S754_nan; PFloat (to_double 1)]) = Some (PList [PFloat S754_nan]).
Proof. exact set_nan. Qed.
Print Assumptions C41_nan_refuted.
Theorem C41_rounded_refuted : trip (PSet [PFloat (to_double 9007199254740992); PInt 9007199254740993]) = Some (PList [PFloat (to_double 9007199254740992)]).
Proof. exact set_rounded. Qed.
Print Assumptions C41_rounded_refuted.
(** Values of other types are replaced by null without notice. *)
Theorem C41_other_refuted : trip (PList [PInt 1; POther]) = Some (PList [PInt 1; PNone]).
Proof. exact other_none. Qed.
Print Assumptions C41_other_refuted.

(** C71: bytes are sent for a value exactly if the value says these bytes. *)
Theorem C71_payload {F} : forall (p : py F) b, (forall s, p = PStr s -> a_str s) -> (to_data p = PData b <-> says p b).
Proof. exact payload_exact. Qed.
Print Assumptions C71_payload.
Example C71_case : to_data (F := unit) (PStr [8364]%N) = PData [ch 226; ch 130; ch 172] /\ to_data (F := unit) (PList [PInt 7; PBool true]) = PData [ch 7; ch 1] /\
  to_data (F := unit) (PList [PInt 256]) = PRaise /\ to_data (F := unit) (PInt 7) = PNothing.
Proof. repeat split; reflexivity. Qed.
(** And the other side, if it is Python, has them as bytes, which say the same. *)
Theorem C71_received {F} : forall b b', says (F := F) (of_data b) b' <-> b' = b.
Proof. exact received_bytes. Qed.
Print Assumptions C71_received.
