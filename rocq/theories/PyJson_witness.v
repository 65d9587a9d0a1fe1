(** Python values: examples, and what does not come back. Floats are IEEE doubles here. *)
From Coq Require Import String List Arith NArith ZArith Ascii Bool Floats.SpecFloat Permutation.
Import ListNotations.
From Verif Require Import OMap_model Json_model Json_spec PyJson_model PyJson_spec PyJson_proofs Native_model.

Definition fcmp (a b : spec_float) : comparison := match SFcompare a b with Some c => c | None => Eq end.
Definition json_of : py spec_float -> option (json spec_float) := to_json fcmp to_double.
Definition trip (p : py spec_float) : option (py spec_float) := match json_of p with Some j => to_py j | None => None end.
Definition str (s : string) : pystr := map code (text s).

(** A value with everything in it: text beyond ASCII, nested lists and dictionaries, the largest integer. *)
Definition sample : py spec_float :=
  PDict [(PStr (str "z"), PList [PNone; PBool true; PInt 9223372036854775807; PFloat (to_double 3)]); (PStr [8364; 128169]%N, PDict []); (PStr (str "a"), PStr [0; 255; 1114111]%N)].
Lemma sample_plain : plain sample.
Proof.
  constructor. repeat constructor; cbn; eauto.
Qed.
Lemma sample_valid : valid sample.
Proof.
  constructor; [repeat constructor; cbn; intuition discriminate|]. repeat constructor.
Qed.
Lemma sample_back : trip sample = Some (PDict [(PStr (str "a"), PStr [0; 255; 1114111]%N); (PStr (str "z"), PList [PNone; PBool true; PInt 9223372036854775807; PFloat (to_double 3)]);
                                               (PStr [8364; 128169]%N, PDict [])]).
Proof. vm_compute. reflexivity. Qed.

(** A set of tuples. *)
Definition sample_set : py spec_float := PSet [PTuple [PInt 2; PStr (str "b")]; PTuple [PInt 1]; PNone].
Lemma sample_set_valid : valid sample_set.
Proof. constructor; [repeat constructor; cbn; intuition discriminate|repeat constructor]. Qed.
Lemma sample_set_back : trip sample_set = Some (PList [PNone; PList [PInt 1]; PList [PInt 2; PStr (str "b")]]).
Proof. vm_compute. reflexivity. Qed.

(** Integers beyond 64 bits with sign. *)
Lemma big_int : json_of (PInt 9223372036854775808) = None /\
  exists p, to_py (F := spec_float) (JInt 9223372036854775808) = Some p /\ json_of p = None.
Proof. split; [reflexivity|]. eexists. split; reflexivity. Qed.
(** A string with a surrogate. *)
Lemma bad_str : json_of (PList [PStr [55296]%N]) = None.
Proof. reflexivity. Qed.
(** Sets that lose an element: elements that are the same list in JSON. *)
Lemma set_lost : trip (PSet [PTuple [PInt 1; PInt 2]; PBytes [ch 1; ch 2]]) = Some (PList [PList [PInt 1; PInt 2]]).
Proof. vm_compute. reflexivity. Qed.
(** A NaN is neither less nor greater than any number. *)
Lemma set_nan : trip (PSet [PFloat S754_nan; PFloat (to_double 1)]) = Some (PList [PFloat S754_nan]).
Proof. vm_compute. reflexivity. Qed.
(** An integer is rounded before it is compared with a float. *)
Lemma set_rounded : trip (PSet [PFloat (to_double 9007199254740992); PInt 9007199254740993]) = Some (PList [PFloat (to_double 9007199254740992)]).
Proof. vm_compute. reflexivity. Qed.
(** Other values: a frozen set becomes [None]. *)
Lemma other_none : trip (PList [PInt 1; POther]) = Some (PList [PInt 1; PNone]).
Proof. reflexivity. Qed.
