(** Which values can be sent. *)
From Coq Require Import String List Arith NArith ZArith Ascii Bool.
Import ListNotations.
From Verif Require Import OMap_model Json_model Json_spec.
Local Notation length := List.length.

Section Bson.
Context {F : Type}.
(** Integers fit into 64 bits with sign, strings are shorter than 2^31 - 1 bytes; the members of an object are in the order of their keys, which have no NUL. *)
Inductive sendable : json F -> Prop :=
| sd_null : sendable JNull
| sd_bool b : sendable (JBool b)
| sd_int z : (-9223372036854775808 <= z <= 9223372036854775807)%Z -> sendable (JInt z)
| sd_float f : sendable (JFloat f)
| sd_str s : (Z.of_nat (length s) < 2147483647)%Z -> sendable (JStr s)
| sd_arr l : Forall sendable l -> sendable (JArr l)
| sd_obj m : ascending m -> Forall (fun kv => ~ In (ascii_of_N 0) (fst kv) /\ sendable (snd kv)) m -> sendable (JObj m).

(** What can be written at all: integers that fit and keys without NUL. *)
Inductive writable : json F -> Prop :=
| wr_null : writable JNull
| wr_bool b : writable (JBool b)
| wr_int z : (-9223372036854775808 <= z <= 9223372036854775807)%Z -> writable (JInt z)
| wr_float f : writable (JFloat f)
| wr_str s : writable (JStr s)
| wr_arr l : Forall writable l -> writable (JArr l)
| wr_obj m : Forall (fun kv => ~ In (ascii_of_N 0) (fst kv) /\ writable (snd kv)) m -> writable (JObj m).

Definition is_object (j : json F) : Prop := exists m, j = JObj m.

(** Floating point numbers have a form of eight bytes that determines them. *)
Definition eight (f64 : F -> bytes) (unf64 : bytes -> F) : Prop := forall f, length (f64 f) = 8%nat /\ unf64 (f64 f) = f.
End Bson.
