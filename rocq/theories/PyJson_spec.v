(** Python values and what becomes of them. *)
From Coq Require Import String List Arith NArith ZArith Ascii Bool Permutation.
Import ListNotations.
From Verif Require Import OMap_model Json_model Json_spec PyJson_model.

Section Spec.
Context {F : Type}.
Notation json := (json F). Notation py := (py F).

(** Code points. *)
Definition a_str (s : pystr) : Prop := Forall (fun n => (n < 1114112)%N) s.
Definition no_surrogate (s : pystr) : Prop := Forall (fun n => ~ (55296 <= n <= 57343)%N) s.
Definition in_int64 (z : Z) : Prop := (-9223372036854775808 <= z <= 9223372036854775807)%Z.

(** Made of None, booleans, integers, floats, strings, lists and string-keyed dictionaries: no other types. *)
Inductive plain : py -> Prop :=
| pl_none : plain PNone
| pl_bool b : plain (PBool b)
| pl_int z : plain (PInt z)
| pl_float f : plain (PFloat f)
| pl_str s : plain (PStr s)
| pl_list l : Forall plain l -> plain (PList l)
| pl_dict d : Forall (fun kv => (exists k, fst kv = PStr k) /\ plain (snd kv)) d -> plain (PDict d).

(** The elements a set may have here: None, booleans, integers, strings and tuples of these. *)
Inductive simple : py -> Prop :=
| si_none : simple PNone
| si_bool b : simple (PBool b)
| si_int z : simple (PInt z)
| si_str s : a_str s -> simple (PStr s)
| si_tuple l : Forall simple l -> simple (PTuple l).

(** What every Python value is: code points in range, each key once, each element of a set once. Restricted as said where there are sets. *)
Inductive valid : py -> Prop :=
| va_none : valid PNone
| va_bool b : valid (PBool b)
| va_int z : valid (PInt z)
| va_float f : valid (PFloat f)
| va_str s : a_str s -> valid (PStr s)
| va_bytes b : valid (PBytes b)
| va_list l : Forall valid l -> valid (PList l)
| va_tuple l : Forall valid l -> valid (PTuple l)
| va_set l : NoDup l -> Forall simple l -> valid (PSet l)
| va_dict d : NoDup (map fst d) -> Forall (fun kv => valid (fst kv) /\ valid (snd kv)) d -> valid (PDict d).

(** What JSON has a form for: integers in 64 bits with sign, strings without surrogates, keys that are strings. *)
Inductive fits : py -> Prop :=
| fi_none : fits PNone
| fi_bool b : fits (PBool b)
| fi_int z : in_int64 z -> fits (PInt z)
| fi_float f : fits (PFloat f)
| fi_str s : no_surrogate s -> fits (PStr s)
| fi_bytes b : fits (PBytes b)
| fi_list l : Forall fits l -> fits (PList l)
| fi_tuple l : Forall fits l -> fits (PTuple l)
| fi_set l : Forall fits l -> fits (PSet l)
| fi_dict d : Forall (fun kv => (exists k, fst kv = PStr k /\ no_surrogate k) /\ fits (snd kv)) d -> fits (PDict d)
| fi_other : fits POther.

(** [back p q]: [q] is the same value as [p], but for the types JSON does not have: equal for [plain] values (dictionaries are equal
    whatever their order); tuples, sets and bytes have become lists with the same elements. *)
Inductive back : py -> py -> Prop :=
| ba_none : back PNone PNone
| ba_bool b : back (PBool b) (PBool b)
| ba_int z : back (PInt z) (PInt z)
| ba_float f : back (PFloat f) (PFloat f)
| ba_str s : back (PStr s) (PStr s)
| ba_list l l' : Forall2 back l l' -> back (PList l) (PList l')
| ba_dict d d1 d' : Permutation d d1 -> Forall2 (fun a b => fst b = fst a /\ back (snd a) (snd b)) d1 d' -> back (PDict d) (PDict d')
| ba_bytes b : back (PBytes b) (PList (map (fun c => PInt (Z.of_N (N_of_ascii c))) b))
| ba_tuple l l' : Forall2 back l l' -> back (PTuple l) (PList l')
| ba_set l l1 l' : Permutation l l1 -> Forall2 back l1 l' -> back (PSet l) (PList l').

(** JSON values as the library has them: objects in the order of the keys. *)
Inductive a_json : json -> Prop :=
| aj_null : a_json JNull
| aj_bool b : a_json (JBool b)
| aj_int z : a_json (JInt z)
| aj_float f : a_json (JFloat f)
| aj_str s : a_json (JStr s)
| aj_arr l : Forall a_json l -> a_json (JArr l)
| aj_obj m : ascending m -> Forall (fun kv => a_json (snd kv)) m -> a_json (JObj m).
(** Text that is UTF-8 and integers in 64 bits with sign. *)
Inductive usual_json : json -> Prop :=
| uj_null : usual_json JNull
| uj_bool b : usual_json (JBool b)
| uj_int z : in_int64 z -> usual_json (JInt z)
| uj_float f : usual_json (JFloat f)
| uj_str s : utf8 s = true -> usual_json (JStr s)
| uj_arr l : Forall usual_json l -> usual_json (JArr l)
| uj_obj m : Forall (fun kv => utf8 (fst kv) = true /\ usual_json (snd kv)) m -> usual_json (JObj m).

(** A payload given as a Python value: bytes; text, in UTF-8; a list of the bytes as integers (True and False are integers). *)
Inductive element : py -> ascii -> Prop :=
| el_int c : element (PInt (Z.of_N (N_of_ascii c))) c
| el_false : element (PBool false) (ascii_of_N 0)
| el_true : element (PBool true) (ascii_of_N 1).
Inductive says : py -> bytes -> Prop :=
| sa_bytes b : says (PBytes b) b
| sa_str s b : of_utf8 b = Some s -> says (PStr s) b
| sa_list l b : Forall2 element l b -> says (PList l) b.
End Spec.
