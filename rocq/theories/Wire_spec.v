(** What the two sides of the endpoints rely on. *)
From Coq Require Import String List Arith NArith ZArith Ascii Bool Permutation Sorting.Sorted.
Import ListNotations.
From Verif Require Import Json_model Bson_model Wire_model.
Local Notation length := List.length.

(** A string that can be sent. *)
Definition short (s : bytes) : Prop := (Z.of_nat (length s) < 2147483647)%Z.
Definition is_int (z : Z) : Prop := (-2147483648 <= z <= 2147483647)%Z.

(** A table of names as a process has one: [unsigned int] ids, in some order, each once. *)
Definition a_table (t : list (N * bytes)) : Prop := NoDup (map fst t) /\ Forall (fun e => (fst e < 4294967296)%N /\ short (snd e)) t.
(** A table of threads: their ids are below 2^63 (as those of all threads of Linux are). *)
Definition a_thread_table {V} (ok : V -> Prop) (t : list (N * V)) : Prop :=
  NoDup (map fst t) /\ Forall (fun e => (fst e < 9223372036854775808)%N /\ ok (snd e)) t.

(** The map of the same pairs: in ascending order, as the client gets it. *)
Definition map_of {V} (t m : list (N * V)) : Prop := Permutation t m /\ StronglySorted (fun a b => (fst a < fst b)%N) m.

(** Thread ids of the configurator: below 2^63, and in a [std::map] in ascending order. *)
Definition small_ids {V} (l : list (nat * V)) : Prop := Forall (fun e => (N.of_nat (fst e) < 9223372036854775808)%N) l.
Definition increasing {V} (l : list (nat * V)) : Prop := StronglySorted (fun a b => fst a < fst b) l.
