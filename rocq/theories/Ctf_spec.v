(** What C38 says: how babeltrace prints an event, and what is read from it. *)
From Coq Require Import String List Arith NArith ZArith Ascii Bool.
Import ListNotations.
From Verif Require Import Json_model Str_model Ctf_model.
Local Open Scope list_scope.

Inductive fvalue := FInt (z : Z) | FText (s : str).
Definition field := (str * fvalue)%type.
(** An event as printed with seconds and without deltas: time, host, trace point, and three lists of fields. *)
Record printed := { p_time : str; p_host : str; p_domain : str; p_name : str; p_stream : list field; p_context : list field; p_data : list field }.
Definition value_text (v : fvalue) : str := match v with FInt z => dump_int z | FText s => txt """" ++ s ++ txt """" end.
Definition field_text (f : field) : str := fst f ++ txt " = " ++ value_text (snd f).
Fixpoint fields_text (fs : list field) : str :=
  match fs with [] => [] | [f] => field_text f | f :: fs' => field_text f ++ txt ", " ++ fields_text fs' end.
Definition context_text (fs : list field) : str := match fs with [] => txt "{ }" | _ => txt "{ " ++ fields_text fs ++ txt " }" end.
Definition line_text (p : printed) : str :=
  txt "[" ++ p_time p ++ txt "] " ++ p_host p ++ txt " " ++ p_domain p ++ txt ":" ++ p_name p ++ txt ": " ++
  context_text (p_stream p) ++ txt ", " ++ context_text (p_context p) ++ txt ", " ++ context_text (p_data p).

(** Well-formed: the separators do not occur where they would be mistaken; integers are of at most 64 bit; the names in a list differ. *)
Definition avoids (cs : string) (s : str) : Prop := forall c, In c (txt cs) -> ~ In c s.
Definition good_field (f : field) : Prop :=
  fst f <> [] /\ avoids " ,{}" (fst f) /\ match snd f with FInt z => (- 2 ^ 63 <= z < 2 ^ 64)%Z | FText s => avoids ",{}" s end.
Definition good_fields (fs : list field) : Prop := Forall good_field fs /\ NoDup (map fst fs).
Definition good (p : printed) : Prop :=
  avoids "]" (p_time p) /\ avoids " " (p_host p) /\ avoids " :" (p_domain p) /\ avoids " " (p_name p) /\
  good_fields (p_stream p) /\ good_fields (p_context p) /\ good_fields (p_data p).

(** The integers of a list: each with its value, negative ones as their two's complement; other fields have no value (or zero, if the
    program is compiled so that the name is entered before the value is read). *)
Definition reads (early : bool) (fs : list field) (m : ids) : Prop :=
  (forall k z, In (k, FInt z) fs -> lookup k m = Some (Z.to_N (z mod 2 ^ 64))) /\
  (forall k s, In (k, FText s) fs -> lookup k m = if early then Some 0%N else None) /\
  (forall k, ~ In k (map fst fs) -> lookup k m = None).

(** A run of at least twenty digits in a line. *)
Definition is_decimal (c : ascii) : bool := ((48 <=? N_of_ascii c) && (N_of_ascii c <=? 57))%N.
Definition long_number (line : str) : Prop := exists a d b, line = a ++ d ++ b /\ forallb is_decimal d = true /\ 20 <= List.length d.
