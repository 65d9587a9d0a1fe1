From Coq Require Import String List Arith NArith ZArith Ascii Bool.
Import ListNotations.
From Verif Require Import Str_model Ctf_model Ctf_spec Ctf_proofs.

(** C38. Every well-formed line is read as printed. *)
Theorem C38_line : forall V (strtod : str -> real_result V) early p t rest, good p -> strtod (p_time p) = DValue t -> rest = [] \/ rest = [ascii_of_N 10] ->
  exists e, parse strtod early (line_text p ++ rest) = Done e /\ c_time e = Some t /\ c_host e = p_host p /\ c_domain e = p_domain p /\ c_name e = p_name p /\
    reads early (p_stream p) (c_stream e) /\ reads early (p_context p) (c_context e) /\ reads early (p_data p) (c_data e).
Proof. exact @line_lemma. Qed.
Print Assumptions C38_line.
(** The process id and the thread id. *)
Theorem C38_ids : forall V (strtod : str -> real_result V) early p t rest e v w, good p -> strtod (p_time p) = DValue t -> rest = [] \/ rest = [ascii_of_N 10] ->
  parse strtod early (line_text p ++ rest) = Done e -> In (txt "vpid", FInt (Z.of_N v)) (p_context p) -> In (txt "pthread_id", FInt (Z.of_N w)) (p_context p) ->
  pid e = Some v /\ tid e = Some w.
Proof. exact @ids_lemma. Qed.
Print Assumptions C38_ids.
(** No line makes the parser read outside of it. *)
Theorem C38_inside : forall V (strtod : str -> real_result V) early line, parse strtod early line <> Broken.
Proof. exact @parse_sound. Qed.
Print Assumptions C38_inside.
(** A line without a number of twenty digits, and without a time that is out of range, never makes it fail. *)
Theorem C38_total_partial : forall V (strtod : str -> real_result V) early line, ~ long_number line -> (forall a t b, line = a ++ t ++ b -> strtod t <> DOutOfRange) ->
  exists e, parse strtod early line = Done e.
Proof. exact @total_lemma. Qed.
Print Assumptions C38_total_partial.
(** The time of an event that has a domain has been set. *)
Theorem C38_timed : forall V (strtod : str -> real_result V) early line e, parse strtod early line = Done e -> c_domain e <> [] -> exists t, c_time e = Some t.
Proof. exact @timed_lemma. Qed.
Print Assumptions C38_timed.
(** A number too large for 64 bit makes it fail. *)
Theorem C38_refuted : ~ forall (strtod : str -> real_result N) early line, (forall t, strtod t <> DOutOfRange) -> exists e, parse strtod early line = Done e.
Proof. exact throws_refuted. Qed.
Print Assumptions C38_refuted.
