(** C45, C68, C69: the endpoints of the traced process on the bytes they get. The concrete cases are in [Wire_witness.v]. *)
From Coq Require Import String List Arith NArith ZArith Ascii Bool.
Import ListNotations.
From Verif Require Import OMap_model Json_model Config_model Config_spec Bson_model Bson_spec Wire_model Wire_spec Wire_proofs Wire_witness.

(** Missing for C45: the empty payload (see below). *)
Theorem C45_answer_partial {F} (f64 : F -> bytes) unf64 trunc : eight f64 unf64 -> forall pid t c rest, is_int pid -> a_table t ->
  (c = "m"%char -> exists b m, mapping_handle f64 pid t (c :: rest) = WReply b /\ mapping_client unf64 trunc b = Some [(pid, m)] /\ map_of t m) /\
  (c <> "m"%char -> mapping_handle f64 pid t (c :: rest) = WFalse).
Proof. exact (mapping_answered f64 unf64 trunc). Qed.
Print Assumptions C45_answer_partial.

(** The first byte of the empty payload is read. *)
Theorem C45_empty_refuted : forall pid t, mapping_handle f64 pid t [] = WUB.
Proof. exact empty_request. Qed.
Print Assumptions C45_empty_refuted.

(** The process information is answered, and what the client gets is what the process has. *)
Theorem C68_answer {F} (f64 : F -> bytes) unf64 trunc : eight f64 unf64 -> forall pid nm t, is_int pid -> short nm -> a_thread_table short t ->
  exists q b m, to_bson f64 info_request = Some q /\ info_handle f64 unf64 pid nm t q = WReply b /\ info_client unf64 trunc b = Some (pid, nm, m) /\ map_of t m.
Proof. exact (info_answered f64 unf64 trunc). Qed.
Print Assumptions C68_answer.

(** C68 does not hold for all payloads: an exception leaves the handler, and with it the process ends, for exactly the payloads that are not a document with a string called "cmd". *)
Theorem C68_info_partial {F} (f64 : F -> bytes) unf64 (trunc : F -> Z) : eight f64 unf64 -> forall pid nm t q, is_int pid -> short nm -> a_thread_table short t ->
  (info_handle f64 unf64 pid nm t q = WThrows <-> ~ exists m c, from_bson unf64 q = Some (JObj m) /\ In (text "cmd", JStr c) m).
Proof. exact (info_throws f64 unf64 trunc). Qed.
Print Assumptions C68_info_partial.

Theorem C68_info_refuted : forall pid nm t, info_handle f64 unf64 pid nm t [] = WThrows.
Proof. exact info_empty_throws. Qed.
Print Assumptions C68_info_refuted.

Theorem C68_conf_refuted : forall s, conf_handle f64 unf64 trunc s [] = (s, WThrows).
Proof. exact conf_empty_throws. Qed.
Print Assumptions C68_conf_refuted.

(** A change of the trace state asked for over the wire is the change of C20, and the answer that arrives is its answer. *)
Theorem C69_set {F} (f64 : F -> bytes) unf64 trunc : eight f64 unf64 -> forall ls s sp p ths,
  Forall not_late ls -> grun ls cfg0 = Some s -> small_ids (g_map s) -> increasing ths -> small_ids ths ->
  let '(s', reply) := c_handle (CChange sp p ths) s in
  exists q b, to_bson f64 (conf_set_request {| cf_process := p; cf_set := sp; cf_threads := nkeys ths |}) = Some q /\
    conf_handle f64 unf64 trunc s q = (s', WReply b) /\ conf_client unf64 trunc b = Some (fst reply, nkeys (snd reply)).
Proof. exact (conf_remote f64 unf64 trunc). Qed.
Print Assumptions C69_set.

Theorem C69_query {F} (f64 : F -> bytes) unf64 trunc : eight f64 unf64 -> forall ls s,
  Forall not_late ls -> grun ls cfg0 = Some s -> small_ids (g_map s) ->
  exists q b, to_bson f64 conf_get_request = Some q /\ conf_handle f64 unf64 trunc s q = (s, WReply b) /\
    conf_client unf64 trunc b = Some (fst (snd (c_handle CQuery s)), nkeys (snd (snd (c_handle CQuery s)))).
Proof. exact (conf_remote_query f64 unf64 trunc). Qed.
Print Assumptions C69_query.
