(** C106: whatever bytes arrive at the trace configurator and at the clients of the endpoints. The concrete cases are in [Foreign_witness.v]. *)
From Coq Require Import String List Arith NArith ZArith Ascii Bool.
Import ListNotations.
From Verif Require Import Json_model Names_model Config_model Config_spec Bson_model Bson_spec Wire_model Wire_spec Wire_witness Foreign_spec Foreign_proofs Foreign_witness.

(** Either the payload is no request, then an exception leaves the handler and nothing has changed; or it is one, then exactly what it says is
    done, and the answer is the state afterwards. *)
Theorem C106_request {F} (f64 : F -> bytes) unf64 trunc : eight f64 unf64 -> forall ls s q, Forall not_late ls -> grun ls cfg0 = Some s -> small_ids (g_map s) ->
  (conf_handle f64 unf64 trunc s q = (s, WThrows) /\ forall r, ~ reads unf64 trunc q r) \/
  (exists r s' b l, reads unf64 trunc q r /\ conf_handle f64 unf64 trunc s q = (s', WReply b) /\ changes r s s' /\
     conf_client unf64 trunc b = Some (g_process s', l) /\ all_states s' l).
Proof. exact (conf_any f64 unf64 trunc). Qed.
Print Assumptions C106_request.

Theorem C106_one {F} unf64 (trunc : F -> Z) : forall q r r', reads unf64 trunc q r -> reads unf64 trunc q r' -> r = r'.
Proof. exact (one_request unf64 trunc). Qed.
Print Assumptions C106_one.

(** The clients: exactly the answers that say something are read, and as what they say; the first entry of a key counts. *)
Theorem C106_names {F} unf64 (trunc : F -> Z) : forall b,
  (forall es, says_names unf64 trunc b es -> exists m, mapping_client unf64 trunc b = Some m /\
     NoDup (map fst m) /\ Forall (fun e => NoDup (map fst (snd e))) m /\
     (forall pid, In pid (map fst m) <-> exists t, first i32 es pid t) /\
     (forall pid id nm, (exists t, In (pid, t) m /\ In (id, nm) t) <-> exists t, first i32 es pid t /\ first u32 t (Z.of_N id) nm)) /\
  ((forall es, ~ says_names unf64 trunc b es) -> mapping_client unf64 trunc b = None).
Proof. exact (names_any unf64 trunc). Qed.
Print Assumptions C106_names.

Theorem C106_info {F} unf64 (trunc : F -> Z) : forall b,
  (forall pid nm es, says_info unf64 trunc b pid nm es -> exists ts, info_client unf64 trunc b = Some (i32 pid, nm, ts) /\ table ts (fun k v => first u64 es (Z.of_N k) v)) /\
  ((forall pid nm es, ~ says_info unf64 trunc b pid nm es) -> info_client unf64 trunc b = None).
Proof. exact (info_any unf64 trunc). Qed.
Print Assumptions C106_info.

Theorem C106_state {F} unf64 (trunc : F -> Z) : forall b,
  (forall p es, says_state unf64 trunc b p es -> exists ts, conf_client unf64 trunc b = Some (p, ts) /\ table ts (fun k v => first u64 es (Z.of_N k) v)) /\
  ((forall p es, ~ says_state unf64 trunc b p es) -> conf_client unf64 trunc b = None).
Proof. exact (state_any unf64 trunc). Qed.
Print Assumptions C106_state.

(** A command the endpoint does not know is not refused: it is answered as if it had been a question. *)
Theorem C106_unknown_refuted : exists m b, document unf64 unknown m /\ field "cmd" m (JStr (text "disable")) /\
  conf_handle f64 unf64 trunc cfg0 unknown = (cfg0, WReply b) /\ conf_client unf64 trunc b = Some (true, []).
Proof. exact unknown_answered. Qed.
Print Assumptions C106_unknown_refuted.

(** Not all an answer has is shown: numbers are cut to the width of their type, and two different ones may then be the same. *)
Theorem C106_names_refuted : exists es, says_names unf64 trunc two_names es /\ In (12%Z, [(5%Z, text "a"); (4294967301%Z, text "b")]) es /\
  mapping_client unf64 trunc two_names = Some [(12%Z, [(5%N, text "a")])].
Proof. exact names_merge. Qed.
Print Assumptions C106_names_refuted.
