(** Concrete payloads for C106. *)
From Coq Require Import String List Arith NArith ZArith Ascii Bool Lia.
Import ListNotations.
From Verif Require Import OMap_model Json_model Names_model Config_model Config_spec Bson_model Bson_spec Wire_model Wire_spec Wire_proofs Wire_witness Foreign_spec Foreign_proofs.
Local Open Scope nat_scope.
Local Notation length := List.length.

Definition sent (j : json unit) : bytes := match to_bson f64 j with Some b => b | None => [] end.
(** A request with the entries in a strange order, one of them twice, one for no thread at all, one with a third item. *)
Definition strange : bytes :=
  sent (JObj [(text "cmd", JStr (text "set")); (text "more", JNull);
              (text "state", JObj [(text "p", JBool false); (text "sp", JBool true);
                                   (text "t", JArr [JArr [JInt 9; JBool true]; JArr [JInt 70; JBool false]; JArr [JInt 9; JBool false; JNull]; JArr [JInt 5; JBool false]])])]).
Definition strange_entries : list (Z * bool) := [(9, true); (70, false); (9, false); (5, false)]%Z.
Example strange_reads : reads unf64 trunc strange (Set_ true false strange_entries).
Proof.
  eapply rd_set; [vm_compute; reflexivity|left; reflexivity|right; right; left; reflexivity|left; reflexivity|right; left; reflexivity|right; right; left; reflexivity|].
  constructor. repeat (constructor; [do 3 eexists; split; [reflexivity|]; split; constructor|]). constructor.
Qed.
Example strange_state : exists s s' b, grun trace_labels cfg0 = Some s /\ Forall not_late trace_labels /\ small_ids (g_map s) /\
  conf_handle f64 unf64 trunc s strange = (s', WReply b) /\ conf_client unf64 trunc b = Some (false, [(5, false); (9, true)]%N) /\ g_process s' = false.
Proof.
  do 3 eexists. split; [vm_compute; reflexivity|]. split; [repeat constructor|]. split; [repeat constructor|]. split; [vm_compute; reflexivity|]. split; vm_compute; reflexivity.
Qed.
(** Thread ids that are not numbers, a state that lacks a member, a command that is no text: refused. *)
Example refused : forall s, Forall (fun q => conf_handle f64 unf64 trunc s q = (s, WThrows))
  [sent (JObj [(text "cmd", JStr (text "set")); (text "state", JObj [(text "p", JBool false); (text "sp", JBool true); (text "t", JArr [JArr [JBool true; JBool true]])])]);
   sent (JObj [(text "cmd", JStr (text "set")); (text "state", JObj [(text "p", JBool false); (text "t", JArr [])])]);
   sent (JObj [(text "cmd", JInt 5)]); firstn 20 strange].
Proof. intros s. repeat constructor. Qed.

(** A command the endpoint does not know is answered like a question, and changes nothing. *)
Definition unknown : bytes := sent (JObj [(text "cmd", JStr (text "disable")); (text "state", JObj [(text "p", JBool false); (text "sp", JBool true); (text "t", JArr [])])]).
Lemma unknown_answered : exists m b, document unf64 unknown m /\ field "cmd" m (JStr (text "disable")) /\ conf_handle f64 unf64 trunc cfg0 unknown = (cfg0, WReply b) /\ conf_client unf64 trunc b = Some (true, []).
Proof. do 2 eexists. split; [vm_compute; reflexivity|]. split; [left; reflexivity|]. split; [vm_compute; reflexivity|]. vm_compute; reflexivity. Qed.

(** An answer with names for two different numbers, of which the client shows one. *)
Definition two_names : bytes := sent (JObj [(text "mapping", JArr [JArr [JInt 12; JArr [JArr [JInt 5; JStr (text "a")]; JArr [JInt 4294967301; JStr (text "b")]]]])]).
Lemma names_merge : exists es, says_names unf64 trunc two_names es /\ In (12%Z, [(5%Z, text "a"); (4294967301%Z, text "b")]) es /\ mapping_client unf64 trunc two_names = Some [(12%Z, [(5%N, text "a")])].
Proof.
  exists [(12%Z, [(5%Z, text "a"); (4294967301%Z, text "b")])]. split; [|split; [now left|vm_compute; reflexivity]].
  do 2 eexists. split; [vm_compute; reflexivity|]. split; [left; reflexivity|]. constructor. constructor; [|constructor]. do 3 eexists. split; [reflexivity|]. split; [constructor|].
  constructor. repeat (constructor; [do 3 eexists; split; [reflexivity|]; split; constructor|]). constructor.
Qed.
Example some_info : exists b, says_info unf64 trunc b (-4294967284) (text "app") [(7%Z, text "io"); (7%Z, text "again")] /\ info_client unf64 trunc b = Some (12%Z, text "app", [(7%N, text "io")]).
Proof.
  exists (sent (JObj [(text "name", JStr (text "app")); (text "pid", JInt (-4294967284)); (text "threads", JArr [JArr [JInt 7; JStr (text "io")]; JArr [JInt 7; JStr (text "again")]])])).
  split; [|vm_compute; reflexivity]. do 3 eexists. split; [vm_compute; reflexivity|]. split; [left; reflexivity|]. split; [right; left; reflexivity|]. split; [constructor|]. split; [right; right; left; reflexivity|].
  constructor. repeat (constructor; [do 3 eexists; split; [reflexivity|]; split; constructor|]). constructor.
Qed.
Example some_state : exists b, says_state unf64 trunc b true [(7%Z, true); (-1, false)%Z] /\ conf_client unf64 trunc b = Some (true, [(7%N, true); (18446744073709551615%N, false)]).
Proof.
  exists (sent (JObj [(text "state", JObj [(text "p", JBool true); (text "sp", JBool true); (text "t", JArr [JArr [JInt 7; JBool true]; JArr [JInt (-1); JBool false]])])])).
  split; [|vm_compute; reflexivity]. do 4 eexists. split; [vm_compute; reflexivity|]. split; [left; reflexivity|]. split; [left; reflexivity|]. split; [right; left; reflexivity|]. split; [right; right; left; reflexivity|].
  constructor. repeat (constructor; [do 3 eexists; split; [reflexivity|]; split; constructor|]). constructor.
Qed.
