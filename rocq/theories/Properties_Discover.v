From Coq Require Import String List NArith Ascii Bool.
Import ListNotations.
From Verif Require Import Str_model Discover_model Discover_spec Discover_proofs.

(** C37. With every name that looks like that of a server being one, discovery lists the processes with a server socket and nothing else. *)
Theorem C37_exact_partial : forall ss, Forall decent ss ->
  exists ps, discover (table ss) = Some ps /\ listed ss ps /\ forall p, In p ps <-> exists s, In s ss /\ of_server p s.
Proof. exact exact_set. Qed.
Print Assumptions C37_exact_partial.
(** Whatever other sockets there are: no server is missed, if discovery does not fail. *)
Theorem C37_complete_partial : forall ss s p ps, In s ss -> of_server p s -> ~ In Discover_model.newline (k_front s) -> (p < 4294967296)%N ->
  discover (table ss) = Some ps -> In p ps.
Proof. exact complete_lemma. Qed.
Print Assumptions C37_complete_partial.
(** The hash of a destination tells processes apart. *)
Theorem C37_hash : forall p q, (p < 4294967296)%N -> (q < 4294967296)%N -> destination p = destination q <-> p = q.
Proof. exact hash_lemma. Qed.
Print Assumptions C37_hash.
(** It does list what is no server: any socket whose name ends the same way. *)
Theorem C37_refuted : ~ forall ss ps p, (forall s, In s ss -> ~ In Discover_model.newline (k_front s)) -> discover (table ss) = Some ps ->
  In p ps -> exists s, In s ss /\ of_server p s.
Proof. exact file_refuted. Qed.
Print Assumptions C37_refuted.
(** And any process can make discovery fail for all, with a line break in the name of a socket. *)
Theorem C37_throws_refuted : ~ forall ss, (forall s, In s ss -> ~ In Discover_model.newline (k_front s)) -> discover (table ss) <> None.
Proof. exact throw_refuted. Qed.
Print Assumptions C37_throws_refuted.
