(** C89: the pages and addresses of the server for viewers. *)
From Coq Require Import String List NArith Ascii Bool.
Import ListNotations.
From Verif Require Import UnixSystem_model Json_model Http_model Http_spec Http_proofs.
Local Open Scope list_scope.

(** C89 in full: the pages the server answers with are JSON and the links in them lead to it, whatever its port.  This is
    false for the link of the listed page: [C89_refuted].  What holds: *)

(** Exactly the two pages are served, the list whatever its query. *)
Theorem C89_handled uri : (exists b, handle uri = Page b) <-> uri = text "/json/version" \/ exists q, uri = text "/json/list" ++ q.
Proof. exact (handled uri). Qed.
Print Assumptions C89_handled.

(** Their text is JSON that is read back as the page. *)
Theorem C89_json uri b : handle uri = Page b -> exists t, b = Some t /\
  parse no_float t = Some (if bytes_eqb uri (text "/json/version") then version_page else list_page).
Proof. exact (page_json uri b). Qed.
Print Assumptions C89_json.

(** The address in the version page is one under which a viewer can connect, whatever the port. *)
Theorem C89_partial port : exists u, member "webSocketDebuggerUrl" version_page = Some (JStr u) /\ opens port port ("/"%char :: u) = true.
Proof. exact (version_socket port). Qed.
Print Assumptions C89_partial.

(** A link is read as it was written: the reading of links below is not to blame. *)
Theorem C89_links pre host p path : ~ In "="%char pre -> ~ In ":"%char host ->
  target (pre ++ text "ws=" ++ host ++ ":"%char :: dump_nat p ++ "/"%char :: path) = Some (host, p, "/"%char :: path).
Proof. exact (target_link pre host p path). Qed.
Print Assumptions C89_links.

(** The link of the listed page leads to no server: there is no web socket under its path. *)
Theorem C89_refuted : exists page u, list_page = JArr [page] /\ member "devtoolsFrontendUrl" page = Some (JStr u) /\
  target u = Some (text "127.0.0.1", 9222%N, text "/devtools/p") /\ forall port, ~ usable port u.
Proof. exact list_link. Qed.
Print Assumptions C89_refuted.

(** And with a right path it would still lead to port 9222 only, wherever the server listens. *)
Theorem C89_port_refuted port path u : member "devtoolsFrontendUrl" (match list_page with JArr [p] => p | _ => JNull end) = Some (JStr u) ->
  In path socket_paths -> port <> 9222%N ->
  exists h p0 q, target u = Some (h, p0, q) /\ opens port p0 path = false.
Proof. exact (list_port port path u). Qed.
Print Assumptions C89_port_refuted.

(** Calls that start and destroy the server: starting twice, and nothing else, ends the process. *)
Theorem C89_start l s : server_run l Fresh = Some s ->
  (s = Terminated <-> exists l', l = Start :: Start :: l') /\ (s = Gone <-> l = [Destroy] \/ l = [Start; Destroy]).
Proof. exact (server_exact l s). Qed.
Print Assumptions C89_start.
