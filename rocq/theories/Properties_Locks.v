(** C72: the library does not get stuck. *)
From Coq Require Import List Arith Bool.
Import ListNotations.
From Verif Require Import Locks_model Locks_spec Locks_proofs Locks_witness.

(** Any number of threads of any kind, any transports, managers, sources, sessions, recorders, calls from C++ and from Python: no state in which all wait.
    Missing for C72: callbacks (loggers, endpoints, factories, sources of the user) that take other locks of the library or the interpreter lock (see below). *)
Theorem C72_no_deadlock_partial : forall roles cb, all_harmless cb -> forall prog s, program roles cb prog -> reachable prog s -> ~ stuck s.
Proof. exact library_free. Qed.
Print Assumptions C72_no_deadlock_partial.
Example C72_case : all_harmless quiet /\ all_harmless (with_unsolicited (broadcast 0 ;; touch (LUser 3))) /\
  exists prog ts s, program (two RUser RPoll) quiet prog /\ run ts (begin prog) = Some s /\ owner s LGil = Some 0 /\ owner s (LManager 0) = Some 1 /\ todo s 0 <> [] /\ step 0 s = None.
Proof. exact (conj harmless_quiet (conj harmless_example busy_example)). Qed.

(** An endpoint that answers a broadcast with a request. *)
Theorem C72_handler_refuted : exists prog s, program (two RTransport RUser) (with_unsolicited (request 0)) prog /\ reachable prog s /\ stuck s.
Proof. exact handler_requests. Qed.
Print Assumptions C72_handler_refuted.
Theorem C72_loopback_refuted : exists prog s, program (two RTransport RUser) (with_handle (loopback_request 0)) prog /\ reachable prog s /\ stuck s.
Proof. exact loopback_requests. Qed.
Print Assumptions C72_loopback_refuted.
(** A factory, or an endpoint, that asks the manager. *)
Theorem C72_factory_refuted : exists prog s, program (two RPoll RUser) (with_factory (endpoints 0)) prog /\ reachable prog s /\ stuck s.
Proof. exact factory_asks. Qed.
Print Assumptions C72_factory_refuted.
Theorem C72_drop_refuted : exists prog s, program (two RPoll RTransport) (with_unsolicited (endpoints 0)) prog /\ reachable prog s /\ stuck s.
Proof. exact handler_asks. Qed.
Print Assumptions C72_drop_refuted.
(** Endpoints and factories in Python, that do nothing but run. *)
Theorem C72_python_request_refuted : exists prog s, program (two RUser RTransport) (with_unsolicited (touch LGil)) prog /\ reachable prog s /\ stuck s.
Proof. exact python_request. Qed.
Print Assumptions C72_python_request_refuted.
Theorem C72_python_factory_refuted : exists prog s, program (two RUser RPoll) (with_factory (touch LGil)) prog /\ reachable prog s /\ stuck s.
Proof. exact python_factory. Qed.
Print Assumptions C72_python_factory_refuted.
Theorem C72_python_drop_refuted : exists prog s, program (two RUser RTransport) (with_handle (touch LGil)) prog /\ reachable prog s /\ stuck s.
Proof. exact python_drop. Qed.
Print Assumptions C72_python_drop_refuted.
