(** C87: what the endpoint manager knows of a process that is starting. *)
From Coq Require Import List Arith NArith Ascii String Bool.
Import ListNotations.
From Verif Require Import Protocol_model Registry_model Manager_model Startup_model Startup_spec Startup_proofs Startup_witness.
Open Scope list_scope.

(** C87 in full: in every history, once the process has added its endpoints, the manager that has a connection to it offers
    each of them for which it has a factory.  This is false: [C87_refuted].  What holds: *)

(** A process that had added its endpoints, introspection included, when the manager had no connection to it and was not
    asking it, is known with all of them from the connection on, if no request takes more than 200 ms. *)
Theorem C87_partial es s s' h : sy_reached s -> sy_run es s = Some s' -> timely es -> ~ linked s h -> not_asked s h -> added s h introspect_name -> linked s' h ->
  forall n, added s h n -> wanted s n -> offered s' h n.
Proof. exact (complete es s s' h). Qed.
Print Assumptions C87_partial.

(** And the manager gets there the next time it looks. *)
Theorem C87_next s h : sy_reached s -> sy_asking s = None -> sy_todo s = [] -> ~ linked s h -> added s h introspect_name ->
  exists s', sy_run [SManage [h]; SVisit; SLookup; SList] s = Some s' /\ linked s' h /\ forall n, offered s' h n <-> added s h n /\ wanted s n.
Proof. exact (found_next s h). Qed.
Print Assumptions C87_next.

(** Nothing is offered that the process does not serve. *)
Theorem C87_sound s h n : sy_reached s -> offered s h n -> added s h n /\ added s h introspect_name /\ wanted s n.
Proof. exact (sound s h n). Qed.
Print Assumptions C87_sound.

(** Exactly: what is offered, for ever, is what was there when the server read the names and what the manager could use then. *)
Theorem C87_exact s h s1 es s' : sy_reached s -> sy_asking s = Some (h, Found) -> sy_step SList s = Some s1 -> sy_run es s1 = Some s' ->
  linked s' h /\ forall n, offered s' h n <-> added s h n /\ wanted s n.
Proof. exact (exact_list s h s1 es s'). Qed.
Print Assumptions C87_exact.

(** What is offered of a process does not change any more once there is a connection. *)
Theorem C87_frozen s es s' h : sy_reached s -> sy_run es s = Some s' -> linked s h -> linked s' h /\ forall n, offered s' h n <-> offered s h n.
Proof. exact (frozen s es s' h). Qed.
Print Assumptions C87_frozen.

(** A request that met the process before its introspection endpoint was added, or that took too long, leaves the process
    without any endpoint for ever. *)
Theorem C87_missed s h s1 es s' : sy_reached s -> sy_asking s = Some (h, Sent) -> ~ added s h introspect_name -> sy_step SLookup s = Some s1 ->
  sy_run es s1 = Some s' -> forall n, ~ offered s' h n.
Proof. exact (missed s h s1 es s'). Qed.
Print Assumptions C87_missed.

Theorem C87_silent s h g s1 es s' : sy_reached s -> sy_asking s = Some (h, g) -> sy_step STimeout s = Some s1 -> sy_run es s1 = Some s' ->
  linked s' h /\ forall n, ~ offered s' h n.
Proof. exact (silent s h g s1 es s'). Qed.
Print Assumptions C87_silent.

(** The full property is false: whatever number of the four endpoints of [DefaultExposer] had been added when the manager came,
    these are all that is offered for ever, although the process serves all four and the manager can use all four. *)
Theorem C87_refuted k : k <= 4 -> exists es s, sy_run es sys0 = Some s /\ linked s 7 /\
  (forall n, In n exposer_names -> added s 7 n /\ wanted s n) /\
  forall es' s', sy_run es' s = Some s' -> forall n, offered s' 7 n <-> In n (firstn k exposer_names).
Proof. exact (any_prefix k). Qed.
Print Assumptions C87_refuted.

(** The same happens with a factory that is added to the manager after the connection was made. *)
Theorem C87_factory_refuted : exists es s, sy_run es sys0 = Some s /\ (forall n, In n exposer_names -> added s 7 n /\ wanted s n) /\
  forall n, offered s 7 n <-> n = introspect_name.
Proof. exact late_factory. Qed.
Print Assumptions C87_factory_refuted.
