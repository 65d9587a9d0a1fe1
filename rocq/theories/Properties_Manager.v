(** The property theorems about the endpoint registry and the endpoint manager: C11, C12, C13, C54. *)
From Coq Require Import List Arith NArith Ascii Bool.
Import ListNotations.
From Verif Require Import Protocol_model UnixSystem_model UnixSystem_witness OMap_model Registry_model Registry_spec Registry_proofs
  Manager_model Manager_spec Manager_proofs.

(** * C11 *)
Theorem C11_lookup : forall ops name, get_endpoint name (add_all ops) = last_added name ops.
Proof. exact lookup_last. Qed.
Print Assumptions C11_lookup.

Theorem C11_introspection_exact : forall ops name, In name (introspect (add_all ops)) <-> exists e, In (name, e) ops.
Proof. exact introspect_exact. Qed.
Print Assumptions C11_introspection_exact.

Theorem C11_introspection_ascending : forall ops, ascending (introspect (add_all ops)) /\ NoDup (introspect (add_all ops)).
Proof. exact (fun ops => conj (introspect_ascending ops) (ascending_NoDup _ (introspect_ascending ops))). Qed.
Print Assumptions C11_introspection_ascending.

Theorem C11_introspection_agrees : forall ops name, In name (introspect (add_all ops)) <-> get_endpoint name (add_all ops) <> None.
Proof. exact introspect_lookup. Qed.
Print Assumptions C11_introspection_agrees.

(** Every endpoint added is told which transport it belongs to. *)
Theorem C11_bound : forall ops e, In e (map snd ops) <-> In e (rg_bound (add_all ops)).
Proof. exact bound_all. Qed.
Print Assumptions C11_bound.

Example C11_example : let ops := [(b_p, 1); (b_e, 2); (b_p, 3); (b_e ++ b_p, 4)] in
  introspect (add_all ops) = [b_e; b_e ++ b_p; b_p] /\ get_endpoint b_p (add_all ops) = Some 3 /\ get_endpoint b_A (add_all ops) = None.
Proof. vm_compute. auto. Qed.

(** * C12 *)
Theorem C12_one_transport_per_destination : forall s h t1 t2, m_reached s -> holds s h t1 -> holds s h t2 -> t1 = t2.
Proof. exact one_transport_per_destination. Qed.
Print Assumptions C12_one_transport_per_destination.

Theorem C12_one_destination_per_transport : forall s h1 h2 t, m_reached s -> holds s h1 t -> holds s h2 t -> h1 = h2.
Proof. exact one_destination_per_transport. Qed.
Print Assumptions C12_one_destination_per_transport.

Theorem C12_held_iff_reported : forall s t, m_reached s -> (exists h, holds s h t) <-> (exists eps, reports s t eps).
Proof. exact held_iff_reported. Qed.
Print Assumptions C12_held_iff_reported.

(** A cycle that completes: transports held before stay exactly if they are connected, with the endpoints they had; every
    discovered server that accepts is held; every new transport is one to a discovered server, with exactly the
    endpoints the server named and for which a factory, registered at that time, made an endpoint. *)
Theorem C12_cycle_partial : forall s alive ds s', m_reached s -> manage alive ds s = MDone s' ->
  (forall h t, t < mg_next s -> holds s' h t <-> holds s h t /\ alive t = true) /\
  (forall t eps, t < mg_next s -> reports s' t eps <-> reports s t eps /\ alive t = true) /\
  (forall h a, In (h, a) ds -> accepts a -> exists t, holds s' h t) /\
  (forall h t, mg_next s <= t -> holds s' h t -> exists intro mk eps, In (h, ATransport true intro mk) ds /\ reports s' t eps /\
     match intro with
     | Answers names =>
        (forall n e, In (n, e) eps -> exists i, nth_error names i = Some n /\ has_factory s n /\ mk i = Makes e) /\
        (forall i n e, nth_error names i = Some n -> has_factory s n -> mk i = Makes e -> exists e', In (n, e') eps) /\ NoDup (map fst eps)
     | NoAnswer => eps = []
     | Throws => False
     end).
Proof. exact cycle. Qed.
Print Assumptions C12_cycle_partial.

(** A cycle completes if no attempt to connect fails badly. *)
Theorem C12_gentle_cycle_partial : forall s alive ds, m_reached s -> (forall h a, In (h, a) ds -> gentle a) -> exists s', manage alive ds s = MDone s'.
Proof. exact gentle_cycle. Qed.
Print Assumptions C12_gentle_cycle_partial.

(** The endpoints of a transport are settled when it is made: whatever happens later (factories registered, cycles,
    new answers of the server), as long as it stays connected nothing is added to them. *)
Theorem C12_late_factory_refuted : forall os s s' t eps, m_reached s -> reports s t eps -> Forall (keeps t) os -> mrun os s = Some s' -> reports s' t eps.
Proof. exact endpoints_frozen. Qed.
Print Assumptions C12_late_factory_refuted.

(** Two servers; the first offers an unknown endpoint and one whose factory is registered, the second is lost again. *)
Example C12_example : let a1 := ATransport true (Answers [b_A; b_e]) (fun i => Makes (10 + i)) in let a2 := ATransport true NoAnswer (fun _ => MakesNull) in
  exists s, mrun [OFactory b_e 1; OManage (fun _ => true) [(7, a1); (9, a2); (7, a2)]; OManage (fun t => t =? 0) []] (manager0 b_B) = Some s /\
   mg_transports s = [(7, 0)] /\ mg_endpoints s = [(0, [(b_e, 11)])].
Proof. eexists. vm_compute. auto. Qed.

(** The endpoint the server offers is not there although its factory is registered and further cycles have passed. *)
Example C12_late_factory_example : let a := ATransport true (Answers [b_e]) (fun i => Makes i) in
  exists s, mrun [OManage (fun _ => true) [(7, a)]; OFactory b_e 1; OManage (fun _ => true) [(7, a)]; OManage (fun _ => true) [(7, a)]] (manager0 b_B) = Some s /\
   has_factory s b_e /\ mg_endpoints s = [(0, [])].
Proof. eexists. vm_compute. repeat split. exists 1. auto. Qed.

(** * C13 *)
(** No transport: the manager calls through the null pointer. *)
Theorem C13_null_transport_refuted : forall s alive h ds cs, m_reached s -> (forall t, ~ holds s h t) ->
  poll ((alive, (h, NullTransport) :: ds) :: cs) s = WUB.
Proof. exact null_poll_ub. Qed.
Print Assumptions C13_null_transport_refuted.

(** The query fails with an error, as when the server closes the connection: the process ends. *)
Theorem C13_failed_query_refuted : forall s alive h mk ds cs, m_reached s -> (forall t, ~ holds s h t) ->
  poll ((alive, (h, ATransport true Throws mk) :: ds) :: cs) s = WTerminate.
Proof. exact throwing_terminates. Qed.
Print Assumptions C13_failed_query_refuted.

(** No answer in time: the server is never asked again. *)
Theorem C13_never_asked_again_refuted : forall os s s' t, m_reached s -> reports s t [] -> Forall (keeps t) os -> mrun os s = Some s' -> reports s' t [].
Proof. exact (fun os s s' t => endpoints_frozen os s s' t []). Qed.
Print Assumptions C13_never_asked_again_refuted.

Example C13_never_asked_again_example : exists s s', mrun [OFactory b_e 1; OManage (fun _ => true) [(7, ATransport true NoAnswer (fun _ => Makes 3))]] (manager0 b_B) = Some s /\
  reports s 0 [] /\ mrun [OManage (fun _ => true) [(7, ATransport true (Answers [b_e]) (fun _ => Makes 3))]] s = Some s' /\ reports s' 0 [].
Proof.
  eexists. eexists. split; [vm_compute; reflexivity|]. split; [vm_compute; auto|]. split; [vm_compute; reflexivity|]. vm_compute. auto.
Qed.

(** A server that did not accept, or whose connection broke, is not held, and is connected to in the next cycle in which it accepts. *)
Theorem C13_tried_again_partial : forall s alive ds s' h a, m_reached s -> manage alive ds s = MDone s' -> In (h, a) ds -> accepts a -> exists t, holds s' h t.
Proof. exact tried_again. Qed.
Print Assumptions C13_tried_again_partial.

Theorem C13_not_held_partial : forall s alive ds s' h, m_reached s -> manage alive ds s = MDone s' ->
  (forall a, In (h, a) ds -> ~ accepts a) -> (forall t, holds s h t -> alive t = false) -> forall t, ~ holds s' h t.
Proof. exact not_accepted_not_held. Qed.
Print Assumptions C13_not_held_partial.

Example C13_example : exists s s', mrun [OFactory b_e 1; OManage (fun _ => true) [(7, ATransport false NoAnswer (fun _ => MakesNull))]] (manager0 b_B) = Some s /\
  (forall t, ~ holds s 7 t) /\ manage (fun _ => true) [(7, ATransport true (Answers [b_e]) (fun _ => Makes 3))] s = MDone s' /\ reports s' 0 [(b_e, 3)].
Proof.
  eexists. eexists. split; [vm_compute; reflexivity|]. split; [vm_compute; auto|]. split; [vm_compute; reflexivity|]. vm_compute. auto.
Qed.

(** * C54 *)
(** However often polling is started and stopped, it is on exactly if the last call was a start, and the manager can be destroyed. *)
Theorem C54_start_stop : forall bs, exists p, poll_calls bs polling0 = PDone p /\ pl_on p = last bs false /\
  exists p', destroy_polling p = PDone p' /\ pl_joinable p' = false.
Proof. exact polling_safe. Qed.
Print Assumptions C54_start_stop.

Example C54_example : poll_calls [true; true; false; false; true] polling0 = PDone {| pl_on := true; pl_joinable := true |}.
Proof. reflexivity. Qed.
