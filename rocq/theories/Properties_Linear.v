(** C105. Concrete cases and the counterexamples are in [Linear_witness.v]. *)
From Coq Require Import List Arith NArith ZArith.
Import ListNotations.
From Verif Require Import Protocol_model UnixSystem_model UnixSystem_spec UnixSystem_witness Linear_model Linear_spec Linear_witness.
From Verif Require PyJson_model PyJson_spec.

(** C105: for all endpoints, all clients and all interleavings of them there is one order in which everything happened: the calls and what the process
    did itself, one after the other, with the answers the clients have; what was done comes before what began later, and the requests of a client come
    in the order in which it sent them. *)
Theorem C105_linearizable {St Op : Type} : forall (handle : bytes -> bytes -> St -> St * result) (own : Op -> St -> St) st ls s,
  lrun handle own ls (lsys0 st) = Some s -> exists order, linear handle own st ls s order.
Proof. exact linearizable. Qed.
Print Assumptions C105_linearizable.

(** C105: the value a request has is what its endpoint answers in the state at its place in that order. *)
Theorem C105_value {St Op : Type} : forall (handle : bytes -> bytes -> St -> St * result) (own : Op -> St -> St) st ls s c k q d,
  lrun handle own ls (lsys0 st) = Some s -> Forall (fair c) ls -> request_of (l_net s) c k q -> r_val q = Value d ->
  exists order x y st1 st2, linear handle own st ls s order /\ order = x ++ Call c (msg_of q) (Answer d) :: y /\
    legal handle own st x st1 /\ handle (r_name q) (r_data q) st1 = (st2, Answer d) /\ legal handle own st2 y (l_state s).
Proof. exact value_at. Qed.
Print Assumptions C105_value.

(** C105: the same for an endpoint written in Python: the bytes are those of the value its method returned for the bytes of the request. *)
Theorem C105_python {F St Op : Type} : forall (method : bytes -> PyJson_model.py F -> St -> St * option (PyJson_model.py F)) (own : Op -> St -> St),
  (forall n p st st' t, method n p st = (st', Some (PyJson_model.PStr t)) -> PyJson_spec.a_str t) ->
  forall st ls s c k q d, lrun (py_handle method) own ls (lsys0 st) = Some s -> Forall (fair c) ls -> request_of (l_net s) c k q -> r_val q = Value d ->
  exists order x y st1 st2 v, linear (py_handle method) own st ls s order /\ order = x ++ Call c (msg_of q) (Answer d) :: y /\
    legal (py_handle method) own st x st1 /\ method (r_name q) (PyJson_model.PBytes (r_data q)) st1 = (st2, Some v) /\ PyJson_spec.says v d /\ legal (py_handle method) own st2 y (l_state s).
Proof. exact python. Qed.
Print Assumptions C105_python.

(** C105 asks for an answer for every request whose endpoint was called; not so for a method that returns a number: *)
Theorem C105_silent_refuted : exists s q order, lrun (py_handle numbers) put_n sc_num (lsys0 7) = Some s /\ linear (py_handle numbers) put_n 7 sc_num s order /\
  request_of (l_net s) 0 0 q /\ In (Call 0 (msg_of q) NoAnswer) order /\ s_up (l_net s) = true /\ s_conn (l_net s) 0 = Accepted /\ c_open (s_cl (l_net s) 0) = true /\ never_ready 0 (l_net s) 0.
Proof. exact silent. Qed.
Print Assumptions C105_silent_refuted.

(** ... nor for the request of one client if the method raises for that of another. *)
Theorem C105_raise_refuted : exists s q, lrun (py_handle picky) put_n sc_picky (lsys0 0) = Some s /\ (forall c, Forall (fair c) sc_picky) /\
  request_of (l_net s) 0 0 q /\ r_data q = b_p /\ snd (picky b_e (PyJson_model.PBytes b_p) (l_state s)) = Some (PyJson_model.PBytes b_p) /\ s_up (l_net s) = false /\ never_ready 0 (l_net s) 0.
Proof. exact raises. Qed.
Print Assumptions C105_raise_refuted.
