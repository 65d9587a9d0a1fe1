(** Model of the endpoint registry of a transport ([scalopus_interface/src/transport.cpp]) and of endpoint
    introspection ([scalopus_general/src/endpoint_introspect.cpp]).

    An endpoint is a number (its address) with a name.  [endpoints_] is a [std::map<std::string, Endpoint::Ptr>].
    [addEndpoint], [endpoints] and [getEndpoint] hold [endpoint_mutex_] from beginning to end (lines 61, 68, 74), so
    each is one step, and a history of the calls of any number of threads is a list.
    Simplifications: [getName] of an endpoint always returns the same name; the names travel through
    [json::to_bson]/[from_bson] unchanged (lines 53-54 and 70-71 of endpoint_introspect.cpp). *)
From Coq Require Import List Arith NArith Ascii Bool.
Import ListNotations.
From Verif Require Import Protocol_model OMap_model.

Record registry := {
  rg_map : list (bytes * nat);          (* [endpoints_] *)
  rg_bound : list nat;                  (* endpoints on which [setTransport(this)] was called *)
}.

Definition registry0 : registry := {| rg_map := []; rg_bound := [] |}.

(** [Transport::addEndpoint], transport.cpp lines 59-64. *)
Definition add_endpoint (name : bytes) (e : nat) (r : registry) : registry :=
  {| rg_map := minsert str_ltb name e (rg_map r); rg_bound := e :: rg_bound r |}.

(** [Transport::getEndpoint], transport.cpp lines 72-81; [None] is [nullptr]. *)
Definition get_endpoint (name : bytes) (r : registry) : option nat := mfind str_ltb name (rg_map r).

(** [EndpointIntrospect::handle], endpoint_introspect.cpp lines 45-56: the names, in the order of the map. *)
Definition introspect (r : registry) : list bytes := map fst (rg_map r).

(** A history of [addEndpoint] calls. *)
Definition add_all (ops : list (bytes * nat)) : registry := fold_left (fun r o => add_endpoint (fst o) (snd o) r) ops registry0.
