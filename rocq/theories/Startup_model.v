(** Model of a process that starts to serve while an endpoint manager is looking for processes: the registry of its server
    transport ([Registry_model]) grows while the manager ([Manager_model]) connects and asks for the list of endpoints.

    Every user of the library obtains its server from [TransportFactory::serve], and only then adds endpoints to it, one
    after the other: [DefaultExposer.__init__] (scalopus_python/scalopus/common.py lines 45-51), the examples, the tests.
    [serve] returns a transport that already listens (transport_unix.cpp lines 68-121 and 367-378), so it is discovered and
    accepts connections from that moment on.

    A request of the manager for the list of endpoints is handled by the server in two steps: its thread looks the endpoint
    up ([getEndpoint] takes [endpoint_mutex_]; transport_unix.cpp lines 246-276: without an endpoint no answer is sent) and,
    when there is one, its [handle] reads the names (endpoint_introspect.cpp lines 45-56, [endpoints] takes the mutex
    again).  [supported] waits 200 ms (lines 58-75); an answer that arrives later is not used.

    Simplifications: no connection is lost and no process ends (C12 and C13 are about those); [connect] succeeds for a
    process that serves; the endpoint factories of the manager make an endpoint every time; one manager. *)
From Coq Require Import List Arith NArith Ascii String Bool.
Import ListNotations.
From Verif Require Import Protocol_model OMap_model Registry_model Manager_model.
Open Scope list_scope.

(** How far the request of the manager got: sent, an introspection endpoint was found, none was found. *)
Inductive stage := Sent | Found | Missed.

Record sys := {
  sy_servers : nat -> option registry;        (* the server transport of each process; [None] before [serve] *)
  sy_mgr : manager;
  sy_todo : list nat;                         (* the rest of the loop in [manage], endpoint_manager_poll.cpp lines 72-75 *)
  sy_asking : option (nat * stage);           (* inside [supported] for this process, line 98 *)
}.

Definition set_server (h : nat) (r : registry) (f : nat -> option registry) : nat -> option registry :=
  fun i => if Nat.eqb i h then Some r else f i.

Inductive sev :=
  | SServe (h : nat)                          (* [factory.serve()] in process [h] *)
  | SAdd (h : nat) (name : bytes) (e : nat)   (* [server.addEndpoint(endpoint)] *)
  | SFactory (name : bytes) (f : nat)         (* [addEndpointFactory] on the manager *)
  | SManage (ds : list nat)                   (* [manage] begins and discovery returned [ds] *)
  | SVisit                                    (* the manager takes the next destination *)
  | SLookup                                   (* the server looks for its introspection endpoint *)
  | SList                                     (* the server reads the names; the manager uses the answer *)
  | STimeout.                                 (* 200 ms passed *)

(** [EndpointIntrospect::name], endpoint_introspect.cpp line 38. *)
Definition introspect_name : bytes := list_ascii_of_string "introspect".

Definition listening (s : sys) (h : nat) : bool := match sy_servers s h with Some _ => true | None => false end.

(** The rest of [connect] once introspection has ended, endpoint_manager_poll.cpp lines 92-122. The [i]-th endpoint made is
    number [i]. *)
Definition conclude (s : sys) (h : nat) (intro : introspection) : option sys :=
  match m_connect h (ATransport true intro Makes) (sy_mgr s) with
  | MDone m => Some {| sy_servers := sy_servers s; sy_mgr := m; sy_todo := sy_todo s; sy_asking := None |}
  | _ => None
  end.

(** One step; [None]: not possible in this state. [mutex_] of the manager is held from the beginning of [manage] to its end
    (line 55), so no factory is added (line 157) while it runs. *)
Definition sy_step (e : sev) (s : sys) : option sys :=
  let idle := match sy_asking s, sy_todo s with None, [] => true | _, _ => false end in
  let with_servers f := {| sy_servers := f; sy_mgr := sy_mgr s; sy_todo := sy_todo s; sy_asking := sy_asking s |} in
  match e with
  | SServe h => if listening s h then None else Some (with_servers (set_server h registry0 (sy_servers s)))
  | SAdd h n x =>
      match sy_servers s h with
      | Some r => Some (with_servers (set_server h (add_endpoint n x r) (sy_servers s)))
      | None => None
      end
  | SFactory n f =>
      if idle then Some {| sy_servers := sy_servers s; sy_mgr := add_factory n f (sy_mgr s); sy_todo := []; sy_asking := None |} else None
  | SManage ds =>
      if idle && forallb (listening s) ds
      then Some {| sy_servers := sy_servers s; sy_mgr := sy_mgr s; sy_todo := ds; sy_asking := None |} else None
  | SVisit =>
      match sy_asking s, sy_todo s with
      | None, h :: ds =>
          match tfind h (mg_transports (sy_mgr s)) with
          | Some _ => Some {| sy_servers := sy_servers s; sy_mgr := sy_mgr s; sy_todo := ds; sy_asking := None |}   (* lines 80-83 *)
          | None => Some {| sy_servers := sy_servers s; sy_mgr := sy_mgr s; sy_todo := ds; sy_asking := Some (h, Sent) |}
          end
      | _, _ => None
      end
  | SLookup =>
      match sy_asking s with
      | Some (h, Sent) =>
          match sy_servers s h with
          | Some r => Some {| sy_servers := sy_servers s; sy_mgr := sy_mgr s; sy_todo := sy_todo s;
                              sy_asking := Some (h, match get_endpoint introspect_name r with Some _ => Found | None => Missed end) |}
          | None => None
          end
      | _ => None
      end
  | SList =>
      match sy_asking s with
      | Some (h, Found) => match sy_servers s h with Some r => conclude s h (Answers (introspect r)) | None => None end
      | _ => None
      end
  | STimeout => match sy_asking s with Some (h, _) => conclude s h NoAnswer | None => None end
  end.

Fixpoint sy_run (es : list sev) (s : sys) : option sys :=
  match es with
  | [] => Some s
  | e :: es' => match sy_step e s with Some s' => sy_run es' s' | None => None end
  end.

(** At first nothing is served and the manager has been constructed. *)
Definition sys0 : sys := {| sy_servers := fun _ => None; sy_mgr := manager0 introspect_name; sy_todo := []; sy_asking := None |}.

(** [DefaultExposer.__init__], common.py lines 46-51: the names of the endpoints it adds, in this order. *)
Definition exposer_names : list bytes :=
  [introspect_name; list_ascii_of_string "process_info"; list_ascii_of_string "scope_tracing"; list_ascii_of_string "native_trace_sender"].
