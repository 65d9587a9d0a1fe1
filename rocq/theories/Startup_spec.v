(** Vocabulary for C87. *)
From Coq Require Import List Arith NArith Ascii Bool.
Import ListNotations.
From Verif Require Import Protocol_model Registry_model Manager_model Startup_model.

Definition sy_reached (s : sys) : Prop := exists es, sy_run es sys0 = Some s.

(** What a user of the manager sees: it has a connection to process [h]; it has an endpoint [n] for process [h]. *)
Definition linked (s : sys) (h : nat) : Prop := exists t, In (h, t) (mg_transports (sy_mgr s)).
Definition offered (s : sys) (h : nat) (n : bytes) : Prop :=
  exists t eps e, In (h, t) (mg_transports (sy_mgr s)) /\ In (t, eps) (mg_endpoints (sy_mgr s)) /\ In (n, e) eps.

(** What the process did: it serves an endpoint called [n]. *)
Definition added (s : sys) (h : nat) (n : bytes) : Prop := exists r, sy_servers s h = Some r /\ In n (introspect r).

(** The manager can use endpoints called [n]. *)
Definition wanted (s : sys) (n : bytes) : Prop := exists f, In (n, f) (mg_factories (sy_mgr s)).

(** The manager is not, at this moment, asking process [h] for its endpoints. *)
Definition not_asked (s : sys) (h : nat) : Prop := forall g, sy_asking s <> Some (h, g).

(** No request took longer than 200 ms. *)
Definition timely (es : list sev) : Prop := ~ In STimeout es.
