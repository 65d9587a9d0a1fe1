(** Vocabulary for C12, C13. *)
From Coq Require Import List Arith NArith Ascii Bool.
Import ListNotations.
From Verif Require Import Protocol_model Manager_model.

Definition m_reached (s : manager) : Prop := exists intro_name os, mrun os (manager0 intro_name) = Some s.

(** What a user sees of the manager: transport [t] to destination [h] is held; [t] has the endpoints [eps]. *)
Definition holds (s : manager) (h t : nat) : Prop := In (h, t) (mg_transports s).
Definition reports (s : manager) (t : nat) (eps : list (bytes * nat)) : Prop := In (t, eps) (mg_endpoints s).

(** Is there a factory for this name? *)
Definition has_factory (s : manager) (n : bytes) : Prop := exists f, In (n, f) (mg_factories s).

(** No exception is raised in a cycle. *)
Definition gentle (a : attempt) : Prop :=
  match a with
  | NullTransport => False
  | ATransport _ Throws _ => False
  | ATransport _ _ mk => forall i, mk i <> MakingThrows
  end.

(** The server accepts the connection. *)
Definition accepts (a : attempt) : Prop := exists intro mk, a = ATransport true intro mk.
