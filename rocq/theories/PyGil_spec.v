(** The interpreter is used by the thread that has its lock. *)
From Coq Require Import List Arith Bool.
Import ListNotations.
From Verif Require Import PyGil_model.

Definition program (waits logger : bool) (prog : nat -> list op) : Prop :=
  forall t, prog t <> [] -> exists d r, trace false (thread_code waits logger d r) (prog t).
Definition reachable (prog : nat -> list op) (s : state) : Prop := exists ts, run ts (begin prog) = Some s.
(** Thread [t] is about to use the interpreter or one of its objects. *)
Definition uses (s : state) (t : nat) : Prop := exists r, todo s t = Use :: r.
Definition sound (s : state) : Prop := forall t, uses s t -> owner s = Some t.
(** Two threads use it at once. *)
Definition clash (s : state) : Prop := exists t u, t <> u /\ uses s t /\ uses s u.
