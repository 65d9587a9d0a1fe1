(** What is expected of objects on both sides of the Python bindings (C97). *)
From Coq Require Import List Arith Bool.
Import ListNotations.
From Verif Require Import PyLife_model.

(** Something the program or the manager can still get at: a root refers to it, or something they can get at does. *)
Inductive reachable (s : state) : node -> Prop :=
| r_root a x b : root a = true -> In (a, x, b) (s_refs s) -> reachable s b
| r_step a x b : reachable s a -> In (a, x, b) (s_refs s) -> reachable s b.

(** No references that go round in a circle. *)
Definition no_circle (s : state) : Prop := exists rank : node -> nat, forall a x b, In (a, x, b) (s_refs s) -> rank a < rank b.

(** The endpoint that was added last to transport [t] under the name [n]. *)
Definition serving (tr : list obs) (t n : nat) : option nat :=
  fold_left (fun r x => match x with OAdded t' n' o => if Nat.eqb t' t && Nat.eqb n' n then Some o else r | _ => r end) tr None.

(** How often [n] was destroyed. *)
Definition destroyed (tr : list obs) (n : node) : nat := length (filter (fun x => match x with OGone m => is n m | _ => false end) tr).
(** A Python object or a transport (not one of the wrappers that come and go). *)
Definition object (n : node) : Prop := match n with Py _ | Cxx _ => True | _ => False end.

Definition connects (a : op) : bool := match a with Connect _ _ => true | _ => false end.
Definition collects (a : op) : bool := match a with Gc _ => true | _ => false end.
