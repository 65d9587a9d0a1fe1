(** What is expected of the objects of a program that watches others (C115). *)
From Coq Require Import List Arith Bool.
Import ListNotations.
From Verif Require Import Owners_model.

(** Something the program still has, or that something kept owns. *)
Inductive kept (s : state) : nat -> Prop :=
| k_var n : In n (vars s) -> kept s n
| k_ref a b : kept s a -> In (a, b) (refs s) -> kept s b.

(** No references that go round in a circle. *)
Definition no_circle (s : state) : Prop := exists rank : nat -> nat, forall a b, In (a, b) (refs s) -> rank a < rank b.

Definition made_ids (tr : list obs) : list nat := flat_map (fun x => match x with OMade n _ => [n] | _ => [] end) tr.
Definition gone_ids (tr : list obs) : list nat := flat_map (fun x => match x with OGone n => [n] | _ => [] end) tr.

(** A program in C++ whose functions for logging capture nothing of all this. *)
Definition plain (a : op) : bool :=
  match a with PyNew | PySet _ _ | PyDel _ _ | PyGet _ _ | PyFactory _ _ | PyWeak _ _ => false | _ => true end.

(** Manager [m] and a function or object [o] of a program in Python keep each other; the program has neither of them, and nothing but these two refers to them. *)
Record ring (m o : nat) (s : state) : Prop := {
  r_m : In (m, Manager) (live s);
  r_o : In (o, Py) (live s);
  r_mo : In (m, o) (refs s);
  r_om : In (o, m) (refs s);
  r_vars : ~ In m (vars s) /\ ~ In o (vars s);
  r_refs : forall a b, In (a, b) (refs s) -> b = m \/ b = o -> a = m \/ a = o }.
(** The kinds of which the program makes all objects itself (a recorder or server makes sessions, and sources for them). *)
Definition own (k : kind) : bool := match k with NSource | PSource | Session => false | _ => true end.
