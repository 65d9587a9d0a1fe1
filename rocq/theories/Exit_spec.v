(** What C109 is stated with. *)
From Coq Require Import List.
From Verif Require Import Exit_model.
Import ListNotations.

(** The program carried out these steps and nothing undefined happened. *)
Definition reached (body : nat -> list use) (ls : list label) (s : state) : Prop := run body ls state0 = Next s.

(** Uses for which the library keeps something of the calling thread. *)
Definition per_thread (u : use) : bool := match u with UTrace _ | USetName | USetState => true | _ => false end.

(** The programs for which the end is safe:
    a thread-local object whose destructor uses the library is made by a thread after that thread has used the same things itself;
    a static object whose destructor uses the library is made after the same things have been used, and its destructor uses nothing kept per thread;
    all other threads have ended before main returns, and none is started after that. *)
Definition careful (body : nat -> list use) (ls : list label) : Prop :=
  forall a l b, ls = a ++ l :: b ->
  match l with
  | Local t k => In (Local t k) a \/ forall u, In u (body k) -> per_thread u = true -> In (Do t u) a
  | Static _ k => (exists t', In (Static t' k) a) \/ forall u, In u (body k) -> per_thread u = false /\ exists t', In (Do t' u) a
  | Start _ => ~ In (Return 0) a
  | Return 0 => forall t, In (Start t) a -> In (End t) a
  | _ => True
  end.
