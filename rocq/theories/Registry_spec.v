(** Vocabulary for C11. *)
From Coq Require Import List Arith NArith Ascii Bool.
Import ListNotations.
From Verif Require Import Protocol_model UnixSystem_model.

(** The endpoint most recently added under a name. *)
Fixpoint last_added (name : bytes) (ops : list (bytes * nat)) : option nat :=
  match ops with
  | [] => None
  | (n, e) :: ops' => match last_added name ops' with Some e' => Some e' | None => if bytes_eqb n name then Some e else None end
  end.

(** [a] comes before [b] in the order of [std::string]: at the first difference, or because [b] goes on. *)
Definition before (a b : bytes) : Prop :=
  exists p, (exists x y a' b', a = p ++ x :: a' /\ b = p ++ y :: b' /\ (N_of_ascii x < N_of_ascii y)%N) \/
            (exists y b', a = p /\ b = p ++ y :: b').

(** Ascending, hence without repetition. *)
Inductive ascending : list bytes -> Prop :=
  | asc_nil : ascending []
  | asc_cons x l : Forall (before x) l -> ascending l -> ascending (x :: l).
