(** What C113 says: a process that stands still and the polling of all others. *)
From Coq Require Import List Arith Bool.
Import ListNotations.
From Verif Require Import Still_model.

(** The states that can come up among [n] servers. *)
Definition reached (n : nat) (s : state) : Prop := exists ls, run ls (state0 n) = Some s.

(** Server [p] stands still, and six connections to it (one more than the number given to listen) wait to be accepted. *)
Definition full (p : nat) (s : state) : Prop := exists q, nth_error (servers s) p = Some {| sv_up := Stands; sv_queue := q |} /\ 6 <= length q.
(** The manager waits in connect for such a server. *)
Definition blocked (p : nat) (s : state) : Prop := (exists todo, man s = Waits p todo) /\ full p s.

(** In no state of the history does it. *)
Definition calm (ls : list label) (s : state) : Prop := forall a b s' p, ls = a ++ b -> run a s = Some s' -> ~ blocked p s'.
(** Histories without a new poll. *)
Definition no_poll (ls : list label) : Prop := forall ds, ~ In (Poll ds) ls.
(** [a] is [b] with some elements left out. *)
Inductive within : list nat -> list nat -> Prop :=
| w_none b : within [] b
| w_take x a b : within a b -> within (x :: a) (x :: b)
| w_skip x a b : within a b -> within a (x :: b).
