(** What the receiver gets of what several threads send. *)
From Coq Require Import List Arith NArith Ascii Bool.
Import ListNotations.
From Verif Require Import Protocol_model Protocol_spec Framing_model.

(** Each of the five parts goes to the kernel at once. *)
Definition small (limit : nat) (m : msg) : Prop := fits m /\ 8 <= limit /\ length (ep_name m) <= limit /\ length (payload m) <= limit.
(** No send fails in the middle of a message. *)
Definition uncut (os : list op) : Prop := forall t k, ~ In (Cut t k) os.
(** [a] is [b] with some elements left out. *)
Inductive sub {A} : list A -> list A -> Prop :=
| sub_nil l : sub [] l
| sub_take x a b : sub a b -> sub (x :: a) (x :: b)
| sub_skip x a b : sub a b -> sub a (x :: b).
(** The messages of one thread. *)
Definition of_thread (t : nat) (l : list (nat * msg)) : list msg := map snd (filter (fun p => fst p =? t) l).
