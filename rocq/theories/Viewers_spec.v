(** What C111 says: how long what one viewer does keeps the server from the others. *)
From Coq Require Import List Arith Bool.
Import ListNotations.
From Verif Require Import Viewers_model.

(** Handling a message takes at most [D] ms, working for the sources at most [W] ms. *)
Definition within (D W : nat) (l : label) : Prop :=
  match l with Arrive (Data _ d) => d <= D | Step _ w => w <= W | _ => True end.

(** Viewers that are leaving: whose worker the server waits for, or whose end is known and not handled yet. *)
Definition is_close (p : event * nat) : bool := match fst p with Close _ => true | _ => false end.
Definition leaving (s : state) : nat := (match srv s with Free => 0 | Joining _ => 1 end) + length (filter is_close (inbox s)).

(** The messages of viewer [v] that are still to be handled. *)
Definition waiting (v : nat) (s : state) : list nat := match nth_error (sessions s) v with Some x => se_in x | None => [] end.
