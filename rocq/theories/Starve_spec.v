(** What C108 says, in terms of what is done in a history. *)
From Coq Require Import List Arith Bool.
Import ListNotations.
From Verif Require Import Starve_model.

(** How many steps the worker took, how many broadcasts were made. *)
Definition turns (ls : list label) : nat := List.length (filter (fun l => match l with Work => true | _ => false end) ls).
Definition casts (ls : list label) : nat := List.length (filter (fun l => match l with Cast => true | _ => false end) ls).
(** A broadcast that was made and has not been sent to the clients. *)
Definition waits (x : nat) (s : worker) : Prop := x < k_next s /\ ~ In x (k_sent s).
(** Request [r] is preceded by [j] others on its connection. *)
Definition asked (r j : nat) (s : worker) : Prop := exists l, In l (k_in s) /\ nth_error l j = Some r.
(** How often a request is among [l]; how often it came in. *)
Definition times (r : nat) (l : list nat) : nat := count_occ Nat.eq_dec l r.
Definition asks (r : nat) (ls : list label) : nat := List.length (filter (fun l => match l with Ask _ q => Nat.eqb q r | _ => false end) ls).
