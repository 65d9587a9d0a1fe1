(** What contexts are relied on for. *)
From Coq Require Import String List Arith NArith Ascii Bool.
Import ListNotations.
From Verif Require Import Json_model PyIds_model.

(** The contexts made: id and name. *)
Definition made (es : list event) : list (N * bytes) := flat_map (fun e => match e with Made id nm => [(id, nm)] | _ => [] end) es.
(** No context is asked for with an id. *)
Definition no_id (l : label) : Prop := match l with New _ _ (Some _) => False | _ => True end.
(** All requests to a helper are made by one thread. *)
Definition one_thread (h t : nat) (l : label) : Prop := match l with Ask u k _ => k = h -> u = t | _ => True end.
(** The name of a context: the prefix of the helper, then what it was asked for. *)
Definition full_name (prefix : nat -> bytes) (h : option nat) (nm : bytes) : bytes := match h with Some k => prefix k ++ nm | None => nm end.
