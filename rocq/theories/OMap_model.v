(** [std::map] as a list of pairs in ascending order of the keys: the parts of its interface the code uses.
    [ltb] is the comparison of the map ([std::less]). Iteration is in the order of the list, as the standard prescribes. *)
From Coq Require Import List Arith NArith Ascii Bool.
Import ListNotations.

Section OMap.
Context {K V : Type}.
Variable ltb : K -> K -> bool.

(** [find(k)]: the value, or [None] for [end()]. *)
Fixpoint mfind (k : K) (m : list (K * V)) : option V :=
  match m with
  | [] => None
  | (k', v) :: m' => if ltb k k' then None else if ltb k' k then mfind k m' else Some v
  end.

(** [m[k] = v]. *)
Fixpoint minsert (k : K) (v : V) (m : list (K * V)) : list (K * V) :=
  match m with
  | [] => [(k, v)]
  | (k', v') :: m' => if ltb k k' then (k, v) :: m else if ltb k' k then (k', v') :: minsert k v m' else (k, v) :: m'
  end.

(** [erase(k)]. *)
Fixpoint merase (k : K) (m : list (K * V)) : list (K * V) :=
  match m with
  | [] => []
  | (k', v') :: m' => if ltb k k' then m else if ltb k' k then (k', v') :: merase k m' else m'
  end.
End OMap.

(** Comparison of [std::string]: lexicographic, by unsigned character. *)
Fixpoint str_ltb (a b : list ascii) : bool :=
  match a, b with
  | _, [] => false
  | [], _ :: _ => true
  | x :: a', y :: b' => if (N_of_ascii x <? N_of_ascii y)%N then true else if (N_of_ascii y <? N_of_ascii x)%N then false else str_ltb a' b'
  end.
