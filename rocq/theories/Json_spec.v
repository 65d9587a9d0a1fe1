(** JSON text of a value, as a grammar: RFC 8259 with white space anywhere it is allowed, members in ascending order of the keys,
    strings spelled in any way that is allowed. Integers are written without superfluous signs; how floating point numbers are
    written is a parameter. *)
From Coq Require Import String List Arith NArith ZArith Ascii Bool Sorting.Sorted.
Import ListNotations.
From Verif Require Import OMap_model Json_model.

Definition ws (w : bytes) : Prop := forallb is_ws w = true.
Definition int_range (z : Z) : Prop := (-9223372036854775808 <= z <= 18446744073709551615)%Z.
Definition ascending {V} (m : list (bytes * V)) : Prop := StronglySorted (fun a b => str_ltb (fst a) (fst b) = true) m.

(** How the text of a string may be spelled between the quotes: a character as it is, unless it is a control character, a quote or a backslash; one of the
    short escapes; four hexadecimal digits; two times four for a character beyond the first 65536. *)
Definition short : list (N * N) := [(34, 34); (92, 92); (47, 47); (8, 98); (12, 102); (10, 110); (13, 114); (9, 116)]%N.
Definition four (n : N) (ds : bytes) : Prop := length ds = 4 /\ hex4 ds = Some (n, []).
Inductive spelled : bytes -> bytes -> Prop :=
| sp_end : spelled [] []
| sp_plain c h s t : utf8_head (c :: h) = Some (c :: h, []) -> (32 <= code c)%N -> code c <> 34%N -> code c <> 92%N -> spelled s t ->
    spelled (c :: h ++ s) (c :: h ++ t)
| sp_short n e s t : In (n, e) short -> spelled s t -> spelled (ch n :: s) (backslash :: ch e :: t)
| sp_four n ds s t : four n ds -> (n < 55296 \/ 57343 < n)%N -> spelled s t -> spelled (encode n ++ s) (backslash :: "u"%char :: ds ++ t)
| sp_pair n hi lo ds es s t : four hi ds -> four lo es -> (55296 <= hi <= 56319)%N -> (56320 <= lo <= 57343)%N ->
    (n = 65536 + (hi - 55296) * 1024 + (lo - 56320))%N -> spelled s t ->
    spelled (encode n ++ s) (backslash :: "u"%char :: ds ++ backslash :: "u"%char :: es ++ t).
Definition quoted (s t : bytes) : Prop := exists b, spelled s b /\ t = quote :: b ++ [quote].

Section Grammar.
Context {F : Type} (fw : F -> bytes) (fr : bytes -> option F).
(** A floating point number that is written as one (with a point or an exponent) and read back. Infinities and NaN are not. *)
Definition float_ok (f : F) : Prop :=
  fr (fw f) = Some f /\ exists neg ds more, scan_number (fw f) = Some (neg, ds, more, []) /\ more <> [].
(** Values that can be shown: numbers in range, text in UTF-8. *)
Inductive wf : json F -> Prop :=
| wf_null : wf JNull
| wf_bool b : wf (JBool b)
| wf_int z : int_range z -> wf (JInt z)
| wf_float f : float_ok f -> wf (JFloat f)
| wf_str s : utf8 s = true -> wf (JStr s)
| wf_arr l : Forall wf l -> wf (JArr l)
| wf_obj m : ascending m -> Forall (fun kv => utf8 (fst kv) = true /\ wf (snd kv)) m -> wf (JObj m).

Inductive val : json F -> bytes -> Prop :=
| v_null : val JNull (text "null"%string)
| v_true : val (JBool true) (text "true"%string)
| v_false : val (JBool false) (text "false"%string)
| v_int z : int_range z -> val (JInt z) (dump_int z)
| v_float f : float_ok f -> val (JFloat f) (fw f)
| v_str s t : quoted s t -> val (JStr s) t
| v_arr0 w : ws w -> val (JArr []) ("["%char :: w ++ ["]"%char])
| v_arr l t : items l t -> val (JArr l) ("["%char :: t ++ ["]"%char])
| v_obj0 w : ws w -> val (JObj []) ("{"%char :: w ++ ["}"%char])
| v_obj m t : ascending m -> members m t -> val (JObj m) ("{"%char :: t ++ ["}"%char])
with items : list (json F) -> bytes -> Prop :=
| i_one j t w1 w2 : ws w1 -> ws w2 -> val j t -> items [j] (w1 ++ t ++ w2)
| i_more j t l t' w1 w2 : ws w1 -> ws w2 -> val j t -> items l t' -> items (j :: l) (w1 ++ t ++ w2 ++ ","%char :: t')
with members : list (bytes * json F) -> bytes -> Prop :=
| m_one k q j t w1 w2 w3 w4 : ws w1 -> ws w2 -> ws w3 -> ws w4 -> quoted k q -> val j t ->
    members [(k, j)] (w1 ++ q ++ w2 ++ ":"%char :: w3 ++ t ++ w4)
| m_more k q j t m t' w1 w2 w3 w4 : ws w1 -> ws w2 -> ws w3 -> ws w4 -> quoted k q -> val j t -> members m t' ->
    members ((k, j) :: m) (w1 ++ q ++ w2 ++ ":"%char :: w3 ++ t ++ w4 ++ ","%char :: t').
(** A whole document. *)
Definition document (j : json F) (t : bytes) : Prop := exists w1 t' w2, t = w1 ++ t' ++ w2 /\ ws w1 /\ ws w2 /\ val j t'.
End Grammar.
