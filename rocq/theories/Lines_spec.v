(** What C66 says: the lines of what was printed. *)
From Coq Require Import List Arith NArith Ascii Bool.
Import ListNotations.
From Verif Require Import Str_model Lines_model.

Fixpoint printed_bytes (xs : list qlabel) (closed : bool) : str :=
  match xs with
  | [] => []
  | Print bs :: xs' => if closed then printed_bytes xs' closed else bs ++ printed_bytes xs' closed
  | Close :: xs' => printed_bytes xs' true
  | Work :: xs' => printed_bytes xs' closed
  end.
(** A line with its end, and the start of one: no longer than fits, without zero characters. *)
Definition whole_line (l : str) : Prop := exists t, l = t ++ [nl] /\ ~ In nl t /\ length l <= room /\ ~ In (ascii_of_N 0) t.
Definition start_of_line (t : str) : Prop := ~ In nl t /\ length t < room /\ ~ In (ascii_of_N 0) t.
Definition all_lines (ls : list str) (t : str) : list str := ls ++ match t with [] => [] | _ => [t] end.
(** Rounds of the loop. *)
Definition works (n : nat) : list qlabel := repeat Work n.
