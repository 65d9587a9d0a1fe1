From Coq Require Import List Arith NArith Ascii Bool.
Import ListNotations.
From Verif Require Import Str_model Lines_model Lines_spec Lines_proofs.

(** C66. At any time, what was delivered is a prefix of the lines that were printed: none lost between others, none repeated, none torn.
    For lines which fit in the array, without zero characters. *)
Theorem C66_order_partial : forall xs ls t q out, Forall whole_line ls -> start_of_line t -> printed_bytes xs false = concat ls ++ t -> qrun xs stream0 = (q, out) ->
  exists more, all_lines ls t = out ++ more.
Proof. exact prefix_lemma. Qed.
Print Assumptions C66_order_partial.
(** Once babeltrace has ended, all of them are delivered. *)
Theorem C66_end_partial : forall xs ls t n, Forall whole_line ls -> start_of_line t -> printed_bytes xs false = concat ls ++ t -> length (concat ls ++ t) < n ->
  snd (qrun (xs ++ Close :: works n) stream0) = all_lines ls t.
Proof. exact end_lemma. Qed.
Print Assumptions C66_end_partial.
(** Lines which are printed one at a time are delivered one at a time. *)
Theorem C66_each_partial : forall ls, Forall whole_line ls -> snd (qrun (flat_map (fun l => [Print l; Work]) ls) stream0) = ls.
Proof. exact each_lemma. Qed.
Print Assumptions C66_each_partial.
(** Of two lines printed at once, only the first is delivered, however long one waits, until more is printed. *)
Theorem C66_refuted : forall n, snd (qrun (Print (["a"%char; nl] ++ ["b"%char; nl]) :: works (S n)) stream0) = [["a"%char; nl]].
Proof. exact (fun n => two_lines (S n)). Qed.
Print Assumptions C66_refuted.
(** A line which does not fit is delivered as two. *)
Theorem C66_long_refuted : exists l, ~ In nl l /\ snd (qrun [Print (l ++ [nl]); Work; Close; Work] stream0) = [firstn 1023 l; skipn 1023 l ++ [nl]].
Proof. exact long_lemma. Qed.
Print Assumptions C66_long_refuted.
