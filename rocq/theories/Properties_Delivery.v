From Coq Require Import List Arith Bool.
Import ListNotations.
From Verif Require Import Collector_spec Delivery_model Delivery_spec Delivery_proofs.

(** C40. In any history in which nothing crashes, and until the next line, each subscriber is called at most once for a line, with its
    event; not at all if it was not there or was disabled before; and just once if it was there, is not disabled meanwhile, and the line
    has been dealt with. What other subscribers do makes no difference. *)
Theorem C40_line_partial : forall L E (parse : L -> option E) xs l ys s c, run parse (xs ++ Line l :: ys) state0 = Ended s c -> no_line ys ->
  exists s0 c1 c2, run parse xs state0 = Ended s0 c1 /\ c = c1 ++ c2 /\ forall i,
    (for_ i c2 = [] \/ exists e, parse l = Some e /\ for_ i c2 = [e]) /\
    (gone i xs -> for_ i c2 = []) /\
    (live i xs -> (forall x, In x ys -> ~ disables i x) -> idle s -> exists e, parse l = Some e /\ for_ i c2 = [e]).
Proof. exact @line_lemma. Qed.
Print Assumptions C40_line_partial.
(** The calls come in the order of the lines. *)
Theorem C40_order : forall L E (parse : L -> option E) xs s c i, run parse xs state0 = Ended s c -> subseq (for_ i c) (events parse xs).
Proof. exact (fun L E parse xs s c i => @order_lemma L E parse _ xs s c i (le_n _)). Qed.
Print Assumptions C40_order.
(** After [disable] has returned, there are no calls any more. *)
Theorem C40_disabled : forall L E (parse : L -> option E) xs ys i s c1 s' c2, In (Clear i) xs -> run parse xs state0 = Ended s c1 -> run parse ys s = Ended s' c2 -> for_ i c2 = [].
Proof. exact @disabled_lemma. Qed.
Print Assumptions C40_disabled.
(** It does not crash if every line can be parsed, and none is disabled while it is looked at. *)
Theorem C40_safe_partial : forall L E (parse : L -> option E) xs, (forall l, parse l <> None) ->
  (forall a i b s c, xs = a ++ Clear i :: b -> run parse a state0 = Ended s c -> ~ visiting i s) -> run parse xs state0 <> FCrashed.
Proof. exact @safe_lemma. Qed.
Print Assumptions C40_safe_partial.
(** Disabling, from any thread, while the callback runs or is about to be called makes the program crash. *)
Theorem C40_race_refuted : exists i, crashes word [Subscribe 0; Line 7; Look; Test; Call; Deactivate i; Clear i] /\ crashes word [Subscribe 0; Line 7; Look; Test; Deactivate i; Clear i; Call].
Proof. exact (ex_intro _ 0 race_crash). Qed.
Print Assumptions C40_race_refuted.
(** A subscriber which only lets go of its subscription is still called. *)
Theorem C40_drop_refuted : exists s, run word [Subscribe 0; Drop 0; Line 7; Look; Test; Call; Return; Look] state0 = Ended s [(0, 7)].
Proof. exact drop_called. Qed.
Print Assumptions C40_drop_refuted.
