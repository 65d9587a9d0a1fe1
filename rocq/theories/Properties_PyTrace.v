From Coq Require Import List Arith Bool.
Import ListNotations.
From Verif Require Import PyTrace_model PyTrace_spec PyTrace_proofs PyTrace_witness.

(** C95. Whatever the threads do and whenever they take turns, with exceptions, handlers and interrupts: in the record of each thread every end is
    that of the innermost open block, and when a thread has finished none is open. For programs which have no [yield] inside [with] and do not
    change the backend, and unless an interrupt comes inside [__enter__] or [__exit__]. *)
Theorem C95_nests_partial : forall fn b, (forall f, forallb tidy (fn f) = true) -> forall main xs s, (forall t, forallb tidy (main t) = true) ->
  calm fn xs (start main b) -> run fn xs (start main b) = Some s ->
  forall t, exists open, reading [] (of_thread b t (p_log s)) = Some open /\ (finished t s -> open = []).
Proof. exact nests. Qed.
Print Assumptions C95_nests_partial.
(** Without generators and interrupts, the record of a thread which has finished is that of its program, block by block. *)
Theorem C95_tree_partial : forall fn b, (forall f, forallb plain (fn f) = true) -> forall main xs s, (forall t, forallb plain (main t) = true) ->
  Forall (fun x => exists t, x = Go t) xs -> run fn xs (start main b) = Some s ->
  forall t, finished t s -> execs fn (main t) (of_thread b t (p_log s)) (p_mode s t).
Proof. exact tree. Qed.
Print Assumptions C95_tree_partial.
(** There, a call of a decorated function is traced from its begin to its end, however it ends. *)
Theorem C95_traced_partial : forall fn f c f' e o, fn f = traced c f' -> exec fn (SCall f) e o -> exists e', exec fn (SCall f') e' o /\ e = (c, true) :: e' ++ [(c, false)].
Proof. exact traced_lemma. Qed.
Print Assumptions C95_traced_partial.
(** A generator which is suspended inside its block. *)
Theorem C95_yield_refuted : exists fn main xs s, (forall t f, forallb tidy (main t) = true /\ (f <> 3 -> forallb tidy (fn f) = true)) /\ Forall (fun x => exists t, x = Go t) xs /\
  run fn xs (start main 0) = Some s /\ finished 0 s /\ of_thread 0 0 (p_log s) = [(9, true); (8, true); (9, false); (8, false)] /\ reading [] (of_thread 0 0 (p_log s)) = None.
Proof. exact yield_lemma. Qed.
Print Assumptions C95_yield_refuted.
(** One which another thread closes: one record has a begin without an end, the other an end without a begin. *)
Theorem C95_threads_refuted : exists fn main xs s, run fn xs (start main 0) = Some s /\ finished 0 s /\ finished 1 s /\ reading [] (of_thread 0 0 (p_log s)) = Some [8] /\ reading [] (of_thread 0 1 (p_log s)) = None.
Proof. exact threads_lemma. Qed.
Print Assumptions C95_threads_refuted.
(** The decorator on a generator function does not trace what the generator does. *)
Theorem C95_traced_refuted : exists fn f c g f' main xs s, fn f = traced_make c g f' /\ main 0 = [SCall f; SNext g] /\ run fn xs (start main 0) = Some s /\ finished 0 s /\
  of_thread 0 0 (p_log s) = [(c, true); (c, false); (9, true); (9, false)] /\ fn f' = [SWith 9 []; SYield].
Proof. exact traced_generator_lemma. Qed.
Print Assumptions C95_traced_refuted.
(** An interrupt inside [__enter__], or inside [__exit__], which the program handles: the block is never closed. *)
Theorem C95_interrupt_refuted : exists main, (forall t, forallb plain (main t) = true) /\ forall xs, In xs [[Go 0; Go 0; Interrupt 0]; go 0 5 ++ [Interrupt 0]] ->
  exists ys s, run nothing (xs ++ ys) (start main 0) = Some s /\ finished 0 s /\ of_thread 0 0 (p_log s) = [(1, true); (2, true); (2, false)] /\ reading [] (of_thread 0 0 (p_log s)) = Some [1].
Proof. exact interrupt_lemma. Qed.
Print Assumptions C95_interrupt_refuted.
(** A backend which is changed inside a block. *)
Theorem C95_backend_refuted : exists main xs s, Forall (fun x => exists t, x = Go t) xs /\ main 0 = [SWith 1 [SBackend 1]] /\ run nothing xs (start main 0) = Some s /\ finished 0 s /\
  reading [] (of_thread 0 0 (p_log s)) = Some [1] /\ reading [] (of_thread 1 0 (p_log s)) = None.
Proof. exact backend_lemma. Qed.
Print Assumptions C95_backend_refuted.
