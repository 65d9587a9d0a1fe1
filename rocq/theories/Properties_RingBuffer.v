(** C14, C15: the ring buffer between a tracing thread and the trace sender. *)
From Coq Require Import List Arith Bool.
Import ListNotations.
From Verif Require Import RingBuffer_model RingBuffer_spec RingBuffer_proofs.

(** C14: for every size, every schedule (list of scheduler choices, including which possibly stale
    index value each load returns), the values returned by pops are a prefix of the values accepted
    by push, in order and unaltered, and at most size-1 values are in the buffer. *)
Theorem C14_fifo : forall (A : Type) (n : nat) (s0 : st A) (sched : list (action A)),
  init n = Some s0 ->
  exists rest : list A,
    map Some (accepted (trace (run s0 sched))) = returned (trace (run s0 sched)) ++ map Some rest
    /\ length rest <= n - 1.
Proof. exact (@fifo). Qed.
Print Assumptions C14_fifo.

(** C14: push returns false only when size-1 values are in the buffer, as far as completed pops have become
    visible: [a] is the history up to the newest pop the producer knows of.  When loads return the
    newest value, the buffer holds exactly size-1 values at the moment push returns false. *)
Theorem C14_push_false_only_when_full : forall (A : Type) (n : nat) (s0 : st A) sched v tr1 tr2,
  init n = Some s0 ->
  trace (run s0 sched) = tr1 ++ EPushRet v false :: tr2 ->
  exists a b, tr1 = a ++ b /\ length (accepted tr1) = length (returned a) + (n - 1) /\
    (sc s0 sched -> held tr1 = n - 1).
Proof. exact (@push_false_full). Qed.
Print Assumptions C14_push_false_only_when_full.

(** C14: pop returns false only when the buffer is empty, as far as pushes have become visible. *)
Theorem C14_pop_false_only_when_empty : forall (A : Type) (n : nat) (s0 : st A) sched tr1 tr2,
  init n = Some s0 ->
  trace (run s0 sched) = tr1 ++ ERetPop None :: tr2 ->
  exists a b, tr1 = a ++ b /\ length (accepted a) = length (returned tr1) /\
    (sc s0 sched -> held tr1 = 0).
Proof. exact (@pop_false_empty). Qed.
Print Assumptions C14_pop_false_only_when_empty.

(** C14: size returns the number of values in the buffer. *)
Theorem C14_size_exact : forall (A : Type) (n : nat) (s0 : st A) sched k tr1 tr2,
  init n = Some s0 ->
  trace (run s0 sched) = tr1 ++ ERetSize k :: tr2 ->
  exists a b, tr1 = a ++ b /\ length (accepted a) = length (returned tr1) + k /\
    (sc s0 sched -> held tr1 = k).
Proof. exact (@size_exact). Qed.
Print Assumptions C14_size_exact.

(** C14: pop_into hands over at most the requested number of values, and exactly as many as were in
    the buffer (limited by the request) at the moment inside the call at which it looked. *)
Theorem C14_pop_into_count : forall (A : Type) (n : nat) (s0 : st A) sched vs tr1 tr2,
  init n = Some s0 ->
  trace (run s0 sched) = tr1 ++ ERetInto vs :: tr2 ->
  exists a mc b1 b2, tr1 = a ++ ECall (OPopInto mc) :: b1 ++ b2 /\ no_consumer b1 /\ no_consumer b2 /\
    length vs <= mc /\ (sc s0 sched -> length vs = Nat.min (held (a ++ ECall (OPopInto mc) :: b1)) mc).
Proof. exact (@into_count). Qed.
Print Assumptions C14_pop_into_count.

(** C15: no data race on an element and no access outside the container, in any schedule. *)
Theorem C15_no_data_race : forall (A : Type) (n : nat) (s0 : st A) sched,
  init n = Some s0 -> raced (run s0 sched) = false /\ oob (run s0 sched) = false.
Proof. exact (@no_race). Qed.
Print Assumptions C15_no_data_race.

(** Non-vacuity: a buffer of three elements, filled, overrun, drained while being filled, wrapped around. *)
Definition ex_sched : list (action nat) :=
  [APush 10; AProd 0; AProd 0; AProd 0;  APush 11; AProd 0; AProd 0; AProd 0;
   APush 12; AProd 0;                       (* full: returns false *)
   ACons OSize; AStep 2;
   ACons OPop; AStep 2; AStep 0;            (* moved 10, not yet released *)
   APush 13; AProd 0;                       (* still full *)
   AStep 0;                                 (* released *)
   APush 14; AProd 1; AProd 0;              (* 14 written in the third element, not yet published *)
   ACons (OPopInto 5); AStep 2; AStep 0; AStep 0; (* gets 11 *)
   AProd 0; ACons (OPopInto 5); AStep 3; AStep 0; AStep 0;
   ACons OPop; AStep 3].
Example ex_init : exists s0, init 3 = Some s0 /\
  accepted (trace (run s0 ex_sched)) = [10; 11; 14] /\
  returned (trace (run s0 ex_sched)) = [Some 10; Some 11; Some 14] /\
  In (EPushRet 12 false) (trace (run s0 ex_sched)) /\
  In (EPushRet 13 false) (trace (run s0 ex_sched)) /\
  In (ERetPop None) (trace (run s0 ex_sched)) /\
  In (ERetSize 2) (trace (run s0 ex_sched)) /\
  In (ERetInto [Some 11]) (trace (run s0 ex_sched)) /\
  sc s0 ex_sched.
Proof. eexists. split; [reflexivity|]. vm_compute. tauto. Qed.
(** A stale load: the consumer misses a published value, so pop returns false although a value is there. *)
Example ex_stale : exists s0, init 3 = Some s0 /\
  let tr := trace (run s0 [APush 10; AProd 0; AProd 0; AProd 0; ACons OPop; AStep 0]) in
  In (ERetPop None) tr /\ held tr = 1.
Proof. eexists. split; [reflexivity|]. vm_compute. tauto. Qed.
