(** What C101 says of a sender whose loads are up to date. *)
From Coq Require Import List Arith Bool.
Import ListNotations.
From Verif Require RingBuffer_model.
From Verif Require Import Collector_model Rings_model.

(** If this step is a load of the sender from the buffer of thread [i], it returns the last index the thread has stored. *)
Definition up_to_date (i : nat) (l : rlabel) (s : rstate) : Prop :=
  match l, rs_pc s with
  | RRead c, RCollecting _ ((_, b, _) :: _) _ =>
      b = i -> forall t o, nth_error (rs_threads s) i = Some t -> RingBuffer_model.cp (r_ring t) = RingBuffer_model.CLd o -> S c = length (RingBuffer_model.whist (r_ring t))
  | _, _ => True
  end.
Fixpoint loads_current (n i : nat) (ls : list rlabel) (s : rstate) : Prop :=
  match ls with
  | [] => True
  | l :: ls' => up_to_date i l s /\ match rstep n l s with Some s' => loads_current n i ls' s' | None => True end
  end.
