(** What C116 says: threads that trace no faster than their buffers are emptied. *)
From Coq Require Import List Arith Bool.
Import ListNotations.
From Verif Require RingBuffer_model.
From Verif Require Import Collector_model Rings_model Rings_spec RingsFresh_spec.

(** If this step is the load of thread [i] in [push], it returns the last index the sender has stored. *)
Definition push_up_to_date (i : nat) (l : rlabel) (s : rstate) : Prop :=
  match l with
  | RAccess j c => j = i -> forall t v w x, nth_error (rs_threads s) i = Some t -> RingBuffer_model.pp (r_ring t) = RingBuffer_model.PChk v w x -> S c = length (RingBuffer_model.rhist (r_ring t))
  | _ => True
  end.
Fixpoint pushes_current (n i : nat) (ls : list rlabel) (s : rstate) : Prop :=
  match ls with
  | [] => True
  | l :: ls' => push_up_to_date i l s /\ match rstep n l s with Some s' => pushes_current n i ls' s' | None => True end
  end.

(** The ends of the passes of the sender. *)
Definition is_send (l : rlabel) : bool := match l with RSend => true | _ => false end.
Definition sends (ls : list rlabel) : nat := length (filter is_send ls).
(** In every part of the history in which at most one pass ends, the thread traces fewer than [m] events. *)
Definition slow (i m : nat) (ls : list rlabel) : Prop := forall a b c, ls = a ++ b ++ c -> sends b <= 1 -> length (called i b) < m.
