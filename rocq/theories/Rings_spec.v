(** What C101 says, in terms of the calls of tracepoints and the broadcasts made. *)
From Coq Require Import List Arith Bool.
Import ListNotations.
From Verif Require RingBuffer_model RingBuffer_spec.
From Verif Require Import Collector_model Collector_spec Rings_model.

(** The events of thread [i] for which [push] has returned [true], and those it was called with. *)
Definition accepted_of (t : rthread) : list event := RingBuffer_spec.accepted (RingBuffer_model.trace (r_ring t)).
Fixpoint called (i : nat) (ls : list rlabel) : list event :=
  match ls with
  | [] => []
  | RPush j x :: ls' => if j =? i then (i, x) :: called i ls' else called i ls'
  | _ :: ls' => called i ls'
  end.
(** The event whose [push] has not returned yet. *)
Definition unanswered (t : rthread) : list event :=
  match RingBuffer_model.pp (r_ring t) with
  | RingBuffer_model.PIdle => []
  | RingBuffer_model.PChk v _ _ | RingBuffer_model.PWr v _ _ | RingBuffer_model.PSt v _ => [v]
  end.

(** What was broadcast, or popped in the pass going on, of the events of thread [i]; [None] belongs to no thread. *)
Definition is_of (i : nat) (o : option event) : bool := match o with Some e => fst e =? i | None => false end.
Definition all_filed (bs : list filed) : list (option event) := flat_map (flat_map snd) bs.
Definition sent_of (i : nat) (s : rstate) : list (option event) := filter (is_of i) (all_filed (rs_sent s)).
Definition popped_of (i : nat) (s : rstate) : list (option event) :=
  match rs_pc s with RCollecting _ _ ev => filter (is_of i) (flat_map snd ev) | _ => [] end.

(** Thread [i] has ended. *)
Definition ended (i : nat) (s : rstate) : Prop := exists t, nth_error (rs_threads s) i = Some t /\ r_phase t = TGone.

(** The machine shows the same as one of Collector_model, where a buffer is a list and emptied in one step. *)
Definition as_filed (m : list (nat * list event)) : filed := map (fun p => (fst p, map Some (snd p))) m.
Record shows (s : rstate) (c : cstate) : Prop := {
  sh_sent : rs_sent s = map as_filed (cs_sent c);
  sh_lost : rs_lost s = map as_filed (cs_lost c);
  sh_active : rs_active s = cs_active c;
  sh_orphans : rs_orphans s = cs_orphans c;
  sh_threads : Forall2 (fun t u => th_tid u = r_tid t /\ th_phase u = r_phase t /\ th_accepted u = accepted_of t) (rs_threads s) (cs_threads c)
}.

(** Accesses of the threads to their buffers. *)
Fixpoint accesses (i : nat) (ls : list rlabel) : nat :=
  match ls with
  | [] => 0
  | RAccess j _ :: ls' => (if j =? i then 1 else 0) + accesses i ls'
  | _ :: ls' => accesses i ls'
  end.

(** Steps of the sender. *)
Definition of_sender (l : rlabel) : Prop := match l with RSwap | RSnapshot | RCall | RRead _ | RSend => True | _ => False end.
