(** Vocabulary for C90: what is kept. *)
From Coq Require Import List Arith Bool.
Import ListNotations.
From Verif Require Import UnixSystem_model OMap_model Collector_model Collector_spec Collector_proofs Delivery_model Memory_model.

(** The buffer of thread [b] is kept: it is reachable from the collector or from the sender. *)
Definition kept (s : cstate) (b : nat) : Prop := In b (map snd (cs_active s ++ cs_orphans s ++ todo_all s)).
(** A state the tracing threads and the sender can get into, attached to a transport from the start or later. *)
Definition reached (cap : nat) (s : cstate) : Prop := exists ls, crun cap ls c0 = Some s \/ crun cap ls c_attached = Some s.
(** How many threads with a buffer have ended so far in a history. *)
Definition is_exit (l : clabel) : bool := match l with TOrphan _ => true | _ => false end.
Definition exits (ls : list clabel) : nat := length (filter is_exit ls).
Definition no_swap (ls : list clabel) : Prop := Forall (fun l => l <> SSwap) ls.
Definition no_exit (ls : list clabel) : Prop := Forall (fun l => is_exit l = false) ls.
Definition ended (s : cstate) (b : nat) : Prop := exists t, nth_error (cs_threads s) b = Some t /\ th_phase t = TGone.

(** The reading thread finishes what it does with a line. *)
Definition reader {L} (x : label L) : bool := match x with Look | Test | Call | Return => true | _ => false end.
(** A subscription from its beginning to its end. *)
Definition come_and_go {L} (i : nat) : list (label L) := [Subscribe 0; Deactivate i; Clear i; Drop i].
Fixpoint visits {L} (k n : nat) : list (label L) := match n with 0 => [] | S n' => come_and_go k ++ visits (S k) n' end.

Definition adds (l : list wcall) : nat := length (filter (fun c => match c with WAdd => true | _ => false end) l).
(** Object [i] was put in (it is the [i]-th, counted from 0), and its last owner has not let go of it since. *)
Definition in_use (l : list wcall) (i : nat) : Prop := exists l1 l2, l = l1 ++ WAdd :: l2 /\ adds l1 = i /\ ~ In (WRelease i) l2.
