(** C98: what is traced when processes fork. *)
From Coq Require Import List Arith Bool.
From Verif Require Import Fork_model Fork_spec Fork_proofs Fork_witness.
Import ListNotations.

(** Whatever is done, a process never shows an event twice, an event is shown under the thread that has made it, and under the process that has made it or one that comes from it. *)
Theorem C98_sound : forall h w, run h world0 = Some w ->
  (forall pid tid e, In (pid, tid, e) (w_shown w) -> e_tid e = tid /\ ancestor (w_forks w) (e_pid e) pid) /\
  (forall pid n, times_of pid n (w_shown w) <= 1).
Proof. exact sound. Qed.
Print Assumptions C98_sound.

(** If processes fork while no events wait, every event is shown once at most and under the process and the thread that have made it. *)
Theorem C98_partial : forall h w, run h world0 = Some w -> tidy h world0 ->
  (forall x, In x (w_shown w) -> right x) /\ (forall n, times n (w_shown w) <= 1).
Proof. exact apart. Qed.
Print Assumptions C98_partial.

(** A process that has a sender with its thread, forked or not, can send whatever it has. *)
Theorem C98_sends : forall h w pid p tid e, run h world0 = Some w -> w_procs w pid = Some p -> p_hand p <> None -> holds p tid e ->
  exists more w', run more w = Some w' /\ (forall a, In a more -> by_sender pid a) /\ In (pid, tid, e) (w_shown w').
Proof. exact delivers. Qed.
Print Assumptions C98_sends.

(** A tracepoint hangs, or its event is there from then on, in the process or shown under it, until the process ends. *)
Theorem C98_kept : forall h w pid tid w1, run h world0 = Some w -> step (Trace pid tid) w = Some w1 ->
  hangs w1 pid tid \/ forall more w2, run more w1 = Some w2 -> kept w2 pid tid {| e_pid := pid; e_tid := tid; e_num := w_next w |}.
Proof. exact never_lost. Qed.
Print Assumptions C98_kept.

(** If only processes without a sender fork, no thread is left waiting for ever. *)
Theorem C98_waits_partial : forall h w, run h world0 = Some w -> calm h world0 -> forall pid tid, ~ hangs w pid tid.
Proof. exact no_hang. Qed.
Print Assumptions C98_waits_partial.

(** A thread that waits so does nothing any more. *)
Theorem C98_stands : forall w pid tid a, hangs w pid tid -> by_thread pid tid a -> step a w = None.
Proof. exact stands. Qed.
Print Assumptions C98_stands.

(** An event made before the fork is shown twice, once under a process that has not made it. *)
Theorem C98_twice_refuted : exists h w e, run h world0 = Some w /\ In (1, 0, e) (w_shown w) /\ In (2, 0, e) (w_shown w) /\ ~ right (2, 0, e) /\
  times (e_num e) (w_shown w) = 2.
Proof. exact twice_refuted. Qed.
Print Assumptions C98_twice_refuted.

(** A process that can be traced forks: whatever follows, unless the child makes a sender of its own none of its events is ever shown. *)
Theorem C98_silent_refuted : exists h w p e, run h world0 = Some w /\ In (1, 2) (w_forks w) /\ w_procs w 2 = Some p /\ p_ghost p = true /\ holds p 0 e /\ e_pid e = 2 /\
  forall more w', existsb (exposes 2) more = false -> run more w = Some w' -> forall tid e', ~ In (2, tid, e') (w_shown w').
Proof. exact silent_refuted. Qed.
Print Assumptions C98_silent_refuted.

(** A tracepoint of the child never returns. *)
Theorem C98_lock_refuted : exists h w, run (h ++ [Trace 2 7]) world0 = Some w /\ hangs w 2 7 /\ (forall a, In a h -> forall q t, a <> Drop q t) /\
  forall more w', run more w = Some w' -> w_procs w' 2 = None \/ hangs w' 2 7.
Proof. exact lock_refuted. Qed.
Print Assumptions C98_lock_refuted.

(** Destroying in the child what it has inherited never returns. *)
Theorem C98_join_refuted : exists h w, run (h ++ [Drop 2 0]) world0 = Some w /\ hangs w 2 0 /\ (forall a, In a h -> forall q, a <> Lock q) /\
  forall more w', run more w = Some w' -> w_procs w' 2 = None \/ hangs w' 2 0.
Proof. exact join_refuted. Qed.
Print Assumptions C98_join_refuted.
