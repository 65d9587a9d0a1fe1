(** C42: suppression restores the state; C70: suppression suppresses. *)
From Coq Require Import List Arith Bool.
Import ListNotations.
From Verif Require Import Collector_spec PySwitch_model PySwitch_spec PySwitch_proofs PySwitch_witness.

(** For switchers to any state: nested at will, the state is restored and exactly the points that are to be seen are seen.
    Missing for C42: a switcher used within itself (recursion), and by two threads at a time (see below). *)
Theorem C42_restored_partial : forall target t p ls s s', never_within p -> executes t p ls -> run target ls s = Some s' ->
  w_on s' t = w_on s t /\ events_of t (w_log s') = events_of t (w_log s) ++ all_seen target (w_on s t) p.
Proof. exact restored. Qed.
Print Assumptions C42_restored_partial.
Example C42_case : never_within nested /\ executes 0 nested nested_run /\ exists s, run off nested_run begin = Some s /\ w_log s = [(0, 1); (1, 8); (0, 5); (0, 6)] /\ w_on s 0 = true.
Proof. exact nested_fine. Qed.

(** A suppressed function: tracing is off afterwards exactly if it is used within itself, or was off before. *)
Theorem C42_recursion_exact : forall target, (forall w, target w = false) -> forall t w body ls s s', executes t [Use w body] ls -> run target ls s = Some s' ->
  w_on s' t = if in_dec Nat.eq_dec w (all_uses body) then false else w_on s t.
Proof. exact recursion_exact. Qed.
Print Assumptions C42_recursion_exact.
Theorem C42_recursion_refuted : exists ls s, executes 0 [Use 0 [Use 0 []]; Point 5] ls /\ run off ls begin = Some s /\ w_on begin 0 = true /\ w_on s 0 = false /\ w_log s = [].
Proof. exact recursion_off. Qed.
Print Assumptions C42_recursion_refuted.

(** Two threads in one suppressed function. *)
Theorem C42_shared_refuted : steps_of 0 shared = flatten 0 [Use 0 []] /\ steps_of 1 shared = flatten 1 [Use 1 [Use 0 []]] /\ never_within [Use 1 [Use 0 []]] /\
  exists s, run off shared begin = Some s /\ w_on begin 0 = true /\ w_on s 0 = false.
Proof. exact shared_off. Qed.
Print Assumptions C42_shared_refuted.

(** No event from within suppressed code, recursive or not: what is seen is among what is to be seen, in order. Missing for C70: functions shared by threads. *)
Theorem C70_quiet_partial : forall target, (forall w, target w = false) -> forall t p ls s s', executes t p ls -> run target ls s = Some s' ->
  exists ev, events_of t (w_log s') = events_of t (w_log s) ++ ev /\ subseq ev (all_seen target (w_on s t) p).
Proof. exact suppressed_quiet. Qed.
Print Assumptions C70_quiet_partial.
Theorem C70_shared_refuted : steps_of 0 loud = flatten 0 [Use 0 [Use 0 []; Point 7]] /\ steps_of 1 loud = flatten 1 [Use 0 []] /\ all_seen off true [Use 0 [Use 0 []; Point 7]] = [] /\
  exists s, run off loud begin = Some s /\ w_log s = [(0, 7)].
Proof. exact loud_inside. Qed.
Print Assumptions C70_shared_refuted.
