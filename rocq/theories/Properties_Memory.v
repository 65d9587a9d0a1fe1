(** C90: what has ended does not stay in memory. *)
From Coq Require Import List Arith Bool.
Import ListNotations.
From Verif Require Import Collector_model Collector_spec Delivery_model Memory_model Memory_spec Memory_proofs.

(** C90 in full: the memory kept for threads, subscribers and clients is that of those that have not ended.  This is false:
    [C90_refuted], [C90_stopped_refuted], [C90_subscriptions_refuted], [C90_loopback].  What holds: *)

(** The collector's table has exactly the buffers of the threads that have not ended. *)
Theorem C90_active cap s b : reached cap s -> In b (map snd (cs_active s)) <-> exists t, nth_error (cs_threads s) b = Some t /\ th_phase t <> TGone.
Proof. exact (active_exact cap s b). Qed.
Print Assumptions C90_active.

(** After a pass of the sender in which no thread ends, exactly these buffers are kept. *)
Theorem C90_partial cap ls s s' : reached cap s -> crun cap ls s = Some s' -> no_exit ls -> In SSwap ls -> cs_pc s' = SIdle ->
  forall b, kept s' b <-> exists t, nth_error (cs_threads s') b = Some t /\ th_phase t <> TGone.
Proof. exact (pass_releases cap ls s s'). Qed.
Print Assumptions C90_partial.

(** Between two passes one buffer is added for each thread that ends. *)
Theorem C90_between cap ls s s' : reached cap s -> cs_orphans s = [] -> crun cap ls s = Some s' -> no_swap ls -> length (cs_orphans s') = exits ls.
Proof. exact (between_passes cap ls s s'). Qed.
Print Assumptions C90_between.

(** Without a sender there is no bound: any number of threads may have ended, and as many buffers are kept; whatever happens
    but a pass of a sender, they stay. *)
Theorem C90_refuted cap n : exists ls s, crun cap ls c0 = Some s /\ Forall (fun t => th_phase t = TGone) (cs_threads s) /\ length (cs_orphans s) = n /\ cs_pc s = SIdle.
Proof. exact (unbounded cap n). Qed.
Print Assumptions C90_refuted.
Theorem C90_stays cap ls s s' b : reached cap s -> crun cap ls s = Some s' -> no_swap ls -> In b (map snd (cs_orphans s)) -> kept s' b.
Proof. exact (kept_stays cap ls s s' b). Qed.
Print Assumptions C90_stays.

(** The same once the sender has ended, for ever. *)
Theorem C90_stopped_refuted cap n : exists ls s, crun cap (SAttach :: SStop :: ls) c0 = Some s /\ Forall (fun t => th_phase t = TGone) (cs_threads s) /\ length (cs_orphans s) = n /\
  forall ls' s', crun cap ls' s = Some s' -> n <= length (cs_orphans s').
Proof. exact (unbounded_stopped cap n). Qed.
Print Assumptions C90_stopped_refuted.

(** Subscriptions to LTTng events that have ended are forgotten with the next line... *)
Theorem C90_line {L E} (parse : L -> option E) l xs s s' cs : d_phase s = Idle -> Forall (fun x => reader x = true) xs ->
  run parse (Line l :: xs) s = Ended s' cs -> d_phase s' = Idle -> d_set s' = filter (active s') (d_set s).
Proof. exact (line_cleans parse l xs s s' cs). Qed.
Print Assumptions C90_line.
(** ... and not before: without a line any number of them stays. *)
Theorem C90_subscriptions_refuted {L E} (parse : L -> option E) n :
  exists s, run parse (visits 0 n) state0 = Ended s [] /\ d_phase s = Idle /\ length (d_set s) = n /\ (forall i, active s i = false).
Proof. exact (subscriptions_stay parse n). Qed.
Print Assumptions C90_subscriptions_refuted.

(** A loopback server (or factory) has as many entries as clients (or servers) were ever made, whatever has become of them;
    those found are the ones that are alive. *)
Theorem C90_loopback l : length (wl_entries (w_run l weak0)) = adds l.
Proof. exact (loopback_stays l). Qed.
Print Assumptions C90_loopback.
Theorem C90_found l i : In i (w_found (w_run l weak0)) <-> in_use l i.
Proof. exact (loopback_found l i). Qed.
Print Assumptions C90_found.
