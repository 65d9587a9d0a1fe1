(** C108: broadcasts do not keep the worker of a transport from anything else. *)
From Coq Require Import List Arith.
Import ListNotations.
From Verif Require Import Starve_model Starve_spec Starve_proofs.
Local Notation length := List.length.

(** As stated false: for every [n] there is a history in which the worker takes [3n] steps and sends [n] broadcasts that were made later, while a broadcast waits
    that was there before, a request waits that was there before, and the destructor, which had begun before, waits for the worker. *)
Theorem C108_starved_refuted k n : exists ls s s', run k busy_start (worker0 1) = Next s /\ run k ls s = Next s' /\ turns ls = 3 * n /\ waits 0 s /\ asked 7 0 s /\ k_running s = false /\
  waits 0 s' /\ length (k_sent s') = n /\ ~ In 7 (k_done s') /\ k_pc s' <> Ended.
Proof. exact (starved k n). Qed.
(** And a broadcast that was made before the destructor was called may never be sent. *)
Theorem C108_last_refuted k : exists s, run k [Work; Work; Work; Cast; Stop; Work; Work] (worker0 1) = Next s /\ waits 0 s /\ forall ls s', run k ls s = Next s' -> waits 0 s'.
Proof. exact (last_lost k). Qed.

(** What holds: only broadcasts made meanwhile can hold up the worker, each by three of its steps. *)
Theorem C108_broadcast k conns ls1 s ls2 s' x : run k ls1 (worker0 conns) = Next s -> run k ls2 s = Next s' -> x < k_next s ->
  3 * (length (k_queue s) + casts ls2) + 8 <= turns ls2 -> In x (k_sent s').
Proof. exact (cast_in_time k conns ls1 s ls2 s' x). Qed.
Theorem C108_request k ls s s' r j : run k ls s = Next s' -> asked r j s -> 3 * (length (k_queue s) + casts ls) + 4 * j + 8 <= turns ls -> In r (k_done s').
Proof. exact (asked_in_time k ls s s' r j). Qed.
Theorem C108_end k conns ls1 ls s s' : run k ls1 (worker0 conns) = Next s -> In Stop ls1 -> run k ls s = Next s' -> k_pc s' <> Ended -> turns ls <= 3 * (length (k_queue s) + casts ls) + 3.
Proof. exact (destroyed_in_time k conns ls1 ls s s'). Qed.
(** The worker never takes a broadcast from an empty queue, is never stuck before its end, and sends no broadcast twice and none that was not made. *)
Theorem C108_defined k conns ls : run k ls (worker0 conns) <> Undefined.
Proof. exact (defined k ls (worker0 conns) (kinv0 conns)). Qed.
Theorem C108_goes_on k conns ls s : run k ls (worker0 conns) = Next s -> k_pc s <> Ended -> exists s', step k Work s = Next s'.
Proof. exact (fun H => goes_on k s (kinv_run k ls _ _ (kinv0 conns) H)). Qed.
Theorem C108_once k conns ls s : run k ls (worker0 conns) = Next s -> NoDup (k_sent s) /\ forall x, In x (k_sent s) -> x < k_next s.
Proof. exact (fun H => once s (kinv_run k ls _ _ (kinv0 conns) H)). Qed.
(** No request is handled more often than it came in. *)
Theorem C108_requests_once k conns ls s r : run k ls (worker0 conns) = Next s -> times r (k_done s) <= asks r ls.
Proof. exact (asked_once k conns ls s r). Qed.

Print Assumptions C108_starved_refuted.
Print Assumptions C108_last_refuted.
Print Assumptions C108_broadcast.
Print Assumptions C108_request.
Print Assumptions C108_end.
Print Assumptions C108_defined.
Print Assumptions C108_goes_on.
Print Assumptions C108_once.
Print Assumptions C108_requests_once.
