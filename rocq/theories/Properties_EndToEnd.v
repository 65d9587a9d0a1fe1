(** C47. *)
From Coq Require Import List Arith NArith ZArith Sorting.Sorted Sorting.Permutation.
Import ListNotations.
From Verif Require Import TraceEvent_model Native_model Collector_spec EndToEnd_model EndToEnd_spec EndToEnd_proofs EndToEnd_witness.

(** C47: whatever the threads, senders, transports, clients and sources do, an interval can be finished, and each entry of it shows an event
    of a thread of a traced process - its process number, thread, time, phase and name - no event more often than it was traced; if the times shown
    of the events of a thread increase, its entries are in program order. *)
Theorem C47_sound : forall pid what cap ls s i m, sensible pid what ls -> erun pid what cap ls e0 = Some s ->
  exists res os, interval m i s = FEntries res /\ Forall2 (shown pid what m s) os res /\
  forall p j, (exists l, subseq l (traced p j ls) /\ Permutation (of_origin p j os) l) /\
              (increasing what p (traced p j ls) -> subseq (of_origin p j os) (traced p j ls)).
Proof. exact sound. Qed.
Print Assumptions C47_sound.

(** C47: with a source that records from [s1] on and is left alone until [s2], the interval has of each process [p] to which the recording
    program is connected, whose buffers do not overflow and whose messages have all come through, each event of each thread traced from [s1]
    to [s2] exactly once; besides there may be [old] events from before [s1], which were still under way. If the times shown increase, the
    entries of a thread are in program order. Not as the property says, the time shown decides, not the time stamp (see C47_reversed_refuted);
    and the messages must have come through before the interval is finished. *)
Theorem C47_partial : forall pid what cap ls1 s1 ls2 s2 i m live, sensible pid what (ls1 ++ ls2) ->
  erun pid what cap ls1 e0 = Some s1 -> erun pid what cap ls2 s1 = Some s2 ->
  recording i s1 -> undisturbed i ls2 -> settled s2 ->
  (forall p, live p = true -> connected p s1 /\ connected p s2 /\ drained p s2 /\ roomy cap (steps_of p ls2) (e_col s1 p)) ->
  exists res os, interval m i s2 = FEntries res /\ Forall2 (shown pid what m s2) os res /\
  forall p j, live p = true -> exists old, subseq old (traced p j ls1) /\ Permutation (of_origin p j os) (old ++ traced p j ls2) /\
    (increasing what p (traced p j (ls1 ++ ls2)) -> of_origin p j os = old ++ traced p j ls2).
Proof. exact complete. Qed.
Print Assumptions C47_partial.
Example C47_example : exists s1 s2, erun pidx whatx 2 before e0 = Some s1 /\ erun pidx whatx 2 during s1 = Some s2 /\ sensible pidx whatx (before ++ during) /\
  recording 0 s1 /\ undisturbed 0 during /\ settled s2 /\
  (forall p, (p <? 2) = true -> connected p s1 /\ connected p s2 /\ drained p s2 /\ roomy 2 (steps_of p during) (e_col s1 p)) /\
  traced 0 0 before = [(0, 1)] /\ traced 0 0 during = [(0, 3); (0, 4)] /\ traced 0 1 during = [(1, 5)] /\ traced 1 0 during = [(0, 3)] /\
  increasing whatx 0 (traced 0 0 (before ++ during)) /\ exists a b c d e, interval [] 0 s2 = FEntries [a; b; c; d; e].
Proof. exact complete_example. Qed.

(** C47 is false: all this is the case and the time stamps of the two events of a thread increase, but the interval has the end of the scope before
    its beginning. The time stamps are 50 ns apart and the same as floating point numbers of microseconds; the two messages were waiting when
    the transport sent them, the last one first. *)
Theorem C47_reversed_refuted : exists s1 s2 a b, erun pidx whatx 2 early e0 = Some s1 /\ erun pidx whatx 2 reversing s1 = Some s2 /\ sensible pidx whatx (early ++ reversing) /\
  recording 0 s1 /\ undisturbed 0 reversing /\ settled s2 /\ connected 0 s1 /\ connected 0 s2 /\ drained 0 s2 /\ roomy 2 (steps_of 0 reversing) (e_col s1 0) /\
  traced 0 0 (early ++ reversing) = [(0, 1); (0, 2)] /\ times_up [(0, 1); (0, 2)] /\
  interval [] 0 s2 = FEntries [a; b] /\ shown pidx whatx [] s2 (0, (0, 2)) a /\ shown pidx whatx [] s2 (0, (0, 1)) b /\ ~ shown pidx whatx [] s2 (0, (0, 1)) a.
Proof. exact reversed_lemma. Qed.
Print Assumptions C47_reversed_refuted.
