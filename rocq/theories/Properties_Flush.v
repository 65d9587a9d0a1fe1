(** C107: a recording can always be brought to its end. *)
From Coq Require Import String List NArith ZArith Floats.SpecFloat Sorting.Permutation.
Import ListNotations.
From Verif Require Import Protocol_model Json_model Json_spec TraceEvent_model Names_model Collector_spec Cbor_model EndToEnd_model EndToEnd_spec EndToEnd_witness File_spec File_witness.
From Verif Require Import Whole_model Whole_spec Flush_spec Flush_proofs Flush_witness.

(** Whatever has happened: the library's own threads can, by themselves, bring all that the processes [ps] put in their buffers to the recorder, and no call of
    [incoming] is left hanging. No thread is switched, and no other process is involved. *)
Theorem C107_flush size pid what ls s ps : xrun size pid what ls x0 = Some s -> (forall p, In p ps -> able p s) ->
  exists ls2 s2, xrun size pid what ls2 s = Some s2 /\ Forall background ls2 /\ all_returned s2 /\ (forall p, In p ps -> arrived p s2 /\ reached p s2) /\
    (forall p, switches s2 p = switches s p) /\ (forall q, ~ In q ps -> x_proc s2 q = x_proc s q /\ x_net s2 q = x_net s q).
Proof. exact (flushed size pid what ls s ps). Qed.

(** So a recording that has been made up to any moment can be written to a file that has all that was put in the buffers of the processes [ps] during it. *)
Theorem C107_completes size pid what fw fr k ps ls1 s1 ls2 s2 m before after :
  possible pid what (ls1 ++ ls2) -> xrun size pid what ls1 x0 = Some s1 -> xrun size pid what ls2 s1 = Some s2 -> records k s1 -> left_alone k ls2 ->
  (forall p, In p ps -> reached p s1 /\ able p s2) -> times_written fw fr what -> names_utf8 m -> Forall (wf fw fr) before -> Forall (wf fw fr) after ->
  exists ls3 s3 os, xrun size pid what ls3 s2 = Some s3 /\ Forall background ls3 /\ file_shows fw fr pid what m k s3 before after os /\
    forall p i, In p ps -> exists old new, subseq old (SS.events (switches s1 p) i) /\ SS.events (switches s2 p) i = SS.events (switches s1 p) i ++ new /\
      Permutation (of_thread p i os) (old ++ new) /\ (rising what p (SS.events (switches s2 p) i) -> of_thread p i os = old ++ new).
Proof. exact (completes size pid what fw fr k ps ls1 s1 ls2 s2 m before after). Qed.

(** What is in the buffers when the sender has ended never comes, whatever is done. *)
Theorem C107_sender_ended size pid what ls s p j t ls2 s2 : xrun size pid what ls x0 = Some s -> R.rs_pc (w_rings (x_proc s p)) = R.RStopped ->
  nth_error (R.rs_threads (w_rings (x_proc s p))) j = Some t -> Rings_spec.sent_of j (w_rings (x_proc s p)) <> map Some (Rings_spec.accepted_of t) ->
  xrun size pid what ls2 s = Some s2 -> ~ arrived p s2.
Proof. exact (sender_ended size pid what ls s p j t ls2 s2). Qed.
Theorem C107_ended_refuted : exists s, xrun 3 pidx whaty ends1 x0 = Some s /\ records 0 s /\ reached 0 s /\ U.s_up (x_net s 0) = true /\ SS.events (switches s 0) 0 = [1] /\
  forall ls2 s2, xrun 3 pidx whaty ls2 s = Some s2 -> ~ arrived 0 s2.
Proof. exact ended. Qed.
(** Nor what is queued when the process dies. *)
Theorem C107_process_gone size pid what p d ls2 s s2 : U.s_up (x_net s p) = false -> In (receiver, d) (U.s_queue (x_net s p)) -> xrun size pid what ls2 s = Some s2 -> ~ arrived p s2.
Proof. exact (server_gone size pid what p d ls2 s s2). Qed.
Theorem C107_died_refuted : exists s, xrun 3 pidx whaty dies1 x0 = Some s /\ records 0 s /\ reached 0 s /\ R.rs_pc (w_rings (x_proc s 0)) <> R.RStopped /\ SS.events (switches s 0) 0 = [1] /\
  forall ls2 s2, xrun 3 pidx whaty ls2 s = Some s2 -> ~ arrived 0 s2.
Proof. exact died. Qed.

Print Assumptions C107_flush.
Print Assumptions C107_completes.
Print Assumptions C107_sender_ended.
Print Assumptions C107_ended_refuted.
Print Assumptions C107_process_gone.
Print Assumptions C107_died_refuted.
