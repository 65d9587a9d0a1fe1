(** C43: names of threads and processes. The concrete process is [worker] in [Wire_witness.v]. *)
From Coq Require Import String List Arith NArith ZArith Ascii Bool.
Import ListNotations.
From Verif Require Import Json_model Bson_model Bson_spec Wire_model Wire_spec Wire_proofs Info_model Info_spec Info_proofs Wire_witness.

(** Missing for C43: threads named by others before they name themselves (see below). *)
Theorem C43_names_partial : forall h s, acts h threads0 = Some s -> asked_first h ->
  NoDup (map fst (th_table s)) /\ (forall t nm, In (t, nm) (th_table s) <-> name_of t h = Some nm) /\ (forall t, name_of t h <> None -> runs t h = true).
Proof. exact table_names. Qed.
Print Assumptions C43_names_partial.

(** Missing for C43: processes that do not answer, or not with a document (see below). *)
Theorem C43_entries_partial {F} (f64 : F -> bytes) unf64 trunc : eight f64 unf64 -> forall ps hs,
  hears f64 unf64 ps hs -> Forall usual ps -> NoDup (map pc_pid ps) ->
  exists es, finish_interval unf64 trunc hs = Some es /\ NoDup es /\
    forall e, In e es <-> exists p, In p ps /\ (e = process_entry (pc_pid p) (pc_name p) \/
                                              exists t nm, name_of t (pc_acts p) = Some nm /\ e = thread_entry (pc_pid p) t nm).
Proof. exact (entries_exact f64 unf64 trunc). Qed.
Print Assumptions C43_entries_partial.

(** Those entries are read by a viewer as the names of the process and of the thread. *)
Theorem C43_entries_say {F} : forall pid t nm, reads (F := F) (process_entry pid nm) = Some (text "process_name", pid, 0%Z, nm) /\
  reads (F := F) (thread_entry pid t nm) = Some (text "thread_name", pid, Z.of_N t, nm).
Proof. exact entries_say. Qed.
Print Assumptions C43_entries_say.

(** A thread that another has named, and that has not named itself, is listed after its end. *)
Theorem C43_ended_refuted : exists h s, acts h threads0 = Some s /\ In (2%N, text "worker") (th_table s) /\ runs 2 h = false.
Proof. exact named_by_other. Qed.
Print Assumptions C43_ended_refuted.

(** The next thread with its id goes by its name. *)
Theorem C43_inherited_refuted : exists h s, acts h threads0 = Some s /\ In (2%N, text "worker") (th_table s) /\ runs 2 h = true /\ name_of 2 h = None.
Proof. exact named_by_other_again. Qed.
Print Assumptions C43_inherited_refuted.

(** A request without an answer makes an entry for a process with an arbitrary number. *)
Theorem C43_silent_refuted : forall junk, finish_interval unf64 trunc [Silence junk] = Some [process_entry junk []].
Proof. exact silent_shown. Qed.
Print Assumptions C43_silent_refuted.

(** That entry may take the place of a process that did answer. *)
Theorem C43_hidden_refuted : exists p b junk es, usual p /\ answers f64 unf64 p b /\
  finish_interval unf64 trunc [Response b; Silence junk] = Some es /\ ~ In (process_entry (pc_pid p) (pc_name p)) es.
Proof. exact silent_hides. Qed.
Print Assumptions C43_hidden_refuted.

(** One unreadable answer, and no process has entries. *)
Theorem C43_garbled_refuted : exists p b, usual p /\ answers f64 unf64 p b /\ finish_interval unf64 trunc [Response b; Response [nul]] = None.
Proof. exact garbled_loses. Qed.
Print Assumptions C43_garbled_refuted.
