(** C79: the command [record] prints what was recorded. *)
From Coq Require Import String List NArith ZArith Ascii Floats.SpecFloat.
Import ListNotations.
From Verif Require Import OMap_model Json_model Json_spec Names_model Native_model Ended_model Ended_spec Record_model Record_spec Record_proofs Record_witness.

(** When both sources are finished without an exception and all text is UTF-8, the output is a JSON list of exactly the entries of the data that came in while it
    recorded, and of the processes and threads; names included, if every request was answered in time. *)
Theorem C79_partial : forall fw fr decode_is_runtime h1 h2 h3 v w1 w,
  Forall (label_fits fw fr) (h1 ++ Start v :: h2) -> Forall (label_fits fw fr) (Finish v :: h3) ->
  run (h1 ++ Start v :: h2) w0 = Some w1 -> run (Finish v :: h3 ++ [Send v]) w1 = Some w -> keeps_recording v h2 -> ~ In (Send v) h3 ->
  exists m es im t js gs, finish m (delivered h2) = FEntries es /\ last_sent v w es im /\
    printed fw decode_is_runtime v w = (t, Normal) /\ parse fr t = Some (JArr (js ++ gs)) /\ Forall2 event_shown es js /\ names_shown im gs /\
    (undisturbed v h3 -> in_time v h3 -> forall i p, connected i w1 -> nth_error (w_peers w) i = Some p -> pe_up p = true ->
       (forall id n, mfind N.ltb id (pe_names p) = Some n -> scope_name m (pe_pid p) id = n) /\ mfind Z.ltb (pe_pid p) im = Some (pe_title p, pe_threads p)).
Proof. exact recorded. Qed.
(** Any value that can be written at all is written by Python so that it is read back the same: the text, however its characters are escaped. *)
Theorem C79_text : forall F (fw : F -> bytes) fr decode_is_runtime l m, Forall (wf fw fr) l -> Forall (wf fw fr) m ->
  exists t, record_output fw decode_is_runtime (Some l) (Some m) = (t, Normal) /\ parse fr t = Some (JArr (l ++ m)).
Proof. exact @output_parses. Qed.
(** Otherwise: if a process that has ended is still held when the recording is stopped, nothing of what was recorded is printed, and nothing is said about it. *)
Theorem C79_lost : forall fw fr decode_is_runtime h h' v w w' i, Forall (label_fits fw fr) h -> Forall (label_fits fw fr) h' ->
  run h w0 = Some w -> connected i w -> up i w = false -> run (Finish v :: h') w = Some w' ->
  printed fw decode_is_runtime v w' = (opening ++ text "]", Normal) /\ parse fr (fst (printed fw decode_is_runtime v w')) = Some (JArr []).
Proof. exact all_lost. Qed.
Theorem C79_refuted :
  (exists h h' w w', Forall (label_fits fw1 fr1) (h ++ h') /\ delivered h = [Ended_witness.data7; Ended_witness.data8] /\ run h w0 = Some w /\ run (Finish 0 :: h') w = Some w' /\
     w_fate w' = Terminated /\ forall fw b, printed fw b 0 w' = (text "[" ++ nl ++ text "]", Normal)) /\
  (exists w, run latin w0 = Some w /\ w_fate w = Running /\ delivered latin = [Ended_witness.data7; Ended_witness.data8] /\
     forall fw, printed fw false 0 w = (text "[" ++ nl, Traceback) /\ (forall fr, parse fr (text "[" ++ nl) = @None (json spec_float)) /\
                printed fw true 0 w = (text "[" ++ nl ++ text "]", Normal)).
Proof. exact (conj record_lost record_cut). Qed.

Print Assumptions C79_partial.
Print Assumptions C79_text.
Print Assumptions C79_lost.
Print Assumptions C79_refuted.
