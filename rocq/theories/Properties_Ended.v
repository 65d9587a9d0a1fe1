(** C77: a recording survives the end of a traced process. C78: what a viewer is sent does not depend on other viewers. *)
From Coq Require Import String List NArith ZArith Ascii.
Import ListNotations.
From Verif Require Import OMap_model Names_model Native_model Ended_model Ended_spec Ended_proofs Ended_witness.

(** The recorder is not terminated, if every end of a process is dealt with before a viewer stops its recording and none falls into the stopping. *)
Theorem C77_partial : forall h w, run h w0 = Some w -> well_timed h -> w_fate w <> Terminated.
Proof. exact survives. Qed.
(** The events are those of all data of the interval, also of processes that have ended; names and threads are those of every connected process
    that is still there. *)
Theorem C77_events_partial : forall h1 h2 h3 v w1 w, run (h1 ++ Start v :: h2) w0 = Some w1 -> run (Finish v :: h3 ++ [Send v]) w1 = Some w ->
  keeps_recording v h2 -> ~ In (Send v) h3 -> undisturbed v h3 -> in_time v h3 ->
  exists m es im, last_sent v w es im /\ finish m (delivered h2) = FEntries es /\
    forall i p, connected i w1 -> nth_error (w_peers w) i = Some p -> pe_up p = true ->
       (forall id n, mfind N.ltb id (pe_names p) = Some n -> scope_name m (pe_pid p) id = n) /\ mfind Z.ltb (pe_pid p) im = Some (pe_title p, pe_threads p).
Proof. exact sent_names. Qed.
(** Otherwise: whoever stops while a process that has ended is still held is never sent anything again. *)
Theorem C77_never_sent : forall h h' v w w' i, run h w0 = Some w -> connected i w -> up i w = false -> run (Finish v :: h') w = Some w' -> ~ In (Send v) h'.
Proof. exact never_sent. Qed.
Theorem C77_refuted :
  (exists w, run unseen w0 = Some w /\ w_fate w = Terminated) /\ (exists w, run unmanaged w0 = Some w /\ w_fate w = Terminated) /\
  (exists w, run between w0 = Some w /\ w_fate w = Terminated).
Proof. exact ends_the_recorder. Qed.
(** And the names are not kept. *)
Theorem C77_names_refuted : exists h w es im, well_timed h /\ In new7 h /\ run h w0 = Some w /\ last_sent 0 w es im /\
  map (fun e => (en_pid e, en_name e)) es = [(7%Z, txt "Unknown 0x5"); (8%Z, txt "play")] /\ mfind Z.ltb 7%Z im = None.
Proof. exact names_lost. Qed.

(** Whatever the other viewers and the processes do, a viewer that is sent something is sent the events of its own interval. *)
Theorem C78_partial : forall h1 h2 h3 v w1 w, run (h1 ++ Start v :: h2) w0 = Some w1 -> run (Finish v :: h3 ++ [Send v]) w1 = Some w ->
  keeps_recording v h2 -> ~ In (Send v) h3 -> exists m es im, last_sent v w es im /\ finish m (delivered h2) = FEntries es.
Proof. exact sent_data. Qed.
(** But not under the same names. *)
Theorem C78_refuted : exists h w es im es' im' w', (forall l, In l h -> match l with End _ => False | Ask _ (Some _) => False | _ => True end) /\
  run h w0 = Some w /\ last_sent 0 w es im /\ map (fun e => (en_pid e, en_name e)) es = [(7%Z, txt "Unknown 0x5")] /\
  run (filter (fun l => match l with Swap 1 => false | _ => true end) h) w0 = Some w' /\ last_sent 0 w' es' im' /\ map (fun e => (en_pid e, en_name e)) es' = [(7%Z, txt "work")].
Proof. exact another_viewer. Qed.

Print Assumptions C77_partial.
Print Assumptions C77_events_partial.
Print Assumptions C77_never_sent.
Print Assumptions C77_refuted.
Print Assumptions C77_names_refuted.
Print Assumptions C78_partial.
Print Assumptions C78_refuted.
