(** C102 *)
From Coq Require Import String List Arith NArith ZArith Ascii Bool Reals Floats.SpecFloat Sorting.Sorted Sorting.Permutation.
Import ListNotations.
From Verif Require Import UnixSystem_model TraceEvent_model Names_model Native_model Native_spec Str_model Ctf_model Ctf_spec Lttng_model Lttng_spec LttngTime_proofs Config_model Tracers_model Tracers_spec Tracers_proofs TracersRec_proofs Tracers_witness.
Local Open Scope nat_scope.
Local Open Scope list_scope.
Local Notation length := List.length.

(** Built with the native trace points or with those of LTTng, a program that does the same answers requests the same and records the same trace points. *)
Theorem C102_same_program : forall ls, match grun ls cfg0, lttng_run ls lprog0 with
  | Some c, Some s => same_switches c (lp_cfg s) /\ length (g_threads c) = length (lp_out s) /\
      forall i, i < length (g_threads c) -> exists l, recorded_natively c i l /\ recorded_by_lttng s i l
  | None, None => True
  | _, _ => False
  end.
Proof. exact same_program. Qed.
Print Assumptions C102_same_program.
(** Built without, it records nothing. *)
Theorem C102_nop : forall ls c c', nop_run ls c = Some c' -> Forall (fun t => t_events t = []) (g_threads c) -> Forall (fun t => t_events t = []) (g_threads c').
Proof. exact nop_nothing. Qed.
Print Assumptions C102_nop.
(** The line that is printed for a trace point is read as what happened. *)
Theorem C102_line : forall (strtod : str -> real_result spec_float) early host cpu h t rest, sensible h -> avoids " " host -> (cpu < 2 ^ 32)%N ->
  strtod (clock_text (h_time h)) = DValue t -> double_of t (IZR (Z.of_N (h_time h)) / 1000000000)%R -> rest = [] \/ rest = [ascii_of_N 10] ->
  exists e, parse strtod early (line_text (printed_of host cpu (h_pid h) (h_tid h) (lttng_event_of (h_point h) (h_time h))) ++ rest) = Done e /\
    told e h /\ c_domain e = scalopus_domain.
Proof. exact line_told. Qed.
Print Assumptions C102_line.
(** The time in that line is the time: seconds with nine decimals. *)
Theorem C102_clock : forall ns, exists a b, clock_text ns = a ++ txt "." ++ b /\ length b = 9 /\ number_of (a ++ b) = ns /\ Forall (fun c => is_decimal c = true) (a ++ b).
Proof. exact clock_exact. Qed.
Print Assumptions C102_clock.
(** The recordings of the two sources of the same happenings, a microsecond apart: the same entries in the same order, and the same values for a counter that only one process has. *)
Theorem C102_recording_partial : forall m cs es hs hs', received cs = map natively hs -> Forall2 told (ours es) hs' -> Permutation hs hs' -> apart hs -> Forall sensible hs ->
  exists res res' order, finish m (map CGood cs) = FEntries res /\ lconvert m es = FDone res' /\
    Permutation order hs /\ StronglySorted (fun a b => (h_time a <= h_time b)%N) order /\ length res = length order /\ length res' = length order /\
    forall i h e f, nth_error order i = Some h -> nth_error res i = Some e -> nth_error res' i = Some f ->
      alike e f /\ own_values m h e f /\
      forall p name, native_counter m p name h = true -> only_process m p name hs -> in_time (native_counter m p name) hs -> in_time (native_counter m p name) hs' -> same_values e f.
Proof. exact recording. Qed.
Print Assumptions C102_recording_partial.
(** Whatever the times, the same entries, perhaps in another order. *)
Theorem C102_any_partial : forall m cs es hs hs', received cs = map natively hs -> Forall2 told (ours es) hs' -> Permutation hs hs' -> Forall sensible hs ->
  exists res res' partners, finish m (map CGood cs) = FEntries res /\ lconvert m es = FDone res' /\ Permutation partners res' /\ Forall2 alike res partners.
Proof. exact recording_any. Qed.
Print Assumptions C102_any_partial.
(** The order can be another one for happenings within a microsecond. *)
Theorem C102_order_refuted : ~ forall m cs es hs hs', received cs = map natively hs -> Forall2 told (ours es) hs' -> Permutation hs hs' -> NoDup (map h_time hs) -> Forall sensible hs ->
  forall res res', finish m (map CGood cs) = FEntries res -> lconvert m es = FDone res' -> Forall2 alike res res'.
Proof. exact order_refuted. Qed.
Print Assumptions C102_order_refuted.
(** Not so for a counter that two processes have: the source of LTTng mixes the values of the two. *)
Theorem C102_counters_refuted : ~ forall m cs es hs, received cs = map natively hs -> Forall2 told (ours es) hs -> apart hs -> Forall sensible hs ->
  StronglySorted (fun a b => (h_time a <= h_time b)%N) hs ->
  forall res res', finish m (map CGood cs) = FEntries res -> lconvert m es = FDone res' -> Forall2 (fun e f => en_args e <> None -> same_values e f) res res'.
Proof. exact counters_refuted. Qed.
Print Assumptions C102_counters_refuted.
(** A program without trace points does not answer the same. *)
Theorem C102_nop_refuted : ~ forall ls c c' r, grun ls cfg0 = Some c -> nop_run ls cfg0 = Some c' -> snd (c_handle r c) = snd (c_handle r c').
Proof. exact nop_refuted. Qed.
Print Assumptions C102_nop_refuted.
