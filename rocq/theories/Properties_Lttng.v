From Coq Require Import String List Arith NArith ZArith Ascii Bool Floats.SpecFloat Sorting.Sorted.
Import ListNotations.
From Verif Require Import OMap_model Names_model Native_model Native_spec Str_model Ctf_model Ctf_spec Lttng_model Lttng_spec Lttng_proofs.
Local Notation length := List.length.

(** C39. If the events of scalopus tell of deeds, the finished interval has one entry for each, with its phase, name, process and thread, in the
    order of time; a counter's entry has the value that was set. Events of other trace points may be anything. *)
Theorem C39_interval_partial : forall m es l, Forall2 tells (ours es) l ->
  exists res order, lconvert m es = FDone res /\ timely order l /\ Forall2 (portrays m) order res.
Proof. exact interval_lemma. Qed.
Print Assumptions C39_interval_partial.
(** If no other process has a counter of that name, and its events come in the order of time, each entry of the counter lists its series with
    their values then. *)
Theorem C39_counters_partial : forall m es l, Forall2 tells (ours es) l ->
  exists res order, lconvert m es = FDone res /\ timely order l /\ Forall2 (portrays m) order res /\
  forall p name, sole m p name l -> StronglySorted (fun a b => earlier b a = false) (filter (counts m name) l) ->
  forall o1 d o2 e1 e e2, order = o1 ++ d :: o2 -> res = e1 ++ e :: e2 -> length e1 = length o1 -> counts m name d = true -> faithful m o1 d o2 e.
Proof. exact counters_lemma. Qed.
Print Assumptions C39_counters_partial.
(** What the trace points print is read as telling of the deed. *)
Theorem C39_printed : forall (strtod : str -> real_result spec_float) early p d rest e, good p -> prints d p -> strtod (p_time p) = DValue (d_time d) -> d_time d <> S754_nan ->
  rest = [] \/ rest = [ascii_of_N 10] -> parse strtod early (line_text p ++ rest) = Done e -> tells e d /\ c_domain e = scalopus_domain.
Proof. exact printed_lemma. Qed.
Print Assumptions C39_printed.
(** The interval is made of the events between its start and its end. *)
Theorem C39_window : forall a b c m, only_events b -> ends c -> exists outs, snd (lrun (a ++ LStart :: b ++ c ++ [LFinish m]) lsource0) = outs ++ [lconvert m (events_in b)].
Proof. exact window_lemma. Qed.
Print Assumptions C39_window.
(** Without a start there are none. *)
Theorem C39_idle : forall a m, ~ In LStart a -> exists outs, snd (lrun (a ++ [LFinish m]) lsource0) = outs ++ [lconvert m []].
Proof. exact idle_lemma. Qed.
Print Assumptions C39_idle.
(** Counters of different processes are mixed: an entry of process 8 has a series only process 7 has. *)
Theorem C39_mixed_refuted : exists m es l, Forall2 tells (ours es) l /\ exists res x, lconvert m es = FDone res /\ In x res /\ en_pid x = 8%Z /\
  (forall d, In d l -> gives_to m 8 (en_name x) (txt "a") d = None) /\ exists a, en_args x = Some a /\ mfind str_ltb (txt "a") a = Some 5%Z.
Proof. exact mixed_lemma. Qed.
Print Assumptions C39_mixed_refuted.
(** An event of the domain with a name that is not known makes the conversion fail. *)
Theorem C39_unknown_refuted : exists m e, c_domain e = scalopus_domain /\ lconvert m [e; ctf one 7 3 "scope_entry" None] = FThrows.
Proof. exact unknown_lemma. Qed.
Print Assumptions C39_unknown_refuted.
(** So does one without the number of its process. *)
Theorem C39_no_pid_refuted : forall m es, lconvert m (no_pid :: es) = FThrows.
Proof. exact no_pid_lemma. Qed.
Print Assumptions C39_no_pid_refuted.

From Coq Require Import Reals.
From Flocq Require Import Core.Core IEEE754.BinarySingleNaN.
From Verif Require Import LttngTime_proofs.
(** The time shown is the printed one in microseconds, to less than half a microsecond (times before [2^32] seconds, read to the nearest double). *)
Theorem C39_time : forall t x, double_of t x -> (0 <= x < bpow radix2 32)%R -> (Rabs (SF2R radix2 (lts t) - x * 1000000) < / 2)%R.
Proof. exact lts_accurate. Qed.
Print Assumptions C39_time.

(** Events are shown in the order of the times that were printed, if these are a microsecond apart; and never in the opposite order. *)
Theorem C39_order : forall t x u y, double_of t x -> double_of u y -> (0 <= x < bpow radix2 32)%R -> (0 <= y < bpow radix2 32)%R ->
  ((x <= y)%R -> SFltb (lts u) (lts t) = false) /\ ((x + / 1000000 <= y)%R -> SFltb (lts t) (lts u) = true).
Proof. exact lts_order. Qed.
Print Assumptions C39_order.
