(** Properties of a finished recording: C26, C27, C28, C62. Concrete cases are in [Native_witness.v]. *)
From Coq Require Import String List NArith ZArith Ascii Sorting.Sorted.
Import ListNotations.
From Verif Require Import OMap_model TraceEvent_model Names_model Crc_proofs Native_model Native_spec Native_proofs Native_witness FloatTime_proofs.
Local Open Scope nat_scope.

(** The finished interval holds exactly one entry per received event, with its time, process, thread, phase, scope and name, ordered by the time shown, events shown at the same time in order of arrival. *)
Theorem C26_interval : forall m cs,
  Forall good_chunk cs ->
  exists res order, finish m (map CGood cs) = FEntries res /\ time_order order (received cs) /\ Forall2 (shows m) order res.
Proof. exact interval_complete. Qed.
Print Assumptions C26_interval.

(** If the events of a counter arrive in the order of their times, each entry of that counter lists every series of it in the interval, each with the latest value up to that moment or else the first one after it, and no other. Missing: events that arrive in another order, see the next theorems. *)
Theorem C27_in_order_partial : forall m cs,
  Forall good_chunk cs ->
  exists res order, finish m (map CGood cs) = FEntries res /\ time_order order (received cs) /\ Forall2 (shows m) order res /\
  forall pid name, StronglySorted (fun a b => shown_before b a = false) (filter (is_counter m pid name) (received cs)) ->
  forall o1 r o2 e1 e e2, order = o1 ++ r :: o2 -> res = e1 ++ e :: e2 -> length e1 = length o1 ->
  is_counter m pid name r = true -> consistent m o1 r o2 e.
Proof. exact interval_counters. Qed.
Print Assumptions C27_in_order_partial.

(** Whatever the order of arrival, the entry of a counter event has the value the event set. *)
Theorem C27_own_partial : forall m cs,
  Forall good_chunk cs ->
  exists res order, finish m (map CGood cs) = FEntries res /\ time_order order (received cs) /\ Forall2 (shows m) order res /\ Forall2 (own m) order res.
Proof. exact interval_own. Qed.
Print Assumptions C27_own_partial.

(** The full statement is false: two threads set different series of a counter, and the entry of the second shows the value the first thread set only later. *)
Theorem C27_value_refuted :
  exists m cs res order, Forall good_chunk cs /\ finish m (map CGood cs) = FEntries res /\
  time_order order (received cs) /\ Forall2 (shows m) order res /\
  exists o1 r o2 e1 e e2, order = o1 ++ r :: o2 /\ res = e1 ++ e :: e2 /\ length e1 = length o1 /\ te_type (r_ev r) = COUNTER /\
  exists a, en_args e = Some a /\ mfind str_ltb (str "a") a = Some 2%Z /\
    value_at (sets m (r_pid r) (en_name e) (str "a")) (o1 ++ [r]) o2 = Some 1%Z.
Proof. exact counters_wrong. Qed.
Print Assumptions C27_value_refuted.

(** The full statement is false: the entry of a later event does not list the series an earlier event set, when the later event arrived first. *)
Theorem C27_missing_refuted :
  exists m cs res order, Forall good_chunk cs /\ finish m (map CGood cs) = FEntries res /\
  time_order order (received cs) /\ Forall2 (shows m) order res /\
  exists o1 r o2 e1 e e2, order = o1 ++ r :: o2 /\ res = e1 ++ e :: e2 /\ length e1 = length o1 /\ te_type (r_ev r) = COUNTER /\
  exists a, en_args e = Some a /\ mfind str_ltb (str "b") a = None /\
    value_at (sets m (r_pid r) (en_name e) (str "b")) (o1 ++ [r]) o2 = Some 5%Z.
Proof. exact counters_missing. Qed.
Print Assumptions C27_missing_refuted.

(** What arrived before a chunk that cannot be decoded is kept. Missing: what arrives after it, which is lost. *)
Theorem C28_before_partial : forall m cs rest,
  Forall good_chunk cs -> finish m (map CGood cs ++ CBad :: rest) = finish m (map CGood cs).
Proof. exact bad_cuts. Qed.
Print Assumptions C28_before_partial.

(** The same for a chunk with an event of unknown type: the chunks before it and the events before it in its first thread are kept, the rest is lost. *)
Theorem C28_unknown_partial : forall m cs c tid before ev after ths rest,
  Forall good_chunk cs ->
  nc_threads c = [(tid, before ++ ev :: after)] ++ ths -> Forall proper before -> (te_type ev = 0 \/ 6 < te_type ev)%N ->
  finish m (map CGood cs ++ CGood c :: rest) = finish m (map CGood (cs ++ [{| nc_pid := nc_pid c; nc_threads := [(tid, before)] |}])).
Proof. exact unknown_cuts. Qed.
Print Assumptions C28_unknown_partial.

(** The full statement is false: a bad chunk in front makes the result empty. *)
Theorem C28_refuted :
  exists m cs res, Forall good_chunk cs /\ finish m (map CGood cs) = FEntries res /\ res <> [] /\ finish m (CBad :: map CGood cs) = FEntries [].
Proof. exact bad_loses. Qed.
Print Assumptions C28_refuted.

(** A chunk with a counter event without value is followed through a null pointer. *)
Theorem C28_null_refuted :
  exists m c, Forall (fun p => Forall (fun ev => (1 <= te_type ev <= 6)%N) (snd p)) (nc_threads c) /\ finish m [CGood c] = FUB.
Proof. exact null_value. Qed.
Print Assumptions C28_null_refuted.

(** Of two events the one shown first was recorded first, or less than a microsecond after the other and they are shown at the same time. Missing: the order of events less than a microsecond apart. *)
Theorem C62_partial : forall order l,
  time_order order l ->
  forall o1 a o2 b o3, order = (o1 ++ a :: o2 ++ b :: o3)%list ->
  (te_time (r_ev a) < 2 ^ 61)%N -> (te_time (r_ev b) < 2 ^ 61)%N ->
  (te_time (r_ev a) <= te_time (r_ev b))%N \/ ((te_time (r_ev a) < te_time (r_ev b) + 1000)%N /\ same_time a b = true).
Proof. exact order_recorded. Qed.
Print Assumptions C62_partial.

(** The full statement is false: events fifty nanoseconds apart are shown in the order of their threads. *)
Theorem C62_refuted :
  exists m cs res order, Forall good_chunk cs /\ finish m (map CGood cs) = FEntries res /\ Forall2 (shows m) order res /\
  time_order order (received cs) /\
  exists o1 a o2 b o3, order = o1 ++ a :: o2 ++ b :: o3 /\ (te_time (r_ev b) < te_time (r_ev a))%N.
Proof. exact not_recorded_order. Qed.
Print Assumptions C62_refuted.

From Coq Require Import Reals.
From Flocq Require Import Core.Core IEEE754.BinarySingleNaN.
(** The time shown is the recorded one in microseconds, to less than half a microsecond (times before [2^61] ns). *)
Theorem C26_time : forall n,
  (n < 2 ^ 61)%N -> (Rabs (SF2R radix2 (ts_of n) - IZR (Z.of_N n) / 1000) < / 2)%R.
Proof. exact ts_accurate. Qed.
Print Assumptions C26_time.
