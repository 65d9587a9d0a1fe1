(** Properties of the names events are shown under: C24, C25, C61. Concrete cases are at the end of [Names_proofs.v]. *)
From Coq Require Import String List NArith ZArith Ascii.
Import ListNotations.
From Verif Require Import Names_model Names_spec Names_proofs.

(** The text shown for an id of a process is the name that process set for it last; if it set none, or the process did not answer, it is "Unknown 0x" and the id in hexadecimal. Other processes do not matter. *)
Theorem C24_shown : forall procs ts old pid id,
  NoDup (map tr_pid procs) -> transports_of procs ts ->
  let shown := scope_name (update_mapping true ts old) pid id in
  (forall t n, In t procs -> tr_pid t = pid -> Exists (answers t) ts -> named id (tr_settings t) n -> shown = n) /\
  (forall t, In t procs -> tr_pid t = pid -> unnamed id (tr_settings t) -> unknown_text shown id) /\
  ((forall t, In t procs -> tr_pid t = pid -> ~ Exists (answers t) ts) -> unknown_text shown id).
Proof. exact shown_name. Qed.
Print Assumptions C24_shown.

(** A counter name is split at the first separator and can be put together again; without separator the series is "count". *)
Theorem C24_split : forall s,
  (In slash s -> let (c, r) := split_series s in s = c ++ slash :: r /\ ~ In slash c) /\
  (~ In slash s -> split_series s = (s, list_ascii_of_string "count"%string)).
Proof. exact split_spec. Qed.
Print Assumptions C24_split.

(** The counter and the series given to the series macro are the ones shown, when the counter's name has no separator in it. *)
Theorem C24_series : forall file n r,
  ~ In slash n -> split_series (si_name (site_series file n r)) = (n, r).
Proof. exact series_spec. Qed.
Print Assumptions C24_series.

(** The full statement is false: whatever the name given to the single-series macro, the series shown is never "count". *)
Theorem C25_refuted : forall file n,
  snd (split_series (si_name (site_count file n))) <> list_ascii_of_string "count"%string.
Proof. exact count_never. Qed.
Print Assumptions C25_refuted.

(** What does hold: the value is shown under the counter of that name (when it has no separator); the series is the empty text. *)
Theorem C25_counter_partial : forall file n,
  ~ In slash n -> split_series (si_name (site_count file n)) = (n, []).
Proof. exact count_as_is. Qed.
Print Assumptions C25_counter_partial.

(** An event of a trace point that was passed is shown under the trace point's name if no other trace point of the process with the same id has another name and no call sets another one. Missing: ids shared by different names, see the next theorem. *)
Theorem C61_unique_partial : forall procs ts old t i s,
  NoDup (map tr_pid procs) -> transports_of procs ts -> In t procs -> Exists (answers t) ts ->
  nth_error (tr_sites t) i = Some s -> In (PPass i) (tr_past t) ->
  (forall s', In s' (tr_sites t) -> si_id s' = si_id s -> si_name s' = si_name s) ->
  (forall n, In (PSetName (si_id s) n) (tr_past t) -> n = si_name s) ->
  scope_name (update_mapping true ts old) (tr_pid t) (si_id s) = si_name s.
Proof. exact site_shown. Qed.
Print Assumptions C61_unique_partial.

(** The full statement is false: two marks of one file can have the same id, and then the first is shown under the name of the second. *)
Theorem C61_refuted : forall pid,
  exists t i s,
  tr_pid t = pid /\ nth_error (tr_sites t) i = Some s /\ In (PPass i) (tr_past t) /\ (forall id n, ~ In (PSetName id n) (tr_past t)) /\ answers t (reply_of t) /\ scope_name (update_mapping true [reply_of t] []) pid (si_id s) <> si_name s.
Proof. exact site_wrong. Qed.
Print Assumptions C61_refuted.
