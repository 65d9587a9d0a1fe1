(** Properties of the provider of native recordings and its sources: C29, C30, C63. Concrete cases are at the end of
    [Provider_witness.v]. *)
From Coq Require Import List Arith Bool.
Import ListNotations.
From Verif Require Import Provider_model Provider_spec Provider_proofs Provider_witness.

(** When calls do not overlap: after any history, a source that was started, and since then neither started again nor finished,
    is finished with exactly the data received since, up to its first stop, in order. What other sources do, are made, started,
    stopped or finished, does not matter. Missing: calls that overlap, see below. *)
Theorem C29_interval_partial : forall (D : Type) (h1 h2 : list (op D)) i,
  no_drop (h1 ++ h2) -> i < made h1 -> no_start_or_finish i h2 ->
  exists p p', op_run (h1 ++ OStart i :: h2) prov0 = Some p
    /\ op_step (OFinish i) p = ODone p' (Some (received_in (until_stop i h2))).
Proof. exact @interval_lemma. Qed.
Print Assumptions C29_interval_partial.

(** A source not started since it was last finished is finished with nothing. *)
Theorem C29_finished_partial : forall (D : Type) (h1 h2 : list (op D)) i,
  no_drop (h1 ++ h2) -> i < made h1 -> no_start_or_finish i h2 ->
  exists p p', op_run (h1 ++ OFinish i :: h2) prov0 = Some p /\ op_step (OFinish i) p = ODone p' (Some []).
Proof. exact @idle_lemma. Qed.
Print Assumptions C29_finished_partial.

(** A source that was never started is finished with nothing. *)
Theorem C29_fresh_partial : forall (D : Type) (h : list (op D)) i,
  no_drop h -> no_start_or_finish i h ->
  exists p p', op_run h prov0 = Some p /\ op_step (OFinish i) p = ODone p' (Some []).
Proof. exact @fresh_lemma. Qed.
Print Assumptions C29_fresh_partial.

(** When calls overlap in any way: a source holds the data of the calls that handed it over since it was last cleared, in that
    order, each call once, and each of these calls ran while the source was recording. *)
Theorem C29_delivered_partial : forall (D : Type) (h : list (label D)) p i,
  lrun h prov0 = Some p ->
  Forall2 (fun r d => nth_error (begun h) r = Some d) (handed i [] h) (data_of i p)
  /\ NoDup (handed i [] h) /\ forall r, In r (handed i [] h) -> recording_during i r h.
Proof. exact @delivered_lemma. Qed.
Print Assumptions C29_delivered_partial.

(** And data whose call ran its course while the source was recording throughout is in the interval. *)
Theorem C29_complete_partial : forall (D : Type) (h1 h2 : list (label D)) d p i,
  lrun (h1 ++ LBegin d :: h2) prov0 = Some p -> on i false h1 = true -> i < lmade h1 ->
  (forall b, ~ In (LStore i b) h2) -> ~ In (LClear i) h2 ->
  over (length (begun h1)) p -> In d (data_of i p).
Proof. exact @complete_lemma. Qed.
Print Assumptions C29_complete_partial.

(** The full statement is false when calls overlap: data received before an interval was started can end up in it, *)
Theorem C29_early_refuted :
  ~ (forall (h1 h2 : list (label nat)) p, lrun (h1 ++ start_pieces 0 ++ h2) prov0 = Some p -> ~ In (LClear 0) h2 ->
       forall r, In r (handed 0 [] (h1 ++ start_pieces 0 ++ h2)) -> length (begun h1) <= r).
Proof. exact early_lemma. Qed.
Print Assumptions C29_early_refuted.

(** and data received before it was stopped can be missing from it. *)
Theorem C29_late_refuted :
  ~ (forall (h1 h2 h3 : list (label nat)) d p q,
       lrun (h1 ++ LBegin d :: h2 ++ [LStore 0 false]) prov0 = Some p -> lrun (LClear 0 :: h3) p = Some q ->
       on 0 false h1 = true -> 0 < lmade h1 -> (forall b, ~ In (LStore 0 b) h2) -> ~ In (LClear 0) h2 ->
       over (length (begun h1)) q -> In d (data_of 0 p)).
Proof. exact late_lemma. Qed.
Print Assumptions C29_late_refuted.

(** A source released in the middle of a recording is never destroyed: the provider keeps all data it ever receives for it. *)
Theorem C30_refuted : forall (D : Type) (ds : list D),
  exists p s, op_run ([OMake; OStart 0; ORelease 0] ++ map OReceive ds) prov0 = Some p
    /\ p_srcs p = [s] /\ s_held s = false /\ s_data s = ds.
Proof. exact @released_lemma. Qed.
Print Assumptions C30_refuted.

(** A source that was stopped before it was released collects nothing more. Missing: sources released while recording. *)
Theorem C30_stopped_partial : forall (D : Type) (h1 h2 : list (op D)) i p q,
  no_drop (h1 ++ h2) -> i < made h1 -> no_start_or_finish i h2 ->
  op_run (h1 ++ [OStop i; ORelease i]) prov0 = Some p -> op_run h2 p = Some q -> data_of i q = data_of i p.
Proof. exact @stopped_lemma. Qed.
Print Assumptions C30_stopped_partial.

(** Finishing an interval of a source whose provider is gone follows a null pointer. *)
Theorem C63_refuted : ~ (forall (h : list (op nat)) i, i < made h -> exists p, op_run (h ++ [OFinish i]) prov0 = Some p).
Proof. exact expired_lemma. Qed.
Print Assumptions C63_refuted.

(** As long as the provider is there every history of calls is defined. *)
Theorem C63_kept_partial : forall (D : Type) (h : list (op D)), no_drop h -> exists p, op_run h prov0 = Some p.
Proof. exact @kept_lemma. Qed.
Print Assumptions C63_kept_partial.
