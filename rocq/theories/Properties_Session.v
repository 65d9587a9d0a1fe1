(** Properties of the session of a viewer and of the recorded file: C31, C32, C33, C35, C64. Concrete cases are in [Session_witness.v].

    [fw] and [fr] write and read the floating point numbers of the JSON library; what is assumed of them is that a number read from a text is
    written as a text that is read as the same number again. [braces] is what the library makes of [{}] in [msg["result"] = {}]. *)
From Coq Require Import String List Arith NArith ZArith Ascii Bool.
Import ListNotations.
From Verif Require Import OMap_model Json_model Json_spec Json_proofs Session_model Session_spec Session_proofs Session_witness.

(** The JSON texts themselves: whatever can be written is read back the same. *)
Theorem C35_text : forall (F : Type) (fw : F -> bytes) fr (j : json F), wf fw fr j -> exists t, dump fw j = Some t /\ parse fr t = Some j.
Proof. exact @parse_dump. Qed.
Print Assumptions C35_text.

(** An end request: every source is stopped, the request answered with its id, every source finished, all events sent in pieces of at
    most 1000 that together are all events of all sources in order, then the completion notice. *)
Theorem C31_recording : forall (F : Type) (fw : F -> bytes) fr (braces : json F),
  (forall t f, fr t = Some f -> float_ok fw fr f) -> wf fw fr braces ->
  forall (ev : list (list (json F))) t id, Forall (Forall (wf fw fr)) ev -> message fr t (name_of REnd) id ->
  exists es, process fw fr braces ev t = Done es /\ handled fr (length ev) REnd id (concat ev) es.
Proof. exact (fun F fw fr braces Hf Hb ev t id He => @request_lemma F fw fr braces Hf Hb ev t REnd id He). Qed.
Print Assumptions C31_recording.

(** The same for every request. *)
Theorem C32_request : forall (F : Type) (fw : F -> bytes) fr (braces : json F),
  (forall t f, fr t = Some f -> float_ok fw fr f) -> wf fw fr braces ->
  forall (ev : list (list (json F))) t r id, Forall (Forall (wf fw fr)) ev -> message fr t (name_of r) id ->
  exists es, process fw fr braces ev t = Done es /\ handled fr (length ev) r id (concat ev) es.
Proof. exact @request_lemma. Qed.
Print Assumptions C32_request.

(** However arrivals and handling interleave: the texts handled are the first ones that arrived, each caused exactly what it must, in the
    order of arrival, and the others still wait. *)
Theorem C32_order : forall (F : Type) (fw : F -> bytes) fr (braces : json F),
  (forall t f, fr t = Some f -> float_ok fw fr f) -> wf fw fr braces ->
  forall ls s, Forall (acceptable fr) (arrivals ls) -> Forall (Forall (Forall (wf fw fr))) (turns ls) ->
  srun fw fr braces ls sess0 = Some s ->
  q_dead s = false /\
  exists done outs, arrivals ls = done ++ q_in s /\ q_log s = concat outs /\ length outs = length done
    /\ Forall2 (fun te es => reaction fr (snd te) (fst te) es) (combine done (turns ls)) outs /\ length done = length (turns ls).
Proof. exact @queue_lemma. Qed.
Print Assumptions C32_order.

(** A text that waits can be handled. *)
Theorem C32_progress : forall (F : Type) (fw : F -> bytes) fr (braces : json F),
  (forall t f, fr t = Some f -> float_ok fw fr f) -> wf fw fr braces ->
  forall ls s ev, Forall (acceptable fr) (arrivals ls) -> Forall (Forall (Forall (wf fw fr))) (turns ls) -> Forall (Forall (wf fw fr)) ev ->
  srun fw fr braces ls sess0 = Some s -> q_in s <> [] -> exists s', sstep fw fr braces (Handle ev) s = Some s'.
Proof. exact @progress_lemma. Qed.
Print Assumptions C32_progress.

(** One letter from a viewer ends the server: the exception of the JSON library leaves the worker thread. *)
Theorem C33_refuted : exists ls s, arrivals ls = [text "x"] /\ srun fw0 fr0 braces0 ls sess0 = Some s /\ q_dead s = true.
Proof. exact viewer_witness. Qed.
Print Assumptions C33_refuted.

(** Exactly the texts of a JSON object or of null are survived. Missing: all others. *)
Theorem C33_survived_partial : forall (F : Type) (fw : F -> bytes) fr (braces : json F),
  (forall t f, fr t = Some f -> float_ok fw fr f) -> wf fw fr braces ->
  forall (ev : list (list (json F))) t, Forall (Forall (wf fw fr)) ev ->
  (exists es, process fw fr braces ev t = Done es) <-> acceptable fr t.
Proof. exact @process_iff. Qed.
Print Assumptions C33_survived_partial.

(** All others throw before anything is sent or any source reached; in no case is the behaviour undefined. *)
Theorem C33_throws_partial : forall (F : Type) (fw : F -> bytes) fr (braces : json F) (ev : list (list (json F))) t,
  ~ acceptable fr t -> process fw fr braces ev t = Throws [].
Proof. exact @process_throws. Qed.
Print Assumptions C33_throws_partial.
Theorem C33_defined_partial : forall (F : Type) (fw : F -> bytes) fr (braces : json F) (ev : list (list (json F))) t,
  process fw fr braces ev t <> Undefined.
Proof. exact @never_undefined. Qed.
Print Assumptions C33_defined_partial.

(** The file of the recorder, read as JSON, is the array of all events. *)
Theorem C35_file : forall (F : Type) (fw : F -> bytes) fr (es : list (json F)), Forall (wf fw fr) es ->
  exists t, collect_text fw es = Some t /\ parse fr t = Some (JArr es).
Proof. exact @collect_ok. Qed.
Print Assumptions C35_file.

(** An end request with a scope named by a byte that is not UTF-8: the exception ends the server; the recorder cannot write it either. *)
Theorem C64_refuted : exists (ev : list (list json0)) t id, message fr0 t "Tracing.end" id /\ ev = [[event0 1; event_bad]]
  /\ (exists es, process fw0 fr0 braces0 ev t = Throws es) /\ collect_text fw0 (concat ev) = None.
Proof. exact name_witness. Qed.
Print Assumptions C64_refuted.

(** A recording is delivered exactly when all its texts are UTF-8. Missing: all others. *)
Theorem C64_viewer_partial : forall (F : Type) (fw : F -> bytes) fr (braces : json F),
  (forall t f, fr t = Some f -> float_ok fw fr f) ->
  forall (ev : list (list (json F))) t id, message fr t "Tracing.end" id ->
  (exists es, process fw fr braces ev t = Done es) <-> Forall (Forall in_utf8) ev.
Proof. exact @end_iff. Qed.
Print Assumptions C64_viewer_partial.
Theorem C64_file_partial : forall (F : Type) (fw : F -> bytes) (es : list (json F)),
  (exists t, collect_text fw es = Some t) <-> Forall in_utf8 es.
Proof. exact @collect_iff. Qed.
Print Assumptions C64_file_partial.
