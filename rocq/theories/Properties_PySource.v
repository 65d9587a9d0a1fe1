(** C103: trace event sources written in Python. Concrete cases are in [PySource_witness.v].

    [fw], [fr], [braces]: see [Properties_Session.v]; [fcmp], [of_int]: how floating point numbers compare, see [Properties_PyJson.v]; [Q]: the state of
    the Python objects. *)
From Coq Require Import String List Arith NArith ZArith Ascii Bool.
Import ListNotations.
From Verif Require Import OMap_model Json_model Json_spec Session_model Session_spec Session_witness PyJson_model PyJson_spec PySource_model PySource_spec PySource_proofs PySource_witness.
Local Notation length := List.length.

(** As long as the session lives: the texts handled are the first that arrived, and each caused what it must: all sources started; or all stopped, the
    answer, all finished, and everything they returned sent, in their order, as JSON that is the same value if taken back to Python. *)
Theorem C103_session_partial : forall (F : Type) (fw : F -> bytes) fr (braces : json F) fcmp of_int (Q : Type),
  (forall t f, fr t = Some f -> float_ok fw fr f) -> wf fw fr braces ->
  forall (xs : list (src F Q)) ls s, (forall c, class_in xs c -> returns (clean fw fr) c) -> native_events (wf fw fr) ls ->
  run fw fr braces fcmp of_int ls (state0 xs) = Some s -> x_end s = Alive ->
  exists handled outs, texts ls = handled ++ x_in s /\ x_log s = concat outs /\ Forall2 (causes fr (length xs)) handled outs.
Proof. exact @session_lemma. Qed.
Print Assumptions C103_session_partial.

(** The methods of a source are called on the state the one before left, and what they return is what is used. *)
Theorem C103_state : forall (F : Type) (fw : F -> bytes) fr (braces : json F) fcmp of_int (Q : Type),
  (forall t f, fr t = Some f -> float_ok fw fr f) -> wf fw fr braces ->
  forall ls (s s' : state F Q), undisturbed ls -> run fw fr braces fcmp of_int ls s = Some s' -> x_end s' = Alive ->
  exists es, x_log s' = x_log s ++ es /\
  forall i c q, nth_error (x_sources s) i = Some (Python c q) -> exists q', nth_error (x_sources s') i = Some (Python c q') /\ lives c i es q q'.
Proof. exact @state_lemma. Qed.
Print Assumptions C103_state.

(** The server ends exactly with the first fault of a source. *)
Theorem C103_blame : forall (F : Type) (fw : F -> bytes) fr (braces : json F) fcmp of_int (Q : Type),
  (forall t f, fr t = Some f -> float_ok fw fr f) -> wf fw fr braces ->
  forall (xs : list (src F Q)) ls s, (forall c, class_in xs c -> returns proper c) -> ~ In Null xs -> native_events in_utf8 ls ->
  Forall (acceptable fr) (texts ls) -> run fw fr braces fcmp of_int ls (state0 xs) = Some s ->
  (x_end s = Alive /\ Forall (fun a => ~ fault a) (x_log s)) \/
  (x_end s = Terminated /\ exists l a, x_log s = l ++ [a] /\ Forall (fun a => ~ fault a) l /\ fault a).
Proof. exact @blame_lemma. Qed.
Print Assumptions C103_blame.

(** Sources without faults: it does not end. *)
Theorem C103_survive : forall (F : Type) (fw : F -> bytes) fr (braces : json F) fcmp of_int (Q : Type),
  (forall t f, fr t = Some f -> float_ok fw fr f) -> wf fw fr braces ->
  forall (xs : list (src F Q)) ls s, (forall c, class_in xs c -> sane c) -> ~ In Null xs -> native_events in_utf8 ls ->
  Forall (acceptable fr) (texts ls) -> run fw fr braces fcmp of_int ls (state0 xs) = Some s -> x_end s = Alive.
Proof. exact @survive_lemma. Qed.
Print Assumptions C103_survive.

(** What is left if it ends: everything before was handled; in the last request the sources before the faulty one were called, also finished, and nothing of
    what they returned was sent. *)
Theorem C103_broken : forall (F : Type) (fw : F -> bytes) fr (braces : json F) fcmp of_int (Q : Type),
  (forall t f, fr t = Some f -> float_ok fw fr f) -> wf fw fr braces ->
  forall (xs : list (src F Q)) ls s, (forall c, class_in xs c -> returns (clean fw fr) c) -> native_events (wf fw fr) ls ->
  Forall (acceptable fr) (texts ls) -> run fw fr braces fcmp of_int ls (state0 xs) = Some s -> x_end s = Terminated ->
  exists handled t outs last, texts ls = handled ++ t :: x_in s /\ x_log s = concat outs ++ last /\ Forall2 (causes fr (length xs)) handled outs
    /\ broken fr (length xs) t last.
Proof. exact @broken_lemma. Qed.
Print Assumptions C103_broken.

(** One source for each provider, in their order, unless one raises. *)
Theorem C103_make : forall (F Q : Type) (ps : list (provider F Q)) xs, make_sources ps = Some xs <-> Forall2 makes ps xs.
Proof. exact @make_lemma. Qed.
Print Assumptions C103_make.

(** A [finishInterval] without [return]: the server ends, and the event of the other source, already taken from it, is not sent. *)
Theorem C103_none_refuted :
  seen (fun s => (x_end s, length (x_log s), nth_error (x_log s) 3, nth_error (x_log s) 4, existsb is_data (x_log s))) [Native; Python forgetful 0] ls1 =
  Some (Terminated, 5, Some (AFinish 0 (GNative [event0 3])), Some (AFinish 1 (GValue PNone)), false).
Proof. exact forgetful_ends. Qed.
Print Assumptions C103_none_refuted.
(** A method that raises. *)
Theorem C103_raise_refuted : seen (fun s => (x_end s, x_log s)) [Native; Python raising 0] ls1 = Some (Terminated, [AStop 0 true; AStop 1 false]).
Proof. exact raising_ends. Qed.
Print Assumptions C103_raise_refuted.
(** An integer of more than 64 bits in an event. *)
Theorem C103_int_refuted : seen (fun s => (x_end s, existsb is_data (x_log s))) [Native; Python too_big 0] ls1 = Some (Terminated, false).
Proof. exact too_big_ends. Qed.
Print Assumptions C103_int_refuted.
(** A provider that returns [None]: undefined behaviour as soon as the worker looks at its sources, without any request. *)
Theorem C103_null_refuted : forall (F : Type) (fw : F -> bytes) fr (braces : json F) fcmp of_int (Q : Type),
  (forall t f, fr t = Some f -> float_ok fw fr f) -> wf fw fr braces ->
  forall (xs : list (src F Q)) ls s, In Null xs -> In Works ls -> run fw fr braces fcmp of_int ls (state0 xs) = Some s -> x_end s = UndefinedBehaviour.
Proof. exact @null_lemma. Qed.
Print Assumptions C103_null_refuted.
(** A provider that raises: no session at all. *)
Theorem C103_make_refuted : forall (F Q : Type) (ps : list (provider F Q)), In MakesRaise ps -> make_sources ps = None.
Proof. exact @make_raise. Qed.
Print Assumptions C103_make_refuted.
