(** Property of the sessions of the trace server: C34. Concrete cases are in [Backend_witness.v]. *)
From Coq Require Import List Arith Bool.
Import ListNotations.
From Verif Require Import Backend_model Backend_spec Backend_proofs Backend_witness.

(** After every history there is exactly one session of each connected viewer, and no other; one has been made per connection. *)
Theorem C34_sessions_partial : forall (Text : Type) (ls : list (blabel Text)) b os, legal_run ls -> brun ls backend0 = Some (b, os) ->
  b_made b = length (viewers ls)
  /\ NoDup (map fst (b_sessions b))
  /\ forall ws s, In (ws, s) (b_sessions b) <-> (s_ws s = ws /\ connected (viewers ls) (s_id s) ws).
Proof. exact @sessions_lemma. Qed.
Print Assumptions C34_sessions_partial.

(** Text from a viewer reaches its session, and no other. *)
Theorem C34_text_partial : forall (Text : Type) (ls : list (blabel Text)) b os v ws t, legal_run ls -> brun ls backend0 = Some (b, os) ->
  connected (viewers ls) v ws -> bstep (Data ws t) b = Some (b, [Incoming v t]).
Proof. exact @data_lemma. Qed.
Print Assumptions C34_text_partial.

(** Nothing is sent to a connection that is closed. *)
Theorem C34_closed_partial : forall (Text : Type) (ls : list (blabel Text)) b os b' o ws t, legal_run ls -> brun ls backend0 = Some (b, os) ->
  bstep RunTask b = Some (b', o) -> In (Send ws t) o -> exists v, connected (viewers ls) v ws.
Proof. exact @send_lemma. Qed.
Print Assumptions C34_closed_partial.

(** When the server opens no connection under an address for which tasks still wait: the tasks run are the answers in the order they were
    given; each is sent to the viewer it belongs to if that viewer is connected, and to nobody otherwise. Missing: see below. *)
Theorem C34_answers_partial : forall (Text : Type) (ls : list (blabel Text)) b os b' o, legal_run ls -> settled ls ->
  brun ls backend0 = Some (b, os) -> bstep RunTask b = Some (b', o) ->
  exists v t ws c, nth_error (answers ls) (tasks_run ls) = Some (v, t) /\ nth_error (viewers ls) v = Some (ws, c) /\ o = if c then [Send ws t] else [].
Proof. exact @answer_lemma. Qed.
Print Assumptions C34_answers_partial.

(** If an address is used again while an answer for the viewer that had it still waits, the answer goes to the wrong viewer: text 77 is
    the answer to viewer 0 and is sent to address 5, where by then viewer 1 is. *)
Theorem C34_reuse_refuted : legal_run reuse /\ answers reuse = [(0, 77)] /\ connected (viewers reuse) 1 5
  /\ nth_error (viewers reuse) 0 = Some (5, false)
  /\ exists b, brun reuse backend0 = Some (b, [[]; [Incoming 0 1]; []; []; []; [Send 5 77]]).
Proof. exact reuse_witness. Qed.
Print Assumptions C34_reuse_refuted.
