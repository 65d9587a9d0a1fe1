(** C111: how long a viewer that leaves keeps the others waiting. *)
From Coq Require Import List Arith Bool.
Import ListNotations.
From Verif Require Import Viewers_model Viewers_spec Viewers_proofs.

(** What arrives while nobody is leaving is handled at the very moment it arrives, whatever the workers of the other viewers are doing and however long it takes them; as long as it is not handled,
    no time passes. *)
Theorem C111_prompt : forall ls0 s l s1 e ls s',
  run ls0 state0 = Some s -> leaving s = 0 ->
  step l s = Some s1 -> inbox s1 = inbox s ++ [(e, now s)] -> run ls s1 = Some s' ->
  match nth_error (handled s') (length (handled s) + length (inbox s)) with
  | Some r => r = (e, now s, now s)
  | None => now s' = now s
  end.
Proof. exact at_once. Qed.
Print Assumptions C111_prompt.

(** In every history in which a message takes at most [D] ms and the work for the sources at most [W]: what arrives is handled at most (D + W + 10) ms later for each viewer that is leaving then. *)
Theorem C111_bounded_partial : forall D W ls0 s l s1 e ls s',
  run ls0 state0 = Some s -> step l s = Some s1 -> inbox s1 = inbox s ++ [(e, now s)] -> run ls s1 = Some s' -> Forall (within D W) (ls0 ++ l :: ls) ->
  match nth_error (handled s') (length (handled s) + length (inbox s)) with
  | Some r => exists t, r = (e, now s, t) /\ now s <= t <= now s + (D + W + 10) * leaving s
  | None => now s' <= now s + (D + W + 10) * leaving s
  end.
Proof. exact held_up_at_most. Qed.
Print Assumptions C111_bounded_partial.

(** The messages a viewer had sent and that were not begun when it left are never begun. *)
Theorem C111_no_more : forall ls0 s v ls s', run ls0 state0 = Some s -> srv s = Joining v -> run ls s = Some s' -> waiting v s' = waiting v s.
Proof. exact no_more. Qed.
Print Assumptions C111_no_more.

(** The server and its workers are never stuck: something can always happen without anything arriving. *)
Theorem C111_never_stuck : forall ls0 s, run ls0 state0 = Some s -> exists l s', (forall e, l <> Arrive e) /\ step l s = Some s'.
Proof. exact never_stuck. Qed.
Print Assumptions C111_never_stuck.

(** For every [n], one viewer that leaves while a message of [n] ms is handled keeps a page, or a new viewer, waiting for [n + 10] ms: the bound is reached. *)
Theorem C111_refuted : forall n e, e = Page \/ e = Connect ->
  exists ls s, run ls state0 = Some s /\ Forall (within n 0) ls /\ In (e, 0, n + 10) (handled s).
Proof. exact leaver_holds_up. Qed.
Print Assumptions C111_refuted.
