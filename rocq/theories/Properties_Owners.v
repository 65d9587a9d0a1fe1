(** C115: managers, providers, recorders and servers exist as long as they are needed, and no longer. Concrete cases are in [Owners_witness.v]. *)
From Coq Require Import List Arith Bool Permutation.
Import ListNotations.
From Verif Require Import Owners_model Owners_spec Owners_proofs Owners_witness.

(** What the program has, and what that owns in turn, is there; nothing is destroyed twice. *)
Theorem C115_held : forall h s tr, run h start = (s, tr) ->
  (forall n, kept s n -> In n (made_ids tr) /\ ~ In n (gone_ids tr)) /\ NoDup (gone_ids tr) /\ incl (gone_ids tr) (made_ids tr).
Proof. exact (fun h s tr H => conj (fun n => held h s tr n H) (destroyed_once h s tr H)). Qed.
Print Assumptions C115_held.

(** Partial: what is not needed any more has been destroyed, if no references go round in a circle. *)
Theorem C115_partial : forall h s tr n, run h start = (s, tr) -> no_circle s -> In n (made_ids tr) -> (In n (gone_ids tr) <-> ~ kept s n).
Proof. exact freed. Qed.
Print Assumptions C115_partial.

(** In C++ none do, whatever the program makes and shares, and whichever viewers come and go: a program that has let go of all has left nothing behind. *)
Theorem C115_cpp : forall h s tr, forallb plain h = true -> run h start = (s, tr) ->
  (forall n, In n (made_ids tr) -> (In n (gone_ids tr) <-> ~ kept s n)) /\ (vars s = [] -> Permutation (made_ids tr) (gone_ids tr)).
Proof. exact (fun h s tr P H => conj (fun n => plain_freed h s tr n P H) (fun V => proj1 (plain_all h s tr P H V))). Qed.
Print Assumptions C115_cpp.

(** Refuted: a recorder or server with a native provider needs the manager, but does not keep it: unless there is a general provider, the manager ends when the program lets go of it, whatever else the program
    has, and from then on nothing is recorded. *)
Theorem C115_manager_refuted : forall h s tr m, forallb plain h = true -> run h start = (s, tr) -> In (OMade m Manager) tr ->
  (forall g, ~ In (OMade g General) tr) -> ~ In m (vars s) -> In m (gone_ids tr).
Proof. exact manager_unheld. Qed.
Print Assumptions C115_manager_refuted.

(** Refuted: a manager and a function in Python that keep each other are never destroyed, whatever is done later, and the program cannot get at them. *)
Theorem C115_circle_refuted : forall h1 h2 s1 o1 s tr m o, run h1 start = (s1, o1) -> ring m o s1 -> run (h1 ++ h2) start = (s, tr) ->
  ~ kept s m /\ ~ kept s o /\ In m (made_ids tr) /\ In o (made_ids tr) /\ ~ In m (gone_ids tr) /\ ~ In o (gone_ids tr).
Proof. exact ring_stays. Qed.
Print Assumptions C115_circle_refuted.

(** For instance a provider in Python that has its manager and whose method is the factory there. *)
Theorem C115_python_refuted : forall h s tr, run ([MakeManager; PyNew; PySet 1 0; PyFactory 0 1; Drop 1; Drop 0] ++ h) start = (s, tr) ->
  ~ kept s 0 /\ In (OMade 0 Manager) tr /\ ~ In 0 (gone_ids tr).
Proof. exact circle_stays. Qed.
Print Assumptions C115_python_refuted.

(** Refuted: the function of the library that is made for this case raises, for every provider and in every state a program can be in; no factory is added. *)
Theorem C115_helper_refuted : forall h s tr m o, run h start = (s, tr) -> step (PyWeak m o) s = (s, [ORaised]).
Proof. exact helper. Qed.
Print Assumptions C115_helper_refuted.

(** A program that makes one more copy of a reference and lets go of it has changed nothing. *)
Theorem C115_copy : forall h s tr n, run h start = (s, tr) -> In n (vars s) -> run (h ++ [Dup n; Drop n]) start = (s, tr).
Proof. exact copied. Qed.
Print Assumptions C115_copy.

(** What the program has made and never let go of is there. *)
Theorem C115_yours : forall h s tr n k, run h start = (s, tr) -> In (OMade n k) tr -> own k = true -> ~ In (Drop n) h -> ~ In n (gone_ids tr).
Proof. exact yours. Qed.
Print Assumptions C115_yours.
