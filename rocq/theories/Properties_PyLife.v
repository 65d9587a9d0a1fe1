(** C97: objects on both sides of the Python bindings. *)
From Coq Require Import List Arith Bool.
Import ListNotations.
From Verif Require Import PyLife_model PyLife_spec PyLife_proofs PyLife_witness.

(** Whatever a program and the library do: what one of them can still get at has been made and has not been destroyed. *)
Theorem C97_held : forall h s tr n, run h start = (s, tr) -> object n -> reachable s n -> In (OMade n) tr /\ destroyed tr n = 0.
Proof. exact kept. Qed.
Print Assumptions C97_held.

(** Nothing is destroyed twice. *)
Theorem C97_once : forall h s tr n, run h start = (s, tr) -> object n -> destroyed tr n <= 1.
Proof. exact at_most_once. Qed.
Print Assumptions C97_once.

(** Partial: if no references go round in a circle, what nobody can get at any more has been destroyed. *)
Theorem C97_freed_partial : forall h s tr n, run h start = (s, tr) -> no_circle s -> object n -> In (OMade n) tr ->
  (destroyed tr n = 1 <-> ~ reachable s n).
Proof. exact freed. Qed.
Print Assumptions C97_freed_partial.

(** Partial: as long as a server exists, a message for one of its names is handed to the Python object that was added last under this name,
    whether or not the program has kept it. *)
Theorem C97_served_partial : forall h s tr t n v o, forallb (fun a => negb (connects a)) h = true -> run h start = (s, tr) -> s_over s = false ->
  serving tr t n = Some o -> destroyed tr (Cxx t) = 0 ->
  destroyed tr (Py o) = 0 /\ exists s' l, step (Message t n v) s = (s', OHandled t n o :: l).
Proof. exact message_served. Qed.
Print Assumptions C97_served_partial.

(** Partial: a program that uses no manager is never terminated by these calls, and uses nothing that is destroyed unless it asks an
    endpoint for its transport after that has gone. *)
Theorem C97_safe_partial : forall h s tr, forallb (fun a => negb (connects a)) h = true -> run h start = (s, tr) ->
  ~ In ODied tr /\ (In OUB tr -> exists t, In (OMade (Cxx t)) tr /\ destroyed tr (Cxx t) = 1).
Proof. exact served. Qed.
Print Assumptions C97_safe_partial.

(** Refuted: a server whose endpoint refers to it stays for ever when the program has forgotten both, however often the collector runs. *)
Theorem C97_circle_refuted : forall h s tr, forallb collects h = true -> run (circle ++ h) start = (s, tr) ->
  In (OMade (Cxx 0)) tr /\ In (OMade (Py 1)) tr /\ ~ reachable s (Cxx 0) /\ ~ reachable s (Py 1) /\ destroyed tr (Cxx 0) = 0 /\ destroyed tr (Py 1) = 0.
Proof. exact circle_stays. Qed.
Print Assumptions C97_circle_refuted.

(** Refuted: so does a lost connection of a manager whose endpoint, made by a factory, has kept the transport the factory was given. *)
Theorem C97_lost_refuted : forall h s tr, forallb collects h = true -> run (circle2 ++ h) start = (s, tr) ->
  In (OMade (Cxx 0)) tr /\ In (OMade (Py 0)) tr /\ ~ reachable s (Cxx 0) /\ ~ reachable s (Py 0) /\ destroyed tr (Cxx 0) = 0 /\ destroyed tr (Py 0) = 0.
Proof. exact circle2_stays. Qed.
Print Assumptions C97_lost_refuted.

(** Refuted: if it has not kept it, the first message for the endpoint terminates the process. *)
Theorem C97_message_refuted : snd (run [Connect 5 None; Message 0 5 1] start) = [OMade (Cxx 0); OMade (Py 0); OAdded 0 5 0; ODied].
Proof. exact message_dies. Qed.
Print Assumptions C97_message_refuted.

(** Refuted: a transport got from an endpoint is destroyed although a variable of the program refers to it; its next use is undefined. *)
Theorem C97_transport_refuted : let (s, tr) := run borrows start in
  var 2 s = Some (Wrap 0) /\ reachable s (Wrap 0) /\ destroyed tr (Cxx 0) = 1 /\ snd (step (Use 2) s) = [OUB] /\ s_over s = false.
Proof. exact borrowed. Qed.
Print Assumptions C97_transport_refuted.

(** Nothing happens after the process has been terminated or something destroyed has been used. *)
Theorem C97_end : forall h s s' tr a x b, run h s = (s', tr) -> tr = a ++ x :: b -> x = ODied \/ x = OUB -> b = [] /\ s_over s' = true.
Proof. exact last_thing. Qed.
Print Assumptions C97_end.
