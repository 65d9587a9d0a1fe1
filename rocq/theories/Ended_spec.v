(** What C77 and C78 say, on histories. *)
From Coq Require Import String List Arith NArith ZArith Ascii Bool.
Import ListNotations.
From Verif Require Import OMap_model Names_model Native_model Ended_model.

(** The end of process [i] was seen on its connection, and after that the manager went through a cycle. *)
Definition dealt_with (i : nat) (h : list label) : Prop := exists a b c, h = a ++ Notice i :: b ++ Manage :: c.

(** Whenever a viewer stops its recording, every end of a process so far has been dealt with, and no process ends until the viewer has been
    sent its events. *)
Definition well_timed (h : list label) : Prop :=
  forall v a b, h = a ++ Finish v :: b ->
    (forall i, In (End i) a -> dealt_with i a) /\ (forall i c d, b = c ++ End i :: d -> In (Send v) c).

(** The data that came in, whoever sent it. *)
Fixpoint delivered (h : list label) : list chunk :=
  match h with
  | [] => []
  | Deliver _ c :: h' => c :: delivered h'
  | _ :: h' => delivered h'
  end.

(** Viewer [v] records during [h]: it neither starts again nor stops. *)
Definition keeps_recording (v : nat) (h : list label) : Prop := ~ In (Start v) h /\ ~ In (Finish v) h.

(** What viewer [v] was sent at the end of its last interval: the entries made of the data, and what is known of processes and threads. *)
Definition last_sent (v : nat) (w : world) (es : list entry) (im : imap) : Prop :=
  exists x out, nth_error (w_views w) v = Some x /\ vw_out x = out ++ [(es, im)].

(** Every request of viewer [v] in [h] is answered in time. *)
Definition in_time (v : nat) (h : list label) : Prop := forall late, In (Ask v late) h -> late = None.
(** No other viewer gets to the end of collecting names in [h]. *)
Definition undisturbed (v : nat) (h : list label) : Prop := forall u, In (Swap u) h -> u = v.

(** The manager is connected to process [i]. *)
Definition connected (i : nat) (w : world) : Prop := exists t, In t (w_held w) /\ peer_of t w = i.
