(** C64: what a viewer still gets of a recording one text of which is not UTF-8. *)
From Coq Require Import String List.
Import ListNotations.
From Verif Require Import OMap_model Json_model Json_spec Session_model Session_spec SessionLost_proofs.

(** The sources are stopped, the request is answered, the sources are finished and have given away their events; then come the whole pieces of 1000 events before the one with the bad text, and nothing else: the
    rest of that piece, all later events and the completion notice are lost, as the exception ends the server. *)
Theorem C64_lost_refuted : forall (F : Type) (fw : F -> bytes) fr (braces : json F),
  (forall t f, fr t = Some f -> float_ok fw fr f) ->
  forall (ev : list (list (json F))) t id, Forall (Forall (fun e => in_utf8 e -> wf fw fr e)) ev -> ~ Forall (Forall in_utf8) ev -> message fr t "Tracing.end" id ->
  exists a ps groups bad rest,
    process fw fr braces ev t = Throws (each EStop (length ev) ++ [ESend a] ++ each EFinish (length ev) ++ map ESend ps) /\ answer fr a id JNull /\
    Forall2 (data_piece fr) ps groups /\ Forall (fun g => length g = 1000) groups /\ concat ev = concat groups ++ bad ++ rest /\ length bad <= 1000 /\ ~ Forall in_utf8 bad.
Proof. exact @end_throws. Qed.
Print Assumptions C64_lost_refuted.
