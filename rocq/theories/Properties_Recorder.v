(** Properties of the life of a recorder: C36, C65. *)
From Coq Require Import String List Arith Bool.
Import ListNotations.
From Verif Require Import Json_model Json_spec Session_model Recorder_model Recorder_spec Recorder_proofs Recorder_witness.

(** A recorder that is destroyed without having been started ends the process; so does one that was stopped before; stopping twice throws;
    and after stop the sources are still there. *)
Theorem C36_refuted : forall (E T : Type) (render : list E -> option T) ev,
  life render [RDestroy ev] = FTerminated
  /\ life render [RStart; RStop; RDestroy ev] = FTerminated
  /\ (exists r, life render [RStart; RStop; RStop] = FAlive r [] true)
  /\ (exists r, life render [RAddProvider; RStart; RStop; RStartInterval] = FAlive r [XMake 0 0; XStart 0] false).
Proof. exact @life_witness. Qed.
Print Assumptions C36_refuted.

(** Exactly the histories in which every stop follows a start not yet stopped are free of exceptions and termination (the recording itself
    can be written, see C64). Missing: all others. *)
Theorem C36_safe_partial : forall (E T : Type) (render : list E -> option T), (forall l, render l <> None) ->
  forall os, alive_ops os -> safe (life render os) <-> well_paired os.
Proof. exact @safe_iff. Qed.
Print Assumptions C36_safe_partial.
(** And with the destruction: exactly if it is running then. *)
Theorem C36_destroy_partial : forall (E T : Type) (render : list E -> option T), (forall l, render l <> None) ->
  forall os ev, alive_ops os -> safe (life render (os ++ [RDestroy ev])) <-> well_paired os /\ started os = true.
Proof. exact @whole_life_iff. Qed.
Print Assumptions C36_destroy_partial.
Theorem C36_terminates_partial : forall (E T : Type) (render : list E -> option T), (forall l, render l <> None) ->
  forall os ev, alive_ops os -> life render (os ++ [RDestroy ev]) <> FTerminated <-> started os = true.
Proof. exact @destroy_iff. Qed.
Print Assumptions C36_terminates_partial.

(** Starting a started recorder changes nothing. *)
Theorem C36_twice_partial : forall (E T : Type) (render : list E -> option T) os, alive_ops os -> started os = true ->
  life render (os ++ [RStart]) = life render os.
Proof. exact @start_twice. Qed.
Print Assumptions C36_twice_partial.

(** From a start to the next stop, whatever else is called, including further starts: one new source has been made of each provider
    there was, in their order, and these are its sources. *)
Theorem C36_sources_partial : forall (E T : Type) (render : list E -> option T) a b,
  alive_ops (a ++ b) -> started a = false -> (forall x y, b = x ++ RStop :: y -> False) ->
  exists r0 es t0 xs srcs t, life render a = FAlive r0 es t0 /\ makes xs = combine srcs (seq 0 (providers a)) /\ length srcs = providers a /\ NoDup srcs
    /\ (forall s, In s srcs -> ~ In s (map fst (makes es)))
    /\ exists r, life render (a ++ RStart :: b) = FAlive r (es ++ xs) t /\ r_sources r = srcs /\ r_running r = true.
Proof. exact @start_set. Qed.
Print Assumptions C36_sources_partial.
(** The start and the end of an interval, collecting and writing reach all sources it has. *)
Theorem C36_interval_partial : forall (E T : Type) (render : list E -> option T) os r es t,
  life render os = FAlive r es t ->
  life render (os ++ [RStartInterval]) = FAlive r (es ++ map XStart (r_sources r)) t
  /\ life render (os ++ [RStopInterval]) = FAlive r (es ++ map XStop (r_sources r)) t
  /\ forall ev x, render (concat (map ev (r_sources r))) = Some x ->
     life render (os ++ [RCollect ev]) = FAlive r (es ++ (map XStop (r_sources r) ++ map XFinish (r_sources r)) ++ [XText x]) t
     /\ forall f, life render (os ++ [RWrite f ev]) = FAlive r (es ++ (map XStop (r_sources r) ++ map XFinish (r_sources r)) ++ [XFile f x]) t.
Proof. exact @interval_reaches. Qed.
Print Assumptions C36_interval_partial.

(** A recorder with a file set up that was stopped before it is destroyed writes nothing: the process ends. *)
Theorem C65_refuted : forall (E T : Type) (render : list E -> option T) ev f,
  life render [RAddProvider; RSetupDump f; RStart; RStartInterval; RStopInterval; RStop; RDestroy ev] = FTerminated.
Proof. exact @dump_witness. Qed.
Print Assumptions C65_refuted.

(** If it is running when destroyed: all its sources are stopped, then finished, in order, and the last file set up gets the array of all
    their events. Missing: when it is not running. *)
Theorem C65_written_partial : forall (F : Type) (fw : F -> bytes) fr os r es t f (ev : nat -> list (json F)),
  life (collect_text fw) os = FAlive r es t -> r_running r = true -> alive_ops os -> dump_file os None = Some f ->
  Forall (wf fw fr) (concat (map ev (r_sources r))) ->
  exists x, parse fr x = Some (JArr (concat (map ev (r_sources r))))
    /\ life (collect_text fw) (os ++ [RDestroy ev]) = FGone (es ++ (map XStop (r_sources r) ++ map XFinish (r_sources r)) ++ [XFile f x]) t.
Proof. exact @dump_lemma. Qed.
Print Assumptions C65_written_partial.

(** If the text of the events cannot be made (C64): collecting and writing throw, with the sources stopped and finished and no file opened; destroying ends the process. *)
Theorem C65_unmade_refuted : forall (E T : Type) (render : list E -> option T) os r es t ev,
  life render os = FAlive r es t -> render (concat (map ev (r_sources r))) = None ->
  life render (os ++ [RCollect ev]) = FAlive r (es ++ map XStop (r_sources r) ++ map XFinish (r_sources r)) true
  /\ (forall f, life render (os ++ [RWrite f ev]) = FAlive r (es ++ map XStop (r_sources r) ++ map XFinish (r_sources r)) true)
  /\ (alive_ops os -> dump_file os None <> None -> life render (os ++ [RDestroy ev]) = FTerminated).
Proof. exact @unmade. Qed.
Print Assumptions C65_unmade_refuted.
