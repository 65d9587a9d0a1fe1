(** C114: what a recorder has recorded and the files it writes. Concrete cases are in [Dump_witness.v]. *)
From Coq Require Import List Arith ZArith Bool Permutation.
Import ListNotations.
Local Open Scope nat_scope.
From Verif Require Import OMap_model Json_model Json_spec Session_model Session_witness Dump_model Dump_spec Dump_proofs Dump_witness.

(** Sources that give away what they have recorded (not those for LTTng), and a history in which nothing goes wrong: everything recorded is found exactly once, in a file, in a text that was returned, or
    it still waits in a source. [fw], [fr]: see [Properties_Session.v]. *)
Theorem C114_partial : forall (F : Type) (fw : F -> bytes) fr ks ls s, Forall (fun k => k = false) ks -> (forall i e, In (Arrive i e) ls -> wf fw fr e) ->
  smooth (collect_text fw) ls (state0 ks) -> run (collect_text fw) ls (state0 ks) = Some s ->
  exists ps, all_files ps s /\ Permutation (recorded (collect_text fw) ls (state0 ks)) (pending s ++ concat (map (found (array fr)) (texts (log s))) ++ concat (map (found (array fr)) (contents ps s))).
Proof. exact kept_json. Qed.
Print Assumptions C114_partial.

(** What can be found nowhere will not be found again, whatever is done. The hypothesis on the reader: what it finds in the beginning of a text was put into the text. *)
Theorem C114_for_ever : forall (E A : Type) (render : list E -> option (list A)) reads,
  (forall l t n e, render l = Some t -> In e (found reads (firstn n t)) -> In e l) ->
  forall e ls s s', nowhere reads e s -> run render ls s = Some s' -> (forall i, ~ In (Arrive i e) ls) -> nowhere reads e s'.
Proof. exact @nowhere_for_ever. Qed.
Print Assumptions C114_for_ever.

(** A file that cannot be opened: the call returns as if it had been written, and all that was recorded is gone. *)
Theorem C114_unopened_refuted : forall (E A : Type) (render : list E -> option (list A)) reads s p n s' t,
  Forall takes (sources s) -> can s p = false -> render (pending s) = Some t -> step render (Write p n) s = Some s' ->
  log s' = log s ++ [Returned] /\ files s' = files s /\ forall e, only_pending reads e s -> nowhere reads e s'.
Proof. exact @unopened. Qed.
Print Assumptions C114_unopened_refuted.

(** A text that cannot be made (C64): the call throws, and all that was recorded is gone, also from a second call. *)
Theorem C114_threw_refuted : forall (E A : Type) (render : list E -> option (list A)) reads s s' p n l,
  Forall takes (sources s) -> l = Collect \/ l = Write p n -> render (pending s) = None -> step render l s = Some s' ->
  log s' = log s ++ [Threw] /\ files s' = files s /\ forall e, only_pending reads e s -> nowhere reads e s'.
Proof. exact @threw_lost. Qed.
Print Assumptions C114_threw_refuted.

(** A recorder that has the file set up to be written when it is destroyed and writes it before: at the end the file has the text of an empty recording, and what was recorded is gone. *)
Theorem C114_twice_refuted : forall (E A : Type) (render : list E -> option (list A)) reads,
  (forall l t n e, render l = Some t -> In e (found reads (firstn n t)) -> In e l) ->
  forall s p n m s', Forall takes (sources s) -> dump s = Some p -> can s p = true -> render [] <> None -> run render [Write p n; Destroy m] s = Some s' -> render (pending s) <> None ->
  forall e, only_pending reads e s -> nowhere reads e s' /\ forall t0, render [] = Some t0 -> files s' p = Some (firstn m t0).
Proof. exact @written_twice. Qed.
Print Assumptions C114_twice_refuted.

(** A new interval is begun before the last one was collected. *)
Theorem C114_begun_refuted : forall (E A : Type) (render : list E -> option (list A)) reads s s', step render Begin s = Some s' ->
  files s' = files s /\ log s' = log s /\ forall e, only_pending reads e s -> nowhere reads e s'.
Proof. exact @begun. Qed.
Print Assumptions C114_begun_refuted.

(** A file with a recording is written again and the disk is full, or the program dies: the old recording is gone and the new one cannot be read; in the first case the call returns as always. *)
Theorem C114_cut_refuted : exists s s1 s', run (collect_text fw0) [Begin; Arrive 0 (event0 1); Write 4 1000; Begin; Arrive 0 (event0 2)] (state0 [false]) = Some s /\
  option_map (array fr0) (files s 4) = Some (Some [event0 1]) /\ step (collect_text fw0) (Write 4 20) s = Some s1 /\ last (log s1) Died = Returned /\ option_map (array fr0) (files s1 4) = Some None /\
  step (collect_text fw0) (Dies 4 20) s = Some s' /\ option_map (array fr0) (files s' 4) = Some None.
Proof. exact cut_json. Qed.
Print Assumptions C114_cut_refuted.

(** Sources for LTTng give what they have recorded again each time. *)
Theorem C114_again_refuted : forall (E A : Type) (render : list E -> option (list A)) s t,
  Forall (fun y => k_keeps y = true) (sources s) -> gone s = false -> render (pending s) = Some t ->
  exists s', run render [Collect; Collect] s = Some s' /\ log s' = log s ++ [Text t; Text t].
Proof. exact @given_twice. Qed.
Print Assumptions C114_again_refuted.

(** A recorder that is destroyed writes what has not been collected to the file asked for last, and to no other. *)
Theorem C114_destroyed : forall (E A : Type) (render : list E -> option (list A)) ks ls s n s' p t,
  run render ls (state0 ks) = Some s -> asked ls = Some p -> can s p = true -> render (pending s) = Some t -> length t <= n -> step render (Destroy n) s = Some s' ->
  files s' p = Some t /\ (forall q, q <> p -> files s' q = files s q) /\ log s' = log s ++ [Destroyed].
Proof. exact @destroyed. Qed.
Print Assumptions C114_destroyed.

(** If the text cannot be made then (C64), the exception leaves the destructor: the program ends, and what was recorded is gone. *)
Theorem C114_terminated_refuted : forall (E A : Type) (render : list E -> option (list A)) reads ks ls s n s' p,
  run render ls (state0 ks) = Some s -> asked ls = Some p -> render (pending s) = None -> step render (Destroy n) s = Some s' ->
  log s' = log s ++ [Terminated] /\ files s' = files s /\ forall e, only_pending reads e s -> nowhere reads e s'.
Proof. exact @terminated. Qed.
Print Assumptions C114_terminated_refuted.

(** What is recorded: a source records exactly between the beginning of an interval and its end, by stopInterval or by the collection of what was recorded. *)
Theorem C114_interval : forall (E A : Type) (render : list E -> option (list A)) ks ls s i, run render ls (state0 ks) = Some s -> gone s = false -> i < length ks -> on_at i s = in_interval ls.
Proof. exact @on_interval. Qed.
Print Assumptions C114_interval.
