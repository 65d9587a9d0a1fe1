(** C104. Concrete cases and the counterexamples are in [Whole_witness.v]. *)
From Coq Require Import String List Arith NArith ZArith Floats.SpecFloat Sorting.Permutation.
Import ListNotations.
From Verif Require Import Protocol_model Json_model Json_spec TraceEvent_model Names_model Native_model Collector_spec Record_model Record_spec EndToEnd_model EndToEnd_spec EndToEnd_witness File_spec File_witness.
From Verif Require Import Whole_model Whole_spec WholeFile_proofs WholeUse_proofs Whole_witness.

(** C104: at any moment, the file the recorder would write is a JSON list; besides what other sources add, each member shows an event of a tracepoint
    a thread has come to, none more often than it came there, and in program order if the times shown increase. *)
Theorem C104_sound : forall size pid what fw fr ls s k m before after,
  possible pid what ls -> times_written fw fr what -> names_utf8 m -> xrun size pid what ls x0 = Some s ->
  Forall (wf fw fr) before -> Forall (wf fw fr) after ->
  exists os, file_shows fw fr pid what m k s before after os /\
  forall p i, (exists l, subseq l (SS.come_to i (history p ls)) /\ Permutation (of_thread p i os) l) /\
              (rising what p (SS.come_to i (history p ls)) -> subseq (of_thread p i os) (SS.come_to i (history p ls))).
Proof. exact whole_sound. Qed.
Print Assumptions C104_sound.

(** C104: what a thread pushed during the recording, and maybe some it pushed before, is in the file. *)
Theorem C104_recorded : forall size pid what fw fr k live ls1 s1 ls2 s2 m before after,
  recording size pid what k live ls1 s1 ls2 s2 -> times_written fw fr what -> names_utf8 m ->
  Forall (wf fw fr) before -> Forall (wf fw fr) after ->
  exists os, file_shows fw fr pid what m k s2 before after os /\
  forall p i, live p = true -> exists old new, subseq old (SS.events (switches s1 p) i) /\ SS.events (switches s2 p) i = SS.events (switches s1 p) i ++ new /\
    Permutation (of_thread p i os) (old ++ new) /\ (rising what p (SS.events (switches s2 p) i) -> of_thread p i os = old ++ new).
Proof. exact whole_recorded. Qed.
Print Assumptions C104_recorded.

(** C104: while process and thread are switched on, every tracepoint the thread comes to and finds room at; while one of them is off, none but one it was in
    the middle of. Missing: that one (C104_late_refuted), and those that find no room (C104_room_refuted). *)
Theorem C104_while_partial : forall size pid what fw fr k live ls1 s1 ls2 s2 m before after,
  recording size pid what k live ls1 s1 ls2 s2 -> times_written fw fr what -> names_utf8 m ->
  Forall (wf fw fr) before -> Forall (wf fw fr) after ->
  exists os, file_shows fw fr pid what m k s2 before after os /\
  forall p i, live p = true -> exists new, has_of what p i ls1 ls2 os new /\
    (SS.throughout (fun u => S.s_proc u = true /\ SS.thread_on u i = true) (history p ls2) (switches s1 p) -> found_room p i ls2 ->
       new ++ SS.under_way (SS.place (switches s2 p) i) = SS.under_way (SS.place (switches s1 p) i) ++ SS.come_to i (history p ls2)) /\
    (SS.throughout (fun u => S.s_proc u = false) (history p ls2) (switches s1 p) -> new = [] \/ new = SS.past_process (SS.place (switches s1 p) i)) /\
    (SS.throughout (fun u => SS.thread_on u i = false) (history p ls2) (switches s1 p) -> new = [] \/ new = SS.past_both (SS.place (switches s1 p) i)).
Proof. exact whole_while. Qed.
Print Assumptions C104_while_partial.

(** C104: the same after a request that was answered, if nothing else switches. *)
Theorem C104_asked_partial : forall size pid what fw fr k live ls1 s1 ls2 s2 m before after,
  recording size pid what k live ls1 s1 ls2 s2 -> times_written fw fr what -> names_utf8 m ->
  Forall (wf fw fr) before -> Forall (wf fw fr) after ->
  exists os, file_shows fw fr pid what m k s2 before after os /\
  forall p i r u, live p = true -> answered p ls1 ls2 r u -> exists new, has_of what p i ls1 ls2 os new /\
    (SS.wanted_process r (S.s_proc u) = true -> SS.not_ended u i -> SS.wanted_of r u i = true -> found_room p i ls2 ->
       new ++ SS.under_way (SS.place (switches s2 p) i) = SS.under_way (SS.place (switches s1 p) i) ++ SS.come_to i (history p ls2)) /\
    (SS.wanted_process r (S.s_proc u) = false -> new = [] \/ new = SS.past_process (SS.place (switches s1 p) i)) /\
    (SS.not_ended u i -> SS.wanted_of r u i = false -> new = [] \/ new = SS.past_both (SS.place (switches s1 p) i)).
Proof. exact whole_asked. Qed.
Print Assumptions C104_asked_partial.

(** C104: a thread that comes to fewer tracepoints than its buffer has places always finds room. *)
Theorem C104_room : forall size pid what ls s p i,
  xrun size pid what ls x0 = Some s -> length (SS.come_to i (history p ls)) <= size - 1 -> found_room p i ls.
Proof. exact whole_room. Qed.
Print Assumptions C104_room.

(** C104: the answer says that the process is off, no event has been pushed, the recording begins, and the file shows an event. *)
Theorem C104_late_refuted : exists ls1 ls2 u s1 s2, recording 3 pidx whaty 0 (fun p => p =? 0) ls1 s1 ls2 s2 /\ answered 0 ls1 ls2 (S.Change true false []) u /\
  S.s_log (switches s1 0) = [(1, S.Change true false [], (false, [(7, true)]))] /\ SS.events (switches s1 0) 0 = [] /\ SS.past_process (SS.place (switches s1 0) 0) = [1] /\
  exists os, file_shows fwy fry pidx whaty namesy 0 s2 [namey] [] os /\ of_thread 0 0 os = [1].
Proof. exact (ex_intro _ off1 (ex_intro _ off2 (ex_intro _ u_off late))). Qed.
Print Assumptions C104_late_refuted.

(** C104: process and thread are on throughout, the thread comes to two tracepoints, the buffer is empty at the second, and the file shows the first only. *)
Theorem C104_room_refuted : exists ls1 ls2 s1 s2, recording 2 pidx whaty 0 (fun p => p =? 0) ls1 s1 ls2 s2 /\
  SS.throughout (fun u => S.s_proc u = true /\ SS.thread_on u 0 = true) (history 0 ls2) (switches s1 0) /\
  SS.come_to 0 (history 0 ls2) = [1; 2] /\ SS.place (switches s2 0) 0 = S.Idle /\
  exists os, file_shows fwy fry pidx whaty namesy 0 s2 [namey] [] os /\ of_thread 0 0 os = [1].
Proof. exact (ex_intro _ full1 (ex_intro _ full2 no_room)). Qed.
Print Assumptions C104_room_refuted.
