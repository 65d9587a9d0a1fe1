(** What C104 says, in terms of what the threads of the traced processes do, of the switches, and of what is read in the file. *)
From Coq Require Import String List Arith NArith ZArith Bool Floats.SpecFloat Sorting.Sorted Sorting.Permutation.
Import ListNotations.
From Verif Require Import Protocol_model Json_model Json_spec TraceEvent_model Names_model Collector_spec Native_model Native_spec Cbor_spec Record_model Record_spec EndToEnd_model EndToEnd_spec Whole_model.
From Verif Require Session_model.
From Verif Require Switch_spec Rings_spec.
Module SS := Switch_spec.

(** The steps of process [p] in a history, and what these are to the switches: threads, tracepoints, loads and stores of flags, requests. *)
Definition own_steps (p : nat) (ls : list xlabel) : list wlabel := flat_map (fun l => match l with XProc q a => if q =? p then [a] else [] | _ => [] end) ls.
Definition switching (l : wlabel) : list S.label :=
  match l with
  | WStart tid => [S.Start tid]
  | WEnd i => [S.End i]
  | WEnter i e => [S.Enter i e]
  | WSwitch a => [a]
  | WReturn i _ room => [S.Push i room]
  | _ => []
  end.
Definition history (p : nat) (ls : list xlabel) : list S.label := flat_map switching (own_steps p ls).

(** The switches of process [p] as they are. *)
Definition switches (s : xsys) (p : nat) : S.state := w_switch (x_proc s p).

(** The recording program is connected to process [p]; source [k] of it records; is left alone; all calls of [incoming] have returned. *)
Definition reached (p : nat) (s : xsys) : Prop :=
  U.s_conn (x_net s p) 0 = U.Accepted /\ U.c_open (U.s_cl (x_net s p) 0) = true /\ U.mem receiver (U.c_eps (U.s_cl (x_net s p) 0)) = true.
Definition records (k : nat) (s : xsys) : Prop := P.rec_of k (x_prov s) = true.
Definition left_alone (k : nat) (ls : list xlabel) : Prop := (forall b, ~ In (XPrv (P.LStore k b)) ls) /\ ~ In (XPrv (P.LClear k)) ls.
Definition all_returned (s : xsys) : Prop := forall c, In c (P.p_inc (x_prov s)) -> P.c_look c = [] /\ P.c_todo c = [].
(** Of process [p], all that was put in the buffers has been broadcast, and nothing of it is queued or on the wire. *)
Definition arrived (p : nat) (s : xsys) : Prop :=
  (forall j t, nth_error (R.rs_threads (w_rings (x_proc s p))) j = Some t -> Rings_spec.sent_of j (w_rings (x_proc s p)) = map Some (Rings_spec.accepted_of t)) /\
  (forall n d, In (n, d) (U.s_queue (x_net s p)) -> n <> receiver) /\
  (forall m g, In (U.Full m g) (U.c_in (U.s_cl (x_net s p) 0)) -> ep_name m <> receiver).

(** An event by its origin: process, thread, content. Member [j] of the file shows it: time, process, thread id, phase, scope, name. *)
Record from := { f_process : nat; f_thread : nat; f_content : nat }.
Definition shows_event (pid : nat -> Z) (what : nat -> nat -> tev) (m : mapping) (s : xsys) (o : from) (j : json spec_float) : Prop :=
  exists t e, nth_error (S.s_threads (switches s (f_process o))) (f_thread o) = Some t /\
    shows m (pid (f_process o), N.of_nat (S.t_id t), what (f_process o) (f_content o)) e /\ event_shown e j.
(** The contents of those of thread [i] of process [p]. *)
Definition of_thread (p i : nat) (os : list from) : list nat :=
  map f_content (filter (fun o => (f_process o =? p) && (f_thread o =? i)) os).
(** The times shown increase along a list of contents. *)
Definition rising (what : nat -> nat -> tev) (p : nat) (l : list nat) : Prop :=
  StronglySorted (fun a b => SFltb (ts_of (te_time (what p a))) (ts_of (te_time (what p b))) = true) l.

(** Steps of the threads of the traced processes, and of requests to these; not those of the senders. *)
Definition by_process (l : xlabel) : bool := match l with XProc _ (WSender _) => false | XProc _ _ => true | _ => false end.
(** Process numbers, contents and thread ids are what they can be; these steps are no more than a 64-bit number can tell. *)
Definition possible (pid : nat -> Z) (what : nat -> nat -> tev) (ls : list xlabel) : Prop :=
  (forall p, process_number (pid p)) /\ contents_ok what /\ (forall p tid, In (XProc p (WStart tid)) ls -> (N.of_nat tid < 2 ^ 64)%N) /\ (N.of_nat (List.length (filter by_process ls)) < 2 ^ 64)%N.

(** The recorder's file, which it writes when source [k] and others ([before], [after]) are finished, can be read, and shows the events [os] and no others. *)
Definition file_shows (fw : spec_float -> bytes) (fr : bytes -> option spec_float) (pid : nat -> Z) (what : nat -> nat -> tev) (m : mapping) (k : nat) (s : xsys)
  (before after : list (json spec_float)) (os : list from) : Prop :=
  exists res t js, finished m k s = FEntries res /\ Session_model.collect_text fw (before ++ map entry_json res ++ after) = Some t /\
    parse fr t = Some (JArr (before ++ js ++ after)) /\ Forall2 (shows_event pid what m s) os js.
(** A recording from [s1] to [s2]: source [k] records and is left alone; what the processes [live] traced has come through. *)
Record recording (size : nat) (pid : nat -> Z) (what : nat -> nat -> tev) (k : nat) (live : nat -> bool) (ls1 : list xlabel) (s1 : xsys) (ls2 : list xlabel) (s2 : xsys) : Prop := {
  rc_possible : possible pid what (ls1 ++ ls2);
  rc_before : xrun size pid what ls1 x0 = Some s1;
  rc_during : xrun size pid what ls2 s1 = Some s2;
  rc_records : records k s1;
  rc_left : left_alone k ls2;
  rc_returned : all_returned s2;
  rc_live : forall p, live p = true -> reached p s1 /\ reached p s2 /\ arrived p s2
}.

(** Process [p] was in state [u] when request [r] came to it; it was answered before the recording began, and nothing else has switched since then. *)
Definition answered (p : nat) (ls1 ls2 : list xlabel) (r : S.request) (u : S.state) : Prop :=
  exists h0 h hs h2, history p ls1 = h0 ++ SS.handling h r hs ++ h2 /\ S.run h0 S.state0 = Some u /\ SS.no_requests u /\
    ~ In (S.Answer h) hs /\ Forall SS.quiet (hs ++ h2 ++ history p ls2).
(** The file [os] has, of thread [i] of process [p], besides events from before the recording that were under way ([old]), the events [new], once each. *)
Definition has_of (what : nat -> nat -> tev) (p i : nat) (ls1 ls2 : list xlabel) (os : list from) (new : list nat) : Prop :=
  exists old, subseq old (SS.come_to i (history p ls1)) /\ Permutation (of_thread p i os) (old ++ new) /\
    (rising what p (SS.come_to i (history p (ls1 ++ ls2))) -> of_thread p i os = old ++ new).
(** No tracepoint of thread [i] found its buffer full. *)
Definition found_room (p i : nat) (ls : list xlabel) : Prop := Forall (SS.roomy i) (history p ls).
