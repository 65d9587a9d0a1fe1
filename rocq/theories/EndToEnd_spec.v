(** What C47 says, in terms of what the threads of the traced processes do. *)
From Coq Require Import List Arith NArith ZArith Ascii Bool Sorting.Sorted Sorting.Permutation.
Import ListNotations.
From Verif Require Import Protocol_model TraceEvent_model Names_model Collector_spec Native_model Native_spec Cbor_spec EndToEnd_model.

(** The steps of process [p] in a history. *)
Definition steps_of (p : nat) (ls : list elabel) : list C.clabel := flat_map (fun l => match l with Col q a => if q =? p then [a] else [] | _ => [] end) ls.
(** The tracepoints executed by thread [i] of process [p], in program order. *)
Definition traced (p i : nat) (ls : list elabel) : list C.event := emissions i (steps_of p ls).

(** No tracepoint of process [p] meets a full buffer. *)
Fixpoint roomy (cap : nat) (ls : list C.clabel) (s : C.cstate) : Prop :=
  match ls with
  | [] => True
  | l :: ls' => match l with C.TEmit i _ => forall t, nth_error (C.cs_threads s) i = Some t -> length (C.th_buf t) < cap | _ => True end
                /\ match C.cstep cap l s with Some s' => roomy cap ls' s' | None => True end
  end.

(** The recording program is connected to process [p]: its connection is accepted, and there is the endpoint to receive events. *)
Definition connected (p : nat) (s : esys) : Prop :=
  U.s_conn (e_net s p) 0 = U.Accepted /\ U.c_open (U.s_cl (e_net s p) 0) = true /\ U.mem receiver (U.c_eps (U.s_cl (e_net s p) 0)) = true.
(** Source [i] of the recording program is recording. *)
Definition recording (i : nat) (s : esys) : Prop := P.rec_of i (e_prov s) = true.
(** It is not started, stopped or finished in a history. *)
Definition undisturbed (i : nat) (ls : list elabel) : Prop := (forall b, ~ In (Prv (P.LStore i b)) ls) /\ ~ In (Prv (P.LClear i)) ls.
(** Nothing of process [p] is under way: not in the buffers or the sender, nor queued, nor on the wire. *)
Definition drained (p : nat) (s : esys) : Prop :=
  (forall i t, nth_error (C.cs_threads (e_col s p)) i = Some t -> C.th_buf t = []) /\ in_hand (e_col s p) = [] /\
  (forall n d, In (n, d) (U.s_queue (e_net s p)) -> n <> receiver) /\
  (forall m g, In (U.Full m g) (U.c_in (U.s_cl (e_net s p) 0)) -> ep_name m <> receiver).
(** All calls of [incoming] have returned. *)
Definition settled (s : esys) : Prop := forall c, In c (P.p_inc (e_prov s)) -> P.c_look c = [] /\ P.c_todo c = [].

(** An event of an interval, by its origin: the process, the thread and the content. The event as the recording program gets it. *)
Definition origin := (nat * C.event)%type.
Definition received_as (pid : nat -> Z) (what : nat -> nat -> tev) (s : esys) (o : origin) (r : rev_t) : Prop :=
  exists t, nth_error (C.cs_threads (e_col s (fst o))) (fst (snd o)) = Some t /\
    r = (pid (fst o), N.of_nat (C.th_tid t), what (fst o) (snd (snd o))).
(** Entry [e] shows the event [o]: time, process, thread id, phase, scope, name. *)
Definition shown (pid : nat -> Z) (what : nat -> nat -> tev) (m : mapping) (s : esys) (o : origin) (e : entry) : Prop :=
  exists r, received_as pid what s o r /\ shows m r e.
(** Those of thread [i] of process [p]. *)
Definition of_origin (p i : nat) (os : list origin) : list C.event := of_thread i (map snd (filter (fun o => fst o =? p) os)).
(** The times shown increase along a list of contents. *)
Definition increasing (what : nat -> nat -> tev) (p : nat) (l : list C.event) : Prop :=
  StronglySorted (fun a b => Floats.SpecFloat.SFltb (ts_of (te_time (what p (snd a)))) (ts_of (te_time (what p (snd b)))) = true) l.

(** The contents are events this code base makes; thread ids are 64-bit numbers. *)
Definition contents_ok (what : nat -> nat -> tev) : Prop := forall p x, proper (what p x) /\ fits (what p x).
Definition ids_ok (ls : list elabel) : Prop := forall p tid, In (Col p (C.TStart tid)) ls -> (N.of_nat tid < 2 ^ 64)%N.
(** Steps by which a thread gets its buffer or traces an event. *)
Definition adds (l : elabel) : bool := match l with Col _ (C.TStart _) | Col _ (C.TEmit _ _) => true | _ => false end.
(** Process numbers are positive numbers of 32 bits, and there are no more threads and events than a 64-bit number can tell. *)
Definition sensible (pid : nat -> Z) (what : nat -> nat -> tev) (ls : list elabel) : Prop :=
  (forall p, process_number (pid p)) /\ contents_ok what /\ ids_ok ls /\ (N.of_nat (List.length (filter adds ls)) < 2 ^ 64)%N.
