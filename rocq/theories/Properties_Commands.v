(** C80 and C81: the commands [trace_configure] and [discover]. *)
From Coq Require Import String List Arith NArith ZArith Ascii Bool Permutation Sorting.Sorted.
Import ListNotations.
From Verif Require Import OMap_model UnixSystem_model TraceEvent_model Config_model Config_spec Commands_model Commands_spec Commands_proofs Commands_witness.

(** If every process answers in time, and can be asked what it is, then each process that can be configured ends up as asked, the others are as they were,
    and the report lists, in order of their numbers, every process that can be configured, once, as it is now.
    Missing: processes that are late; threads that have no name or that have not come by a tracepoint (see [C80_refuted]). *)
Theorem C80_partial : forall a l, Forall prompt l -> Forall introduces l -> Forall reachable l -> NoDup (map sv_pid l) ->
  exists l' r, trace_configure a l = (l', Some (0, r)) /\
    Forall2 (fun s s' => (serves trace_configurator s -> carried_out a s s') /\ (~ serves trace_configurator s -> s' = s)) l l' /\
    StronglySorted (fun x y => (ln_pid x <= ln_pid y)%Z) r /\
    exists p, Permutation (filter configurable l') p /\ Forall2 line_true p r.
Proof. exact configured. Qed.
Print Assumptions C80_partial.

(** Whatever goes wrong, without [-u] each process is left as it was or ends up as asked: nothing that is not listed is ever switched. The number that is shown for a
    process whose information is late is not initialised: it must not happen to be a listed one. *)
Theorem C80_safe_partial : forall a l, Forall reachable l -> ar_unmatched a = None -> (forall s junk, In s l -> sv_tell s = TooLate junk -> ~ asks a junk) ->
  Forall2 (fun s s' => s' = s \/ carried_out a s s') l (fst (trace_configure a l)).
Proof. exact never_wrong. Qed.
Print Assumptions C80_safe_partial.

(** The report when processes are late, as long as none fails: it is missing exactly if two processes that are different are taken for the same number; otherwise it lists, in order of the numbers that came, every
    process that answered to the change, once, with what came, and the number of those that did not is told. *)
Theorem C80_late_partial : forall a l os, Forall2 (learns a) l os ->
  (snd (trace_configure a l) = None <-> clash (fun e : state => fst (fst (fst e))) (entries os)) /\
  (forall n r, snd (trace_configure a l) = Some (n, r) ->
     n = counted os /\ StronglySorted (fun x y => (ln_pid x <= ln_pid y)%Z) r /\ exists p, Permutation (entries os) p /\ Forall2 line_for p r).
Proof. exact configured_late. Qed.
Print Assumptions C80_late_partial.

(** As it stands the property is false: (a) a listed thread that traces but has no name is not switched, and nothing is said; (b) with [-u off] a listed process that is
    late is switched off though it was to be switched on, and the report shows it under a number that is not its own; (c) one process without information ends the command half way,
    with a traceback instead of a report; (d) a process that is late when first asked is passed over in silence; (e) two processes that are late can keep all others from being reported. *)
Theorem C80_refuted :
  (exists s, prompt s /\ introduces s /\ reachable s /\ serves trace_configurator s /\
     (exists i t, nth_error (g_threads (sv_cfg s)) i = Some t /\ t_tid t = 12 /\ t_live t = true /\ t_cleanup t = true) /\
     let '(l, o) := trace_configure (on_off false None [12%Z]) [s] in map (fun s => thread_on s 1) l = [true] /\ exists r, o = Some (0, r)) /\
  (let '(l, o) := trace_configure (on_off true (Some false) [7%Z]) [with_tell (TooLate 0) s7] in
     map switch l = [false] /\ o = Some (0, [{| ln_pid := 0; ln_on := false; ln_name := []; ln_threads := [] |}])) /\
  (let '(l, o) := trace_configure (on_off false None [7%Z; 9%Z]) [s7; srv 8 "bare" [introspect; trace_configurator]; s9] in
     map switch l = [false; true; true] /\ o = None) /\
  (let '(l, o) := trace_configure (on_off false None [7%Z]) [with_first Late s7] in map switch l = [true] /\ o = Some (0, [])) /\
  (exists s, snd (trace_configure (on_off false None [7%Z]) [with_tell (TooLate 0) s7; with_tell (TooLate 0) s; s9]) = None).
Proof. exact configure_fails. Qed.
Print Assumptions C80_refuted.

(** If every process answers in time, and can be asked what it is, [discover] lists all of them, in order of their numbers, each with its number, name, threads and endpoints. *)
Theorem C81_partial : forall l, Forall prompt l -> Forall introduces l -> NoDup (map sv_pid l) ->
  exists r, discover l = Some r /\ StronglySorted (fun x y => (fst (fst (fst x)) <= fst (fst (fst y)))%Z) r /\
    exists l', Permutation l l' /\ Forall2 data_true l' r.
Proof. exact discovered. Qed.
Print Assumptions C81_partial.

(** With processes that are late: nothing is listed exactly if two of the entries have the same number and differ; otherwise each process is listed once, with what came of it. *)
Theorem C81_late_partial : forall l ds, Forall2 seen l ds ->
  (discover l = None <-> clash number ds) /\
  (forall r, discover l = Some r -> Permutation ds r /\ StronglySorted (fun x y => (number x <= number y)%Z) r).
Proof. exact discovered_late. Qed.
Print Assumptions C81_late_partial.

(** As it stands the property is false: one process that has no information to give, or is late when first asked, and nothing is listed of any process; a process that is late
    the second time is shown without endpoints; one whose information is late is shown with an arbitrary number and without a name. *)
Theorem C81_refuted :
  discover [s7; srv 8 "bare" [introspect]; s9] = None /\ discover [s7; with_first Late s8; s9] = None /\
  discover [with_second Late s8] = Some [((8%Z, txt "logger", sv_threads s8), [])] /\
  discover [with_tell (TooLate 3) s8] = Some [((3%Z, [], []), [introspect; process_info])].
Proof. exact discover_fails. Qed.
Print Assumptions C81_refuted.
