(** C96: programs that make themselves known with [DefaultExposer]. *)
From Coq Require Import String List Arith NArith ZArith Ascii Bool Permutation Sorting.Sorted.
Import ListNotations.
From Verif Require Import Commands_model Expose_model Expose_spec Expose_proofs Expose_witness.
Open Scope list_scope.

(** In every history in which no process makes an exposer while it has one, and in which names are given or [sys.argv] is left alone: [discover] lists, in order of their numbers and each once, exactly
    the processes that have an exposer, each under its name, with the names of its threads and the four endpoints. In whatever order the processes are met.
    Missing: the rest of C96, see the theorems below. *)
Theorem C96_partial h w l : once h -> argv_kept h \/ all_named h -> reached h w -> Permutation (servers w) l ->
  exists r, discover l = Some r /\ StronglySorted (fun x y => (fst (fst (fst x)) <= fst (fst (fst y)))%Z) r /\ NoDup (map (fun d => fst (fst (fst d))) r) /\
    (forall pid name, shown pid h = Some name -> exists d, In d r /\ listed_as pid name h d) /\
    (forall d, In d r -> exists pid name, shown pid h = Some name /\ listed_as pid name h d).
Proof. exact (exposed h w l). Qed.
Print Assumptions C96_partial.

(** No process that makes itself known this way can be configured: whatever a user asks for, [trace_configure] changes nothing, reports nothing and does not fail either. *)
Theorem C96_configure_refuted h w a l : reached h w -> Permutation (servers w) l -> trace_configure a l = (l, Some (0, [])).
Proof. exact (not_configured h w a l). Qed.
Print Assumptions C96_configure_refuted.

(** A program that makes an exposer while it has one is aborted, and with it goes the one it had. *)
Theorem C96_again_refuted h w pid name again : once h -> argv_kept h \/ all_named h -> reached h w -> shown pid h = Some name ->
  (exists w' o, step (EExpose pid again) w = Some (w', o)) ->
  step (EExpose pid again) w = Some (gone pid w, Aborted).
Proof. exact (second_aborts h w pid name again). Qed.
Print Assumptions C96_again_refuted.

(** The name that is used when none is given is that of the moment of the import, not that of the program. *)
Theorem C96_name_refuted : exists w p, reached dash_m w /\ get 20 w = Some p /\ hd [] (p_argv p) = txt "/srv/planner/__main__.py" /\
  discover (servers w) = Some [((20%Z, txt "-m", []), four)].
Proof. exact wrong_name. Qed.
Print Assumptions C96_name_refuted.

(** In a program without arguments the module cannot be imported, although a name could be given later. *)
Theorem C96_import_refuted : exists w, reached [EStart 20 []] w /\ step (EImport 20) w = Some (w, IndexError) /\
  forall w', step (EArgv 20 [txt "robot"]) w = Some (w', Fine) -> exists w'', step (EImport 20) w' = Some (w'', Fine).
Proof. exact no_import. Qed.
Print Assumptions C96_import_refuted.
