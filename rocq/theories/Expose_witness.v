(** Concrete cases for C96. *)
From Coq Require Import String List Arith NArith ZArith Ascii Bool Permutation.
Import ListNotations.
From Verif Require Import OMap_model UnixSystem_model TraceEvent_model Config_model Commands_model Expose_model Expose_spec Expose_proofs.
Open Scope list_scope.

(** Two programs; one names itself and a thread and traces something, the other uses its own name, and makes a second exposer after the first was dropped. *)
Definition days : list ev := rev
  [EStart 20 [txt "planner.py"; txt "-v"]; EStart 10 [txt "camera.py"]; EImport 20; EImport 10; EExpose 20 None; EExpose 10 (Some (txt "camera"));
   ENamed 10 7 (txt "main"); ENamed 10 5 (txt "grab"); EConfig 10 (GStart 7); EConfig 10 (GTrace 0 (TpEntry 5) 100 true); EDrop 20; EExpose 20 None].
Definition days_world : world := match run (rev days) world0 with Some w => w | None => [] end.
Example days_ok : once days /\ argv_kept days /\ reached days days_world /\ shown 20 days = Some (txt "planner.py") /\ shown 10 days = Some (txt "camera") /\
  discover (servers days_world) = Some [((10%Z, txt "camera", [(5, txt "grab"); (7, txt "main")]), four); ((20%Z, txt "planner.py", []), four)].
Proof.
  split; [cbn; repeat split|]. split; [|split; [|split; [|split]]]; try (vm_compute; reflexivity).
  intros pid argv H. cbn in H. repeat (destruct H as [H|H]; [discriminate H|]). exact H.
Qed.
(** Here tracing of process 10 is switched on and a user wants it off. *)
Example days_on : map (fun s => g_process (sv_cfg s)) (servers days_world) = [true; true] /\
  trace_configure {| ar_state := false; ar_unmatched := Some false; ar_ids := [10%Z] |} (servers days_world) = (servers days_world, Some (0, [])).
Proof. vm_compute. auto. Qed.
Example days_again : snd (match step (EExpose 20 None) days_world with Some r => r | None => ([], Fine) end) = Aborted.
Proof. vm_compute. reflexivity. Qed.

(** [python -m planner]: while the package is looked for, [sys.argv[0]] is ["-m"], and this is when its [__init__.py] imports the module; then the name of the file is put there. *)
Definition dash_m : list ev := rev [EStart 20 [txt "-m"]; EImport 20; EArgv 20 [txt "/srv/planner/__main__.py"]; EExpose 20 None].
Theorem wrong_name : exists w p, reached dash_m w /\ get 20 w = Some p /\ hd [] (p_argv p) = txt "/srv/planner/__main__.py" /\
  discover (servers w) = Some [((20%Z, txt "-m", []), four)].
Proof.
  exists (match run (rev dash_m) world0 with Some w => w | None => [] end). eexists. split; [vm_compute; reflexivity|].
  split; [vm_compute; reflexivity|]. split; vm_compute; reflexivity.
Qed.
(** Without arguments (an embedded interpreter) the module cannot be imported. *)
Theorem no_import : exists w, reached [EStart 20 []] w /\ step (EImport 20) w = Some (w, IndexError) /\
  forall w', step (EArgv 20 [txt "robot"]) w = Some (w', Fine) -> exists w'', step (EImport 20) w' = Some (w'', Fine).
Proof.
  eexists. split; [vm_compute; reflexivity|]. split; [vm_compute; reflexivity|].
  intros w' H. vm_compute in H. injection H as <-. eexists. vm_compute. reflexivity.
Qed.
