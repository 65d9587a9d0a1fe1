(** C82, C83 and C84: the program that shows LTTng's events, and the provider that runs it. *)
From Coq Require Import List Arith NArith Ascii Bool.
Import ListNotations.
From Verif Require Import Str_model Lines_model Tool_model Tool_spec Tool_proofs Tool_witness.

(** The provider can be made and destroyed again and again, the program is never terminated. *)
Theorem C82_alive : forall h t, run h tool0 = Some t -> t_dead t = false.
Proof. exact never_dead. Qed.
(** If the reading thread was running when [halt] was called, and babeltrace is not in the middle of a line, two steps of the reading thread are enough for [halt] to return,
    whatever babeltrace does or does not do.
    Missing: the other cases, in which it may wait for ever ([C82_refuted]). *)
Theorem C82_partial : forall h1 h2 t1 t, run h1 tool0 = Some t1 -> t_worker t1 <> WBorn -> run (Halt :: h2) t1 = Some t -> ~ In Join h2 -> between_lines t ->
  exists k fin t', k <= 2 /\ (fin = [Join] \/ fin = [Join; Kill]) /\ run (repeat Work k ++ fin) t = Some t' /\ halted t'.
Proof. exact halt_returns. Qed.
(** After that, every babeltrace that still runs has been told to end. *)
Theorem C82_ended : forall h t i c, run h tool0 = Some t -> nth_error (t_children t) i = Some c -> c_fate c = Runs -> current i t = false -> c_signalled c = true.
Proof. exact told_to_end. Qed.
(** If [fork] never fails and the program does not wait for children itself, only the library's own children are sent a signal. *)
Theorem C82_own_partial : forall h t, Forall ordinary h -> run h tool0 = Some t -> forall x, In x (t_signals t) -> exists i, x = Own i.
Proof. exact only_own. Qed.
(** Every babeltrace that was ever started stays in the table of processes, also after [halt], and also when it has ended: nobody waits for it. *)
Theorem C82_left : forall h1 l h2 t1 t, Forall ordinary (h1 ++ Init (Runs_script l) :: h2) -> run h1 tool0 = Some t1 -> t_proc t1 = None ->
  run (Init (Runs_script l) :: h2) t1 = Some t -> in_table (length (t_children t1)) t.
Proof. exact always_left. Qed.
(** As it stands the property is false: [halt] hangs (a) if it is called before the reading thread has begun, (b) if babeltrace has printed part of a line; (c) if [fork]
    fails, every process of the user is sent a signal; (d) if the program has waited for its children, whoever has the number of the child now is sent a signal. *)
Theorem C82_refuted :
  (exists h t, Forall ordinary h /\ run h tool0 = Some t /\ t_user t = UJoin /\ (forall n, run (repeat Work n) t = Some t) /\ step Join t = None /\ t_said t = []) /\
  (exists h t, Forall ordinary h /\ run h tool0 = Some t /\ t_user t = UJoin /\ (forall n, run (repeat Work n) t = Some t) /\ step Join t = None /\ t_lines t = []) /\
  (exists h t, run h tool0 = Some t /\ t_signals t = [Everyone]) /\
  (exists h t, run h tool0 = Some t /\ t_signals t = [Other 0]).
Proof. exact tool_fails. Qed.

(** A program whose providers all find the tool remains one process, which does what it should. *)
Theorem C83_partial : forall p, in_vain p = 0 -> processes p = (deeds p, []).
Proof. exact single. Qed.
(** If it is not found, a second process does all that the program does after that; with [n] such providers there are two to the power of [n] processes. *)
Theorem C83_copies : forall p, fst (processes p) = deeds p /\ S (length (snd (processes p))) = 2 ^ in_vain p.
Proof. exact copies. Qed.
Theorem C83_second : forall p1 p2, In (deeds p2) (snd (processes (p1 ++ Provider false :: p2))).
Proof. exact second. Qed.
Theorem C83_refuted : processes [Do 1; Provider false; Do 2; Provider false; Do 3] = ([1; 2; 3], [[3]; [2; 3]; [3]]).
Proof. exact program_copies. Qed.

(** As long as all its diagnostics fit into one pipe, babeltrace can always go on, and what it has printed is what it should have.
    Missing: more diagnostics ([C84_stalls]). *)
Theorem C84_partial : forall h1 l h2 t1 t, run h1 tool0 = Some t1 -> t_proc t1 = None -> run (Init (Runs_script l) :: h2) t1 = Some t -> (errs l <= 65536)%N ->
  forall c, nth_error (t_children t) (length (t_children t1)) = Some c -> c_fate c = Runs -> step (Speak (length (t_children t1))) t <> None /\
  (current (length (t_children t1)) t = true -> outs l = t_said t ++ outs (c_script c)).
Proof. exact keeps_going. Qed.
(** What comes after the diagnostics that do not fit is never printed, in no continuation. *)
Theorem C84_stalls : forall h1 l1 n l2 h2 t1 t, run h1 tool0 = Some t1 -> t_proc t1 = None -> run (Init (Runs_script (l1 ++ Err n :: l2)) :: h2) t1 = Some t -> (65536 < errs l1 + n)%N ->
  current (length (t_children t1)) t = true -> exists r, outs l1 = t_said t ++ r.
Proof. exact stalls. Qed.
Theorem C84_refuted : exists l, outs l <> [] /\ forall h t, run (Init (Runs_script l) :: h) tool0 = Some t -> current 0 t = true -> t_said t = [].
Proof. exact diagnostics_stall. Qed.

Print Assumptions C82_alive.
Print Assumptions C82_partial.
Print Assumptions C82_ended.
Print Assumptions C82_own_partial.
Print Assumptions C82_left.
Print Assumptions C82_refuted.
Print Assumptions C83_partial.
Print Assumptions C83_copies.
Print Assumptions C83_second.
Print Assumptions C83_refuted.
Print Assumptions C84_partial.
Print Assumptions C84_stalls.
Print Assumptions C84_refuted.
