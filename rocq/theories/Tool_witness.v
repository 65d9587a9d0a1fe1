(** Concrete cases for C82, C83 and C84. *)
From Coq Require Import String List Arith NArith Ascii Bool Lia.
Import ListNotations.
From Verif Require Import Str_model UnixSystem_model Lines_model Tool_model Tool_spec Tool_proofs.

Definition text (s : string) : str := list_ascii_of_string s.
Definition line (s : string) : str := text s ++ [nl].

(** No schedule of the two threads of the program gets [halt] to return: the reading thread goes round and round, or waits. *)
Lemma stuck t : step Work t = Some t -> forall n, run (repeat Work n) t = Some t.
Proof. intros E. induction n as [|n IH]; cbn; auto. rewrite E. exact IH. Qed.

(** (a) [halt] is called before the reading thread has set [processing_]. *)
Definition early : list label := [Init (Runs_script []); Halt; Start].
Lemma early_hangs : exists t, run early tool0 = Some t /\ t_user t = UJoin /\ (forall n, run (repeat Work n) t = Some t) /\ step Join t = None.
Proof. eexists. split; [vm_compute; reflexivity|]. split; [reflexivity|]. split; [|reflexivity]. apply stuck. vm_compute. reflexivity. Qed.
(** (b) [halt] is called while a line is only partly there. *)
Definition midline : list label := [Init (Runs_script [Out (text "[10")]); Start; Speak 0; Work; Halt].
Lemma midline_hangs : exists t, run midline tool0 = Some t /\ t_user t = UJoin /\ (forall n, run (repeat Work n) t = Some t) /\ step Join t = None.
Proof. eexists. split; [vm_compute; reflexivity|]. split; [reflexivity|]. split; [|reflexivity]. apply stuck. vm_compute. reflexivity. Qed.
(** (c) [fork] fails. *)
Definition forkless : list label := [Init ForkFails; Start; Work; Work; Halt; Join; Kill].
Lemma everyone : exists t, run forkless tool0 = Some t /\ t_signals t = [Everyone].
Proof. eexists. split; [vm_compute; reflexivity|reflexivity]. Qed.
(** (d) The program waits for its children itself. *)
Definition waited : list label := [Init (Runs_script [Out (line "x")]); Start; Speak 0; Speak 0; Work; Work; Work; Reap 0; Halt; Join; Kill].
Lemma stranger : exists t, run waited tool0 = Some t /\ t_signals t = [Other 0].
Proof. eexists. split; [vm_compute; reflexivity|reflexivity]. Qed.

Lemma tool_fails :
  (exists h t, Forall ordinary h /\ run h tool0 = Some t /\ t_user t = UJoin /\ (forall n, run (repeat Work n) t = Some t) /\ step Join t = None /\ t_said t = []) /\
  (exists h t, Forall ordinary h /\ run h tool0 = Some t /\ t_user t = UJoin /\ (forall n, run (repeat Work n) t = Some t) /\ step Join t = None /\ t_lines t = []) /\
  (exists h t, run h tool0 = Some t /\ t_signals t = [Everyone]) /\
  (exists h t, run h tool0 = Some t /\ t_signals t = [Other 0]).
Proof.
  split; [|split; [|split]].
  - exists early. destruct early_hangs as (t & H1 & H2 & H3 & H4). exists t. split; [repeat first [apply Forall_nil|apply Forall_cons]; exact Logic.I|]. split; [exact H1|]. split; [exact H2|]. split; [exact H3|]. split; [exact H4|].
    vm_compute in H1. injection H1 as <-. reflexivity.
  - exists midline. destruct midline_hangs as (t & H1 & H2 & H3 & H4). exists t. split; [repeat first [apply Forall_nil|apply Forall_cons]; exact Logic.I|]. split; [exact H1|]. split; [exact H2|]. split; [exact H3|]. split; [exact H4|].
    vm_compute in H1. injection H1 as <-. reflexivity.
  - exists forkless. exact everyone.
  - exists waited. exact stranger.
Qed.

(** The hypotheses of the theorems on [halt] are met: two providers, one after the other, the second stopped within its output. *)
Definition life : list label :=
  [Init (Runs_script [Out (line "a"); Out (line "b")]); Start; Speak 0; Work; Halt; Work; Join; Kill; Die 0;
   Init (Runs_script [Out (text "c"); Out (line "d"); Err 7]); Start; Speak 1; Work].
Example returns_case :
  exists t1 t, run life tool0 = Some t1 /\ Forall ordinary life /\ t_worker t1 <> WBorn /\ run [Halt; Speak 1; Speak 1] t1 = Some t /\ between_lines t /\
    t_lines t1 = [line "a"] /\ t_signals t1 = [Own 0] /\ q_part (t_q t) <> None /\ in_table 0 t /\ in_table 1 t.
Proof.
  eexists. eexists. split; [vm_compute; reflexivity|]. split; [repeat first [apply Forall_nil|apply Forall_cons]; exact Logic.I|]. split; [discriminate|]. split; [vm_compute; reflexivity|].
  split; [right; left; exists (text "cd"); reflexivity|]. split; [reflexivity|]. split; [reflexivity|]. split; [discriminate|]. split; (eexists; split; [reflexivity|discriminate]).
Qed.

(** Diagnostics: a warning for each of many lost packets. *)
Definition warns : list write := repeat (Err 100) 656.
Definition noisy : list write := warns ++ [Out (line "x")].
Lemma warns_full : errs (repeat (Err 100) 655) = 65500%N.
Proof. vm_compute. reflexivity. Qed.
Lemma noisy_silent h t : run (Init (Runs_script noisy) :: h) tool0 = Some t -> current 0 t = true -> t_said t = [].
Proof.
  intros E C. assert (EN : noisy = repeat (Err 100) 655 ++ Err 100 :: [Out (line "x")]) by (vm_compute; reflexivity). rewrite EN in E.
  destruct (stalls [] _ _ _ h tool0 t eq_refl eq_refl E) as (r & Er); [rewrite warns_full; reflexivity|exact C|].
  assert (EO : outs (repeat (Err 100) 655) = []) by (vm_compute; reflexivity). rewrite EO in Er. symmetry in Er. now apply app_eq_nil in Er.
Qed.
Lemma diagnostics_stall : exists l, outs l <> [] /\ forall h t, run (Init (Runs_script l) :: h) tool0 = Some t -> current 0 t = true -> t_said t = [].
Proof. exists noisy. split; [vm_compute; discriminate|exact noisy_silent]. Qed.
Example quiet_case : exists t c, (errs [Out (line "a"); Err 65000; Out (line "b")] <= pipe_size)%N /\
  run [Init (Runs_script [Out (line "a"); Err 65000; Out (line "b")]); Start; Speak 0; Work; Speak 0] tool0 = Some t /\
  nth_error (t_children t) 0 = Some c /\ c_fate c = Runs /\ current 0 t = true /\ c_script c = [Out (line "b")].
Proof. eexists. eexists. split; [vm_compute; discriminate|]. split; [vm_compute; reflexivity|]. repeat split. Qed.

(** A program that makes two providers without the tool and then opens its files, serves and so on. *)
Definition program : list action := [Do 1; Provider false; Do 2; Provider false; Do 3].
Lemma program_copies : processes program = ([1; 2; 3], [[3]; [2; 3]; [3]]).
Proof. reflexivity. Qed.
Example single_case : in_vain [Do 1; Provider true; Do 2] = 0.
Proof. reflexivity. Qed.

(** A babeltrace that has been told to end, and has not ended yet, while nothing is being read. *)
Example told_case : exists t c, run [Init (Runs_script [Out (line "a")]); Start; Halt; Work; Join; Kill] tool0 = Some t /\ halted t /\
  nth_error (t_children t) 0 = Some c /\ c_fate c = Runs /\ current 0 t = false /\ c_signalled c = true.
Proof. eexists. eexists. split; [vm_compute; reflexivity|]. split; [split; [reflexivity|split; reflexivity]|]. split; [reflexivity|]. split; [reflexivity|]. split; reflexivity. Qed.
