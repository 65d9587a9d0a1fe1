(** Concrete programs for C109. *)
From Coq Require Import List Arith Lia.
From Verif Require Import Exit_model Exit_spec Exit_proofs.
Import ListNotations.

(** Object 0 has a mark in its destructor, object 1 registers a name, object 2 does nothing. *)
Definition b1 (k : nat) : list use := match k with 0 => [UTrace Mark] | 1 => [UStrings] | _ => [] end.
Definition drops (n t : nat) : list label := repeat (Drop t) n.

(** A thread makes object 0, then traces, and ends; main waits for it. *)
Lemma early_w : run (fun _ => [UTrace Mark]) ([Start 1; Local 1 0; Do 1 (UTrace Mark); Return 1] ++ repeat (Drop 1) 6) state0 = Undefined.
Proof. vm_compute. reflexivity. Qed.
(** Main makes static object 0 after its first mark, and returns. *)
Lemma static_w : run (fun _ => [UTrace Mark]) ([Do 0 (UTrace Mark); Static 0 0; Return 0] ++ repeat (Drop 0) 5 ++ [End 0; Exit]) state0 = Undefined.
Proof. vm_compute. reflexivity. Qed.
(** A thread goes on tracing while main returns. *)
Lemma running_w : run (fun _ => []) ([Start 1; Do 1 (UTrace Mark); Return 0; End 0; Exit; Do 1 (UTrace Mark)]) state0 = Undefined.
Proof. vm_compute. reflexivity. Qed.
(** A thread with a name ends after main. *)
Lemma named_w : run (fun _ => []) ([Start 1; Do 1 USetName; Return 0; End 0; Exit; Return 1; Drop 1]) state0 = Undefined.
Proof. vm_compute. reflexivity. Qed.

(** A program that takes care, up to its very end. *)
Definition careful_run : list label :=
  [Do 0 UStrings; Static 0 1; Start 1; Do 1 (UTrace Mark); Local 1 0; Do 1 (UTrace Entry); Do 1 USetName; Return 1] ++ drops 10 1 ++
  [End 1; Do 0 (UTrace Entry); Do 0 (UTrace Leave); Return 0] ++ drops 8 0 ++ [End 0] ++ repeat Exit 11.
Example careful_w : careful b1 careful_run.
Proof.
  intros a l b E. unfold careful_run, drops in E. cbn [repeat app] in E.
  repeat (destruct a as [|? a]; cbn [app] in E;
    [injection E as <- <-; cbn; try exact I; try (right; intros u [<-|[]]; cbn; repeat split; try discriminate; try (exists 0); tauto);
     try (intros [X|X]; [discriminate X|]; repeat (destruct X as [X|X]; [discriminate X|]); exact X);
     try (intros t H; repeat (destruct H as [H|H]; [first [discriminate H | injection H as <-; tauto]|]); contradiction)
    |injection E as <- E]).
  destruct a; discriminate E.
Qed.
Example careful_end_w : exists s, reached b1 careful_run s /\ g_live s = [] /\ g_active s = [] /\ g_named s = [] /\ g_orphans s = [1; 0] /\
  g_log s = [(1, Mark, true); (1, Entry, true); (1, Mark, true); (0, Entry, true); (0, Leave, true)].
Proof. vm_compute. eexists. split; [reflexivity|]. repeat split. Qed.

(** States that meet the hypotheses of the theorems about what cannot end. *)
Example early_meets : exists s, reached b1 ([Start 1] ++ Local 1 0 :: [Do 1 (UTrace Mark); Return 1; Drop 1; Drop 1; Drop 1; Drop 1; Drop 1]) s /\ h_live (g_threads s 1) = [TUser 0].
Proof. vm_compute. eexists. split; reflexivity. Qed.
Example static_meets : exists s, reached b1 ([Do 0 (UTrace Mark); Static 0 0; Do 0 UStrings; Return 0] ++ drops 5 0 ++ [End 0; Exit]) s /\ exists r, g_live s = SUser 0 :: r.
Proof. vm_compute. eexists. split; [reflexivity|]. eexists. reflexivity. Qed.
Definition after_run : list label := [Start 1; Do 1 (UTrace Mark); Do 1 USetName; Return 0; End 0] ++ repeat Exit 5.
Example after_meets : exists s, reached b1 after_run s /\ g_live s = [] /\ h_phase (g_threads s 1) = Running /\ g_named s = [1].
Proof. vm_compute. eexists. split; [reflexivity|]. repeat split. Qed.
(** A thread that has no name may end after main: what it leaves behind is put aside. *)
Example late_thread_w : exists s, reached b1 ([Start 1; Do 1 (UTrace Mark); Return 0; End 0] ++ repeat Exit 4 ++ [Return 1] ++ drops 5 1 ++ [End 1]) s /\ g_orphans s = [1].
Proof. vm_compute. eexists. split; reflexivity. Qed.

(** Two threads with a switch; one of them ends. *)
Example switches_w : exists s, reached b1 ([Start 1; Start 2; Do 1 (UTrace Mark); Do 2 USetState; Return 1] ++ drops 5 1 ++ [End 1]) s /\ g_states s = [2].
Proof. vm_compute. eexists. split; reflexivity. Qed.
