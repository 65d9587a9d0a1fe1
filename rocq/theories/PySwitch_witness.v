(** The switch of the tracing state: where it fails, and an example where it works. All switchers suppress. *)
From Coq Require Import List Arith Bool.
Import ListNotations.
From Verif Require Import PySwitch_model PySwitch_spec.

Definition off (w : nat) : bool := false.
Definition begin : world := {| w_on := fun _ => true; w_tmp := fun _ => true; w_old := fun _ => None; w_log := [] |}.

(** A suppressed function that calls itself once, then a trace point in the caller. *)
Lemma recursion_off : exists ls s, executes 0 [Use 0 [Use 0 []]; Point 5] ls /\ run off ls begin = Some s /\ w_on begin 0 = true /\ w_on s 0 = false /\ w_log s = [].
Proof.
  exists (flatten 0 [Use 0 [Use 0 []]; Point 5]). eexists. split; [|split; [vm_compute; reflexivity|repeat split; reflexivity]]. split; [reflexivity|].
  intros l w Hl Ht. exfalso. apply Ht. cbn in Hl. intuition (subst; reflexivity).
Qed.

(** Two threads call one suppressed function, neither recursively; thread 1 does so from within another one. *)
Definition shared : list label :=
  [SSwitch 1 1; SStore 1 1;                       (* thread 1 enters the outer function *)
   SSwitch 0 0; SStore 0 0;                       (* thread 0 enters the shared one *)
   SSwitch 1 0; SStore 1 0;                       (* thread 1 enters it too: the state stored is thread 1's *)
   SLoad 0 0; SRestore 0;                         (* thread 0 leaves it *)
   SLoad 1 0; SRestore 1; SLoad 1 1; SRestore 1].
Lemma shared_off : steps_of 0 shared = flatten 0 [Use 0 []] /\ steps_of 1 shared = flatten 1 [Use 1 [Use 0 []]] /\ never_within [Use 1 [Use 0 []]] /\
  exists s, run off shared begin = Some s /\ w_on begin 0 = true /\ w_on s 0 = false.
Proof.
  split; [reflexivity|]. split; [reflexivity|]. split.
  { constructor; [|constructor]. cbn. intuition discriminate. }
  eexists. split; [vm_compute; reflexivity|]. split; reflexivity.
Qed.

(** Thread 0 is in a suppressed function that calls itself, thread 1 enters it; when the inner call of thread 0 returns, tracing is on inside the outer one. *)
Definition loud : list label :=
  [SSwitch 0 0; SStore 0 0; SSwitch 0 0; SStore 0 0; SSwitch 1 0; SStore 1 0; SLoad 0 0; SRestore 0; SPoint 0 7; SLoad 0 0; SRestore 0; SLoad 1 0; SRestore 1].
Lemma loud_inside : steps_of 0 loud = flatten 0 [Use 0 [Use 0 []; Point 7]] /\ steps_of 1 loud = flatten 1 [Use 0 []] /\ all_seen off true [Use 0 [Use 0 []; Point 7]] = [] /\
  exists s, run off loud begin = Some s /\ w_log s = [(0, 7)].
Proof. split; [reflexivity|]. split; [reflexivity|]. split; [reflexivity|]. eexists. split; [vm_compute; reflexivity|reflexivity]. Qed.

(** Nested use of two functions, while another thread uses a third. *)
Definition nested : list stmt := [Point 1; Use 0 [Point 2; Use 1 [Point 3]; Point 4]; Point 5; Use 0 []; Point 6].
Definition nested_run : list label :=
  [SSwitch 1 2; SStore 1 2] ++ firstn 4 (flatten 0 nested) ++ [SPoint 1 9; SLoad 1 2; SRestore 1; SPoint 1 8] ++ skipn 4 (flatten 0 nested).
Lemma nested_fine : never_within nested /\ executes 0 nested nested_run /\ exists s, run off nested_run begin = Some s /\ w_log s = [(0, 1); (1, 8); (0, 5); (0, 6)] /\ w_on s 0 = true.
Proof.
  split; [repeat constructor; cbn; intuition discriminate|]. split.
  - split; [reflexivity|]. intros l w Hl Ht Ha. cbn in Hl. repeat (destruct Hl as [<-|Hl]; [try (exfalso; apply Ht; reflexivity); cbn in Ha; try discriminate; injection Ha as <-; cbn; intuition discriminate|]). destruct Hl.
  - eexists. split; [vm_compute; reflexivity|]. split; reflexivity.
Qed.
