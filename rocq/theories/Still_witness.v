(** Concrete histories for the theorems of C113. *)
From Coq Require Import List Arith Bool Lia.
Import ListNotations.
From Verif Require Import Still_model Still_spec Still_proofs.

(** Three servers, the first stands still and has been visited twice: the poll takes the 200 ms of its question, and the others are connected and answer. *)
Definition calm_poll : list label :=
  [Go; Go] ++ repeat Tick 200 ++ [Go; Go; Go; Accept 1; Answer; Go; Go; Accept 2; Tick; Answer; Go].
Example calm_history : match run [Stop 0; Visit 0; Visit 0; Poll [0; 1; 2]] (state0 3) with
  | Some s => match run calm_poll s with Some s' => man s' = Idle /\ held s' = [0; 1; 2] /\ answered s' = [1; 2] /\ now s' = 201 | None => False end
  | None => False end.
Proof. vm_compute. auto. Qed.
Fixpoint calmb (ls : list label) (s : state) : bool :=
  match man s with Waits p _ => match nth_error (servers s) p with Some x => has_room x | None => true end | _ => true end &&
  match ls with [] => true | l :: ls' => match step l s with Some s' => calmb ls' s' | None => true end end.
Lemma calmb_calm : forall ls s, calmb ls s = true -> calm ls s.
Proof.
  induction ls as [|l ls IH]; intros s H a b s' p E R ((todo & Em) & q & Eq & Lq).
  - destruct a; [|discriminate]. cbn in R. injection R as <-. cbn in H. rewrite Em, Eq in H. unfold has_room, backlog in H. cbn [sv_queue] in H. rewrite andb_true_r in H. apply Nat.leb_le in H. lia.
  - destruct a as [|l' a]; cbn in R, H; apply andb_true_iff in H as [H1 H2].
    + injection R as <-. rewrite Em, Eq in H1. unfold has_room, backlog in H1. cbn [sv_queue] in H1. apply Nat.leb_le in H1. lia.
    + cbn in E. injection E as <- E. destruct (step l s) as [s1|] eqn:Es; [|discriminate]. apply (IH s1 H2 a b s' p E R). split; [eauto|]. exists q. auto.
Qed.
Example calm_meets : match run [Stop 0; Visit 0; Visit 0; Poll [0; 1; 2]] (state0 3) with Some s => calm calm_poll s | None => False end.
Proof. destruct (run _ _) as [s|] eqn:E; [|vm_compute in E; discriminate]. apply calmb_calm. vm_compute in E. injection E as <-. vm_compute. reflexivity. Qed.
(** The same with six visits: blocked. *)
Example blocked_history : match run ([Stop 0] ++ repeat (Visit 0) 6 ++ [Poll [0; 1; 2]; Go]) (state0 3) with Some s => blocked 0 s /\ man s = Waits 0 [1; 2] | None => False end.
Proof. vm_compute. split; [|reflexivity]. split; [eexists; reflexivity|]. eexists. split; [reflexivity|]. apply le_n. Qed.

(** Of three servers that were found two answer, in the order they were found. *)
Example calm_answers : within [1; 2] [0; 1; 2].
Proof. repeat constructor. Qed.
