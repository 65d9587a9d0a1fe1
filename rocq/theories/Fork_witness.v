(** Processes that fork: the witnesses (C98). *)
From Coq Require Import List Arith Bool Lia.
Import ListNotations.
From Verif Require Import Fork_model Fork_spec Fork_proofs.

Lemma got {A} (f : world -> A) (h : list label) (d x : A) : match run h world0 with Some w => f w | None => d end = x -> x <> d -> exists w, run h world0 = Some w /\ f w = x.
Proof. destruct (run h world0) as [w|]; intros A1 A2; [exists w; split; [reflexivity|exact A1]|congruence]. Qed.

(** The parent has traced something that its sender has not taken yet; the child makes a sender too. *)
Definition h_twice : list label :=
  [Start 1 0; Expose 1; Trace 1 0; Fork 1 0 2; Expose 2; Lock 1; Pop 1 [1]; Send 1; Lock 2; Pop 2 [1]; Send 2].
Definition e_first : event := {| e_pid := 1; e_tid := 0; e_num := 0 |}.
Lemma twice_refuted : exists h w e, run h world0 = Some w /\ In (1, 0, e) (w_shown w) /\ In (2, 0, e) (w_shown w) /\ ~ right (2, 0, e) /\ times (e_num e) (w_shown w) = 2.
Proof.
  destruct (got w_shown h_twice [] [(1, 0, e_first); (2, 0, e_first)]) as (w & R & S); [vm_compute; reflexivity|discriminate|].
  exists h_twice, w, e_first. rewrite S. split; [exact R|]. split; [left; reflexivity|]. split; [right; left; reflexivity|]. split; [|reflexivity].
  intros [A _]. discriminate A.
Qed.

(** The parent can be traced; the child has a copy of the sender, without its thread. *)
Definition h_silent : list label := [Start 1 0; Expose 1; Fork 1 0 2; Trace 2 0].
Lemma silent_refuted : exists h w p e, run h world0 = Some w /\ In (1, 2) (w_forks w) /\ w_procs w 2 = Some p /\ p_ghost p = true /\ holds p 0 e /\ e_pid e = 2 /\
  forall more w', existsb (exposes 2) more = false -> run more w = Some w' -> forall tid e', ~ In (2, tid, e') (w_shown w').
Proof.
  destruct (got (fun w => (w_shown w, w_forks w, w_used w, w_procs w 2)) h_silent ([], [], [], None)
    ([], [(1, 2)], [2; 1], Some {| p_threads := [0]; p_bufs := [(0, [{| e_pid := 2; e_tid := 0; e_num := 0 |}])]; p_hand := None; p_locked := false; p_lost := false; p_ghost := true; p_stuck := [] |}))
    as (w & R & S0); [vm_compute; reflexivity|discriminate|]. injection S0 as S1 S2 S3 P.
  assert (P' : exists p, w_procs w 2 = Some p /\ p_hand p = None /\ p_ghost p = true /\ holds p 0 {| e_pid := 2; e_tid := 0; e_num := 0 |}).
  { eexists. split; [exact P|]. split; [reflexivity|]. split; [reflexivity|].
    exists [{| e_pid := 2; e_tid := 0; e_num := 0 |}]. split; left; reflexivity. }
  assert (S : w_shown w = [] /\ w_forks w = [(1, 2)] /\ In 2 (w_used w)) by (rewrite S3; cbn; auto). clear S1 S2 S3 P. rename P' into P.
  destruct P as (p & P1 & P2 & P3 & P4). destruct S as (S1 & S2 & S3). exists h_silent, w, p, {| e_pid := 2; e_tid := 0; e_num := 0 |}.
  split; [exact R|]. split; [rewrite S2; left; reflexivity|]. split; [exact P1|]. split; [exact P3|]. split; [exact P4|]. split; [reflexivity|].
  intros more w' X H tid e' Y. refine (silent_run 2 _ _ _ H X S3 _ _ _ Y eq_refl).
  - intros p0 Q. rewrite P1 in Q. injection Q as <-. exact P2.
  - rewrite S1. intros x [].
Qed.

(** The fork is made while the sender of the parent looks at the table; a new thread of the child comes to its first tracepoint. *)
Definition h_lock : list label := [Start 1 0; Expose 1; Trace 1 0; Lock 1; Fork 1 0 2; Thread 2 7; Trace 2 7].
(** The child destroys what it has inherited. *)
Definition h_join : list label := [Start 1 0; Expose 1; Fork 1 0 2; Drop 2 0].
Lemma hang_for_ever h w pid tid : run h world0 = Some w -> hangs w pid tid ->
  forall more w', run more w = Some w' -> w_procs w' pid = None \/ hangs w' pid tid.
Proof. intros R (p & P & T) more w' H. exact (stuck_run _ _ _ _ _ _ H (inv_run _ _ _ R inv0) P T). Qed.
Lemma lock_refuted : exists h w, run (h ++ [Trace 2 7]) world0 = Some w /\ hangs w 2 7 /\ (forall a, In a h -> forall q t, a <> Drop q t) /\
  forall more w', run more w = Some w' -> w_procs w' 2 = None \/ hangs w' 2 7.
Proof.
  destruct (got (fun w => match w_procs w 2 with Some p => p_stuck p | None => [] end) h_lock [] [7]) as (w & R & S0); [vm_compute; reflexivity|discriminate|].
  assert (G : hangs w 2 7) by (unfold hangs; destruct (w_procs w 2) as [p|]; [exists p; rewrite S0; split; [reflexivity|left; reflexivity]|discriminate S0]). clear S0.
  exists [Start 1 0; Expose 1; Trace 1 0; Lock 1; Fork 1 0 2; Thread 2 7], w. split; [exact R|]. split; [exact G|]. split.
  - intros a A q t E. subst a. repeat (destruct A as [A|A]; [discriminate A|]). destruct A.
  - exact (hang_for_ever _ _ _ _ R G).
Qed.
Lemma join_refuted : exists h w, run (h ++ [Drop 2 0]) world0 = Some w /\ hangs w 2 0 /\ (forall a, In a h -> forall q, a <> Lock q) /\
  forall more w', run more w = Some w' -> w_procs w' 2 = None \/ hangs w' 2 0.
Proof.
  destruct (got (fun w => match w_procs w 2 with Some p => p_stuck p | None => [] end) h_join [] [0]) as (w & R & S0); [vm_compute; reflexivity|discriminate|].
  assert (G : hangs w 2 0) by (unfold hangs; destruct (w_procs w 2) as [p|]; [exists p; rewrite S0; split; [reflexivity|left; reflexivity]|discriminate S0]). clear S0.
  exists [Start 1 0; Expose 1; Fork 1 0 2], w. split; [exact R|]. split; [exact G|]. split.
  - intros a A q E. subst a. repeat (destruct A as [A|A]; [discriminate A|]). destruct A.
  - exact (hang_for_ever _ _ _ _ R G).
Qed.

(** A history with forks that is in order: the parent forks before it has traced anything, the child makes its own sender. *)
Definition h_good : list label :=
  [Start 1 0; Fork 1 0 2; Expose 1; Expose 2; Trace 1 0; Trace 2 0; Trace 2 0; Lock 2; Pop 2 [1]; Send 2; Lock 1; Pop 1 [5]; Send 1; Lock 2; Pop 2 [5]; Send 2].
Example good_run : exists w, run h_good world0 = Some w /\ tidy h_good world0 /\ calm h_good world0 /\
  map (fun x => (fst (fst x), e_num (snd x))) (w_shown w) = [(2, 1); (1, 0); (2, 2)].
Proof.
  destruct (got (fun w => map (fun x => (fst (fst x), e_num (snd x))) (w_shown w)) h_good [] [(2, 1); (1, 0); (2, 2)]) as (w & R & S); [vm_compute; reflexivity|discriminate|].
  exists w. split; [exact R|]. split; [vm_compute; repeat split|]. split; [vm_compute; repeat split|exact S].
Qed.
