From Coq Require Import List Arith Bool Lia.
Import ListNotations.
From Verif Require Import OMap_model Backend_model Backend_spec Backend_proofs.

(** A decision procedure for [legal_run], for the cases below. *)
Definition is_conn (vs : list (nat * bool)) (ws : nat) : bool := existsb (fun v => (fst v =? ws) && snd v) vs.
Lemma is_conn_spec vs ws : is_conn vs ws = true <-> exists v, connected vs v ws.
Proof.
  unfold is_conn, connected. rewrite existsb_exists. split.
  - intros ([a c] & Hin & H). apply andb_true_iff in H as [H1 H2]. apply Nat.eqb_eq in H1. cbn in *. subst. apply In_nth_error. exact Hin.
  - intros (v & H). exists (ws, true). split; [eapply nth_error_In; exact H|]. cbn. rewrite Nat.eqb_refl. reflexivity.
Qed.
Definition legalb {Text} (l : blabel Text) (vs : list (nat * bool)) : bool :=
  match l with
  | Connect ws => negb (is_conn vs ws)
  | Data ws _ | Disconnect ws _ => is_conn vs ws
  | Answer v _ => match nth_error vs v with Some (_, c) => c | None => false end
  | RunTask => true
  end.
Lemma legalb_spec {Text} (l : blabel Text) vs : legalb l vs = true -> legal l vs.
Proof.
  destruct l; cbn.
  - intros H v Hv. apply negb_true_iff in H. assert (G : is_conn vs ws = true) by (apply is_conn_spec; eauto). congruence.
  - apply is_conn_spec.
  - intro H. unfold connected. destruct (nth_error vs sid) as [[a c]|]; [subst c; eauto|discriminate].
  - auto.
  - apply is_conn_spec.
Qed.
Fixpoint all_legal {Text} (ls : list (blabel Text)) (vs : list (nat * bool)) : bool :=
  match ls with [] => true | l :: ls' => legalb l vs && all_legal ls' (vstep l vs) end.
Lemma all_legal_run {Text} (ls : list (blabel Text)) : all_legal ls [] = true -> legal_run ls.
Proof.
  intros H a l b ->. unfold viewers. revert H. generalize (@nil (nat * bool)) as vs. induction a as [|x a IH]; intros vs H; cbn in H.
  - apply andb_true_iff in H as [H _]. apply legalb_spec. exact H.
  - apply andb_true_iff in H as [_ H]. apply IH. exact H.
Qed.

(** The first viewer asks, its answer waits at the server; it leaves, another viewer's connection gets the same address; the task runs. *)
Definition reuse : list (blabel nat) := [Connect 5; Data 5 1; Answer 0 77; Disconnect 5 []; Connect 5; RunTask].
Lemma reuse_witness : legal_run reuse /\ answers reuse = [(0, 77)] /\ connected (viewers reuse) 1 5
  /\ nth_error (viewers reuse) 0 = Some (5, false)
  /\ exists b, brun reuse backend0 = Some (b, [[]; [Incoming 0 1]; []; []; []; [Send 5 77]]).
Proof. split; [apply all_legal_run; reflexivity|]. split; [reflexivity|]. split; [reflexivity|]. split; [reflexivity|]. eexists. reflexivity. Qed.

(** Two viewers at once, answers late; the address is used again only after the tasks have run. *)
Definition decent : list (blabel nat) :=
  [Connect 5; Connect 9; Data 9 1; Data 5 2; Answer 1 10; Answer 0 20; RunTask; Disconnect 5 [21; 22]; RunTask; RunTask; RunTask; Connect 5; Data 5 3; Answer 2 30].
Example decent_legal : legal_run decent. Proof. apply all_legal_run. reflexivity. Qed.
Example decent_settled : settled decent.
Proof.
  intros a ws b v t n H Hn Hle c Hc.
  assert (Ha : answers a = [] \/ (answers a = [(1, 10); (0, 20); (0, 21); (0, 22)] /\ tasks_run a = 4)).
  { unfold decent in H. do 14 (destruct a as [|? a]; [first [discriminate H|left; reflexivity|right; split; reflexivity]|injection H as <- H]). destruct a; discriminate H. }
  destruct Ha as [Ha|[Ha Ht]]; rewrite Ha in Hn; [destruct n; discriminate|].
  assert (Hlt : n < 4) by (apply (proj1 (nth_error_Some [(1, 10); (0, 20); (0, 21); (0, 22)] n)); congruence). lia.
Qed.
Example decent_run : exists b, brun decent backend0 = Some (b, [[]; []; [Incoming 1 1]; [Incoming 0 2]; []; []; [Send 9 10]; []; []; []; []; []; [Incoming 2 3]; []])
  /\ bstep RunTask b = Some ({| b_sessions := b_sessions b; b_made := 3; b_tasks := [] |}, [Send 5 30]).
Proof. eexists. split; reflexivity. Qed.
