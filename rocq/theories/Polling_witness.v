(** Concrete histories for the theorems of C112. *)
From Coq Require Import List Arith Bool.
Import ListNotations.
From Verif Require Import Polling_model Polling_spec Polling_proofs.

(** Started with 5 ms, two polls (2 ms and 0 ms), started anew with 3 ms while the thread sleeps, one more poll, stopped. *)
Definition restarted : list label :=
  [Call (Start 5); Do 0; Do 0; Do 0; Work 0 2; Tick; Tick; Work 0 0; Tick; Tick; Tick; Tick; Tick; Work 0 0; Work 0 0; Work 0 0; Tick;
   Call (Start 3); Do 1; Do 1; Do 1; Tick; Tick; Tick; Tick; Work 0 0; Work 0 0; Do 1; Do 1; Do 1; Work 1 1; Tick].
Fixpoint calls_when_quiet (ls : list label) (s : state) : bool :=
  match ls with
  | [] => true
  | l :: ls' => match l with Call _ => forallb (fun c => match ca_pc c with Returned _ => true | _ => false end) (calls s) | Inside _ _ => false | _ => true end
                && match step l s with Some s' => calls_when_quiet ls' s' | None => false end
  end.
Lemma quiet_serial : forall ls b s s', serial b s -> calls_when_quiet ls s = true -> run ls s = Some s' -> serial (b ++ ls) s'.
Proof.
  induction ls as [|l ls IH]; intros b s s' H Q R; cbn [run calls_when_quiet] in *.
  - injection R as <-. now rewrite app_nil_r.
  - apply andb_true_iff in Q as [Q1 Q2]. destruct (step l s) as [s1|] eqn:E; [|discriminate]. change (l :: ls) with ([l] ++ ls). rewrite app_assoc. apply (IH _ s1); auto.
    eapply serial_step; [exact H|exact E| |].
    + intros c ->. rewrite forallb_forall in Q1. apply Forall_forall. intros x Hx. specialize (Q1 x Hx). unfold returned. destruct (ca_pc x); try discriminate. eauto.
    + intros w c ->. discriminate.
Qed.
Example serial_history : exists s, serial restarted s /\ Forall (within 2 5) restarted /\ quiet s /\ living s = 1 /\ polls s = [0; 7; 12] /\ now s = 13 /\
  map ca_pc (calls s) = [Returned 0; Returned 12] /\ map ca_begin (calls s) = [0; 8].
Proof.
  assert (Q : calls_when_quiet restarted state0 = true) by (vm_compute; reflexivity).
  destruct (found (fun s => map ca_pc (calls s) = [Returned 0; Returned 12] /\ living s = 1 /\ polls s = [0; 7; 12] /\ now s = 13 /\ map ca_begin (calls s) = [0; 8]) restarted) as (s & R & H1 & H2 & H3 & H4 & H5);
    [vm_compute; auto 10|].
  exists s. repeat split; auto.
  - exact (quiet_serial restarted [] state0 s serial_nil Q R).
  - repeat constructor.
  - unfold quiet. apply Forall_forall. intros c Hc. assert (K : In (ca_pc c) [Returned 0; Returned 12]) by (rewrite <- H1; apply in_map; exact Hc). cbn in K. unfold returned. destruct K as [K|[K|[]]]; eauto.
Qed.
