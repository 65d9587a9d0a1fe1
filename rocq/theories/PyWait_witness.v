(** Waiting for an answer: the witnesses (C99). *)
From Coq Require Import List ZArith Bool Lia.
Import ListNotations.
From Verif Require Import PyWait_model PyWait_spec PyWait_proofs.
Open Scope Z_scope.

Lemma got {A} (f : state -> A) h (d x : A) : match run h (start 0) with Next s => f s | _ => d end = x -> x <> d -> exists s, run h (start 0) = Next s /\ f s = x.
Proof. destruct (run h (start 0)) as [s| |]; intros A1 A2; [exists s; split; [reflexivity|exact A1]|congruence|congruence]. Qed.

Definition second : Z := 1000000000.
(** Asked again after the answer was given. *)
Lemma again_bad t0 h s t l : run h (start t0) = Next s -> existsb gives (log s) = true -> th s t = Out -> run (h ++ [Call t l]) (start t0) = Bad.
Proof.
  intros H G P. assert (K := i_taken _ _ _ (inv_run _ _ _ H)). rewrite G in K.
  assert (A : forall h s0, run h s0 = Next s -> run (h ++ [Call t l]) s0 = Bad).
  { clear H. induction h0 as [|a h0 IH]; intros s0 H; cbn [run app] in *.
    - injection H as ->. cbn [step]. now rewrite P, K.
    - destruct (step a s0); try discriminate H. exact (IH _ H). }
  exact (A _ _ H).
Qed.
Definition h_once : list label := [Call 0 (For second); Pass 500; Reply 5; Ready 0; Get 0].
Lemma again_refuted : (exists s, run h_once (start 0) = Next s /\ map en_result (log s) = [RData 5]) /\
  (forall t0 h s t l, run h (start t0) = Next s -> existsb gives (log s) = true -> th s t = Out -> run (h ++ [Call t l]) (start t0) = Bad).
Proof. split; [apply (got (fun s => map en_result (log s)) h_once []); [vm_compute; reflexivity|discriminate]|exact again_bad]. Qed.
(** Two threads wait for the same answer. *)
Definition h_both : list label := [Call 0 (For second); Call 1 (For second); Pass 500; Reply 5; Ready 0; Ready 1; Get 0; Get 1].
Lemma both_refuted : exists h, along modest h (start 0) /\ run h (start 0) = Bad /\ (forall t, (length (filter (fun a => match a with Call u _ => Nat.eqb u t | _ => false end) h) <= 1)%nat).
Proof.
  exists h_both. split; [cbn; unfold second; repeat split; lia|]. split; [vm_compute; reflexivity|].
  intros [|[|t]]; cbn; lia.
Qed.
Lemma limit_bad t0 h s t ns : run h (start t0) = Next s -> th s t = Out -> ~ (- 2 ^ 63 <= now s + ns < 2 ^ 63) -> run (h ++ [Call t (For ns)]) (start t0) = Bad.
Proof.
  intros H P N. assert (R : in_range (now s + ns) = false).
  { destruct (in_range (now s + ns)) eqn:E; [|reflexivity]. unfold in_range in E. apply andb_true_iff in E. destruct E as (E1 & E2). apply Z.leb_le in E1. apply Z.ltb_lt in E2. destruct N. split; assumption. }
  assert (A : forall h s0, run h s0 = Next s -> run (h ++ [Call t (For ns)]) s0 = Bad).
  { clear H. induction h0 as [|a h0 IH]; intros s0 H; cbn [run app] in *.
    - injection H as ->. cbn [step]. rewrite P, R. destruct (taken s); reflexivity.
    - destruct (step a s0); try discriminate H. exact (IH _ H). }
  exact (A _ _ H).
Qed.
(** The limit is 317 years. *)
Lemma limit_refuted : (exists h ns, along alone h (start 0) /\ h = [Call 0 (For ns)] /\ ns = 10000000000 * second /\ run h (start 0) = Bad) /\
  (forall t0 h s t ns, run h (start t0) = Next s -> th s t = Out -> ~ (- 2 ^ 63 <= now s + ns < 2 ^ 63) -> run (h ++ [Call t (For ns)]) (start t0) = Bad).
Proof.
  split; [|exact limit_bad]. exists [Call 0 (For (10000000000 * second))], (10000000000 * second). split; [cbn; auto|]. split; [reflexivity|]. split; [reflexivity|]. vm_compute. reflexivity.
Qed.

(** Asked twice, by two threads one after the other; the second gets the answer. *)
Definition h_good : list label := [Call 0 (For 100); Pass 150; TimeOut 0; Call 1 (For second); Pass 7; Reply 5; Ready 1; Get 1].
Example good_run : exists s, run h_good (start 0) = Next s /\ along modest h_good (start 0) /\ along alone h_good (start 0) /\
  map (fun e => (en_thread e, en_result e)) (log s) = [(0%nat, RNone); (1%nat, RData 5)].
Proof.
  destruct (got (fun s => map (fun e => (en_thread e, en_result e)) (log s)) h_good [] [(0%nat, RNone); (1%nat, RData 5)]) as (s & R & L); [vm_compute; reflexivity|discriminate|].
  exists s. split; [exact R|]. split; [cbn; unfold second; repeat split; lia|]. split; [|exact L].
  vm_compute. repeat split; intros [|t]; reflexivity.
Qed.
