(** The two places where objects of Python are used without the lock; and a program that meets the conditions of the theorem. *)
From Coq Require Import List Arith Bool.
Import ListNotations.
From Verif Require Import PyGil_model PyGil_spec PyGil_proofs.

Lemma with_of (a : code) x y : trace true a x -> y = Acq :: x ++ [Rel] -> trace false (With a) y.
Proof. intros H ->. now constructor. Qed.
Lemma without_of (a : code) x y : trace false a x -> y = Rel :: x ++ [Acq] -> trace true (Without a) y.
Proof. intros H ->. now constructor. Qed.
Lemma once b a x : trace b a x -> trace b (Many a) x.
Proof. intros H. rewrite <- (app_nil_r x). constructor; [exact H|constructor]. Qed.
Lemma seq_of b a c x y z : trace b a x -> trace b c y -> z = x ++ y -> trace b (a ;; c) z.
Proof. intros H1 H2 ->. now constructor. Qed.

(** Python code that uses one object. *)
Lemma python_uses waits d : trace true (python waits d) [Use].
Proof. destruct d; cbn [python]; apply once, tr_left, tr_touch. Qed.
Lemma python_thread waits d : trace false (With (python waits d)) [Acq; Use; Rel].
Proof. eapply with_of; [apply python_uses|reflexivity]. Qed.
(** Python code that calls [wait_for]. *)
Definition waiting : list op := [Acq; Use; Rel; Use; Acq; Use; Rel].
Lemma waiting_trace : trace false (With (python true 1)) waiting.
Proof.
  apply (with_of _ [Use; Rel; Use; Acq; Use]); [|reflexivity]. cbn [python]. apply once, tr_right, tr_right. unfold module_function. apply tr_right, tr_left. unfold bound.
  apply (seq_of _ _ _ [Use] [Rel; Use; Acq; Use]); [apply tr_touch| |reflexivity]. apply (seq_of _ _ _ [Rel; Use; Acq] [Use]); [|apply tr_touch|reflexivity].
  unfold wait_for. eapply without_of; [apply tr_touch|reflexivity].
Qed.
Definition waiting_prog (t : nat) : list op := match t with 0 => waiting | 1 => [Acq; Use; Rel] | _ => [] end.
Lemma waiting_program : program true false waiting_prog.
Proof.
  intros [|[|t]] H; [exists 1, RPython; exact waiting_trace|exists 0, RPython; apply python_thread|now contradiction H].
Qed.
Definition heads (t : nat) (s : option state) : option op := match s with Some s => hd_error (todo s t) | None => None end.
Lemma heads_uses ts prog t u : t <> u -> heads t (run ts (begin prog)) = Some Use -> heads u (run ts (begin prog)) = Some Use -> exists s, reachable prog s /\ clash s.
Proof.
  intros Hn H1 H2. destruct (run ts (begin prog)) as [s|] eqn:E; [|discriminate]. exists s. split; [exists ts; exact E|]. exists t, u. unfold uses, heads in *.
  destruct (todo s t) as [|o r]; [discriminate|]. destruct (todo s u) as [|o' r']; [discriminate|]. cbn in H1, H2. repeat split; [exact Hn|exists r; congruence|exists r'; congruence].
Qed.
Theorem wait_for_clash : exists prog s, program true false prog /\ reachable prog s /\ clash s.
Proof.
  destruct (heads_uses [0; 0; 0; 1] waiting_prog 0 1) as (s & H); [discriminate|vm_compute; reflexivity|vm_compute; reflexivity|]. exists waiting_prog, s. split; [apply waiting_program|exact H].
Qed.
(** A page connects while Python code runs. *)
Definition server_prog (t : nat) : list op := match t with 0 => [Use] | 1 => [Acq; Use; Rel] | _ => [] end.
Lemma server_program : program false true server_prog.
Proof.
  intros [|[|t]] H; [exists 0, RServer|exists 0, RPython; apply python_thread|now contradiction H]. cbn [thread_code]. unfold server_thread.
  apply once, tr_right, tr_left. cbn [copy_logger]. apply (seq_of _ _ _ [Use] []); [apply tr_touch|apply tr_none|reflexivity].
Qed.
Theorem logger_clash : exists prog s, program false true prog /\ reachable prog s /\ clash s.
Proof.
  destruct (heads_uses [1] server_prog 0 1) as (s & H); [discriminate|vm_compute; reflexivity|vm_compute; reflexivity|]. exists server_prog, s. split; [apply server_program|exact H].
Qed.

(** Python code that adds an endpoint: [getName] and [setTransport] of it run in Python in turn; a transport calls [handle]. *)
Definition calling : list op := [Acq; Use] ++ [Use; Use; Use] ++ [Use; Use] ++ [Use; Rel].
Lemma calling_trace : trace false (With (python false 1)) calling.
Proof.
  apply (with_of _ [Use; Use; Use; Use; Use; Use; Use]); [|reflexivity]. cbn [python]. apply once, tr_right, tr_right. unfold module_function. apply tr_right, tr_right, tr_left. unfold bound.
  apply (seq_of _ _ _ [Use] [Use; Use; Use; Use; Use; Use]); [apply tr_touch| |reflexivity]. apply (seq_of _ _ _ [Use; Use; Use; Use; Use] [Use]); [|apply tr_touch|reflexivity].
  unfold add_endpoint. apply (seq_of _ _ _ [Use; Use; Use] [Use; Use]); [| |reflexivity].
  - apply tr_again. apply (seq_of _ _ _ [Use] [Use; Use]); [apply tr_touch| |reflexivity]. apply (seq_of _ _ _ [Use] [Use]); [apply (python_uses false 0)|apply tr_touch|reflexivity].
  - apply (seq_of _ _ _ [] [Use; Use]); [apply tr_left, tr_nop| |reflexivity]. apply tr_again. apply (seq_of _ _ _ [Use] [Use]); [apply tr_touch|apply (python_uses false 0)|reflexivity].
Qed.
Definition calling_prog (t : nat) : list op := match t with 0 => calling | 1 => [Acq; Use; Use; Use; Rel] | _ => [] end.
Example calling_program : program false false calling_prog /\ exists s, reachable calling_prog s /\ uses s 1.
Proof.
  split.
  - intros [|[|t]] H; [exists 1, RPython; exact calling_trace|exists 0, RTransport|now contradiction H]. cbn [thread_code]. apply once, tr_left.
    apply (with_of _ [Use; Use; Use]); [|reflexivity]. apply (seq_of _ _ _ [Use] [Use; Use]); [apply tr_touch| |reflexivity]. apply (seq_of _ _ _ [Use] [Use]); [apply (python_uses false 0)|apply tr_touch|reflexivity].
  - eexists. split; [exists [0; 0; 0; 0; 0; 0; 0; 0; 0; 1]; vm_compute; reflexivity|]. eexists. vm_compute. reflexivity.
Qed.
