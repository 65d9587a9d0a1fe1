(** Ids of trace contexts: a history, and where the statement fails. Two helpers, both without prefix. *)
From Coq Require Import String List Arith NArith Ascii Bool.
Import ListNotations.
From Verif Require Import OMap_model Json_model PyIds_model PyIds_spec.

Definition bare (h : nat) : bytes := [].
Definition a : bytes := text "a".
Definition b : bytes := text "b".
(** Two threads; thread 0 uses helper 0, thread 1 helper 1, both ask for "a"; then again. *)
Definition usual : list label := [Ask 0 0 a; Ask 1 1 a; Take 1; Take 0; Register 0; New 2 b None; Take 2; Register 1; Put 1; Put 0; Register 2; Put 2; Ask 0 0 a; Ask 1 1 a].
Lemma usual_run : Forall no_id usual /\ Forall (one_thread 0 0) usual /\ exists s es, run bare usual start = Some (s, es) /\ made es = [(1, a); (0, a); (2, b)]%N /\
  filter (fun e => match e with Got 0 _ _ _ => true | _ => false end) es = [Got 0 (Some 0) a 1%N; Got 0 (Some 0) a 1%N].
Proof.
  split; [repeat constructor|]. split; [repeat constructor; cbn; auto; discriminate|].
  eexists. eexists. split; [vm_compute; reflexivity|]. split; reflexivity.
Qed.

(** Two threads ask one helper for a new name at a time. *)
Lemma both_make : exists ls s es, Forall no_id ls /\ run bare ls start = Some (s, es) /\ In (Got 0 (Some 0) a 0%N) es /\ In (Got 1 (Some 0) a 1%N) es.
Proof.
  exists [Ask 0 0 a; Ask 1 0 a; Take 0; Take 1; Register 0; Register 1; Put 0; Put 1]. eexists. eexists. split; [repeat constructor|]. split; [vm_compute; reflexivity|]. cbn. tauto.
Qed.
(** Names the helper has itself. *)
Lemma prefix_asked : exists ls s es, run bare ls start = Some (s, es) /\ es = [NoContext 0 0 (text "prefix")].
Proof. exists [Ask 0 0 (text "prefix")]. eexists. eexists. split; vm_compute; reflexivity. Qed.
(** A context asked for with an id. *)
Lemma explicit_id : exists ls s es, run bare ls start = Some (s, es) /\ In (Got 0 None a 0%N) es /\ In (Got 0 None b 0%N) es /\ mfind N.ltb 0%N (i_names s) = Some b.
Proof. exists [New 0 a None; Take 0; Register 0; Put 0; New 0 b (Some 0%N); Register 0; Put 0]. eexists. eexists. split; [vm_compute; reflexivity|]. cbn. tauto. Qed.
