(** Concrete cases. Floating point numbers are represented by their texts. *)
From Coq Require Import String List Arith NArith ZArith Ascii Bool Lia Sorting.Sorted.
Import ListNotations.
From Verif Require Import OMap_model OMap_proofs Json_model Json_spec Json_proofs JsonRead_proofs Session_model Session_spec Session_proofs.

Definition fr0 (t : bytes) : option bytes :=
  match scan_number t with Some (_, _, _ :: _, []) => Some t | _ => None end.
Definition fw0 (f : bytes) : bytes := f.
Lemma float0 : forall t f, fr0 t = Some f -> float_ok fw0 fr0 f.
Proof.
  intros t f H. unfold fr0 in H. destruct (scan_number t) as [[[[neg ds] [|c more]] [|r rest]]|] eqn:E; try discriminate. injection H as <-.
  split; [unfold fr0, fw0; rewrite E; reflexivity|]. exists neg, ds, (c :: more). split; [exact E|discriminate].
Qed.
Definition braces0 : json bytes := JObj [].
Lemma braces0_wf : wf fw0 fr0 braces0. Proof. apply wf_obj; constructor. Qed.

Definition json0 := json bytes.
Definition event0 (i : Z) : json0 := JObj [(text "name", JStr (text "f")); (text "ts", JFloat (text "1.5")); (text "z", JInt i)].
Lemma event0_wf i : int_range i -> wf fw0 fr0 (event0 i).
Proof.
  intro H. apply wf_obj.
  - constructor; [constructor; [constructor; [constructor|constructor]|]|]; repeat constructor.
  - constructor; [split; [reflexivity|constructor; reflexivity]|]. constructor; [split; [reflexivity|]|].
    + constructor. apply (float0 (text "1.5")). reflexivity.
    + constructor; [|constructor]. split; [reflexivity|constructor; exact H].
Qed.
Definition bad_name : bytes := [ch 255].
Definition event_bad : json0 := JObj [(text "name", JStr bad_name)].
Definition request_text (method : string) (id : string) : bytes :=
  text "{" ++ q "id" ++ text ":" ++ text id ++ text ", " ++ q "method" ++ text ":" ++ q method ++ text "}".
Lemma request_message method id j : parse fr0 (request_text method id) = Some (JObj [(text "id", j); (text "method", JStr (text method))]) ->
  message fr0 (request_text method id) method j.
Proof. intro H. eexists. split; [exact H|]. split; [right; left; reflexivity|]. left. left. reflexivity. Qed.

(** An end request with 2001 events is answered in four texts and the completion. *)
Definition many : list json0 := map (fun i => event0 (Z.of_nat i)) (seq 0 2001).
Lemma many_wf : Forall (wf fw0 fr0) many.
Proof.
  apply Forall_forall. intros x Hx. apply in_map_iff in Hx as (i & <- & Hi). apply in_seq in Hi. apply event0_wf.
  unfold int_range. assert (Z.of_nat i <= 2001)%Z by lia. lia.
Qed.
Example end_case : message fr0 (request_text "Tracing.end" "7") "Tracing.end" (JInt 7) /\ Forall (Forall (wf fw0 fr0)) [many; [event0 5]]
  /\ length (match process fw0 fr0 braces0 [many; [event0 5]] (request_text "Tracing.end" "7") with Done es => es | _ => [] end) = 9%nat.
Proof.
  split; [apply request_message; vm_compute; reflexivity|]. split.
  - constructor; [apply many_wf|]. constructor; [|constructor]. constructor; [|constructor]. apply event0_wf. unfold int_range. lia.
  - vm_compute. reflexivity.
Qed.
Example queue_case : exists s,
  srun fw0 fr0 braces0 [Arrive (request_text "Tracing.start" "1"); Arrive (request_text "x.y" "2"); Handle [[]]; Arrive (request_text "Tracing.end" "3"); Handle [[]];
        Handle [[event0 1]]] sess0 = Some s /\ length (q_log s) = 7%nat /\ q_in s = [].
Proof. eexists. split; [vm_compute; reflexivity|]. split; reflexivity. Qed.
Example acceptable_case : acceptable fr0 (text "{}") /\ acceptable fr0 (text "null") /\ ~ acceptable fr0 (text "x") /\ ~ acceptable fr0 (text "[]").
Proof.
  split; [right; eexists; vm_compute; reflexivity|]. split; [left; vm_compute; reflexivity|].
  split; (intros [H|(m & H)]; vm_compute in H; discriminate).
Qed.
Example collect_case : exists t, collect_text fw0 [event0 1; event0 2] = Some t /\ parse fr0 t = Some (JArr [event0 1; event0 2]).
Proof. eexists. split; [vm_compute; reflexivity|]. vm_compute. reflexivity. Qed.
Example collect_none : exists t, collect_text fw0 [] = Some t /\ parse fr0 t = Some (JArr []).
Proof. eexists. split; [vm_compute; reflexivity|]. vm_compute. reflexivity. Qed.

(** C33: a viewer sends one letter. *)
Lemma viewer_witness : exists ls s, arrivals ls = [text "x"] /\ srun fw0 fr0 braces0 ls sess0 = Some s /\ q_dead s = true.
Proof. exists [Arrive (text "x"); Handle [[]]]. eexists. split; [reflexivity|]. split; [vm_compute; reflexivity|]. reflexivity. Qed.
(** C64: a scope is named with a byte that is not UTF-8. *)
Lemma name_witness : exists (ev : list (list json0)) t id, message fr0 t "Tracing.end" id /\ ev = [[event0 1; event_bad]]
  /\ (exists es, process fw0 fr0 braces0 ev t = Throws es) /\ collect_text fw0 (concat ev) = None.
Proof.
  eexists. exists (request_text "Tracing.end" "7"), (JInt 7). split; [apply request_message; vm_compute; reflexivity|]. split; [reflexivity|].
  split; [eexists; vm_compute; reflexivity|]. vm_compute. reflexivity.
Qed.
