(** Concrete messages and tables: the hypotheses of the theorems about the wire are met, and what the refuted statements miss. *)
From Coq Require Import String List Arith NArith ZArith Ascii Bool Lia Permutation Sorting.Sorted.
Import ListNotations.
From Verif Require Import OMap_model OMap_proofs Json_model Json_spec Config_model Config_spec Bson_model Bson_spec Bson_proofs Wire_model Wire_spec Wire_proofs Info_model Info_spec Info_proofs.
Local Open Scope nat_scope.
Local Notation length := List.length.

(** For the examples: one floating point number, whose eight bytes are zero. *)
Definition f64 (_ : unit) : bytes := repeat nul 8.
Definition unf64 (_ : bytes) : unit := tt.
Definition trunc (_ : unit) : Z := 0%Z.
Lemma eight_unit : eight f64 unf64.
Proof. intros []. split; reflexivity. Qed.

(** ** BSON *)
Definition sample : json unit :=
  JObj [(text "a", JArr [JInt 5; JInt (-7); JInt 8589934592; JBool true; JNull]); (text "b", JObj [(text "c", JStr (text "xyz"))]); (text "d", JFloat tt)].
Example sample_sendable : sendable sample.
Proof.
  assert (Hn : forall k : bytes, has_nul k = false -> ~ In nul k) by (intros; now apply has_nul_spec).
  constructor; [repeat constructor|].
  repeat apply Forall_cons; try apply Forall_nil; (split; [apply Hn; reflexivity|]); cbn [snd].
  - constructor. repeat apply Forall_cons; try apply Forall_nil; constructor; lia.
  - constructor; [repeat constructor|]. apply Forall_cons; [|apply Forall_nil]. split; [apply Hn; reflexivity|]. constructor. reflexivity.
  - constructor.
Qed.
Example sample_bytes : exists b, to_bson f64 sample = Some b /\ length b = 75 /\ from_bson unf64 b = Some sample.
Proof. eexists. split; [vm_compute; reflexivity|]. split; vm_compute; reflexivity. Qed.
(** {"cmd": "info"} as the standard has it. *)
Example info_bytes : to_bson f64 info_request =
  Some (map ch [19; 0; 0; 0; 2; 99; 109; 100; 0; 5; 0; 0; 0; 105; 110; 102; 111; 0; 0]%N).
Proof. vm_compute. reflexivity. Qed.
(** A number that does not fit is refused. *)
Example too_big : to_bson f64 (JObj [(text "a", JInt 9223372036854775808)]) = None.
Proof. reflexivity. Qed.

(** ** Names *)
Definition some_table : list (N * bytes) := [(7%N, text "second"); (3%N, text "first")].
Example some_table_ok : a_table some_table.
Proof.
  split; [|repeat constructor; reflexivity]. repeat constructor; cbn; intros H; repeat (destruct H as [H|H]; [discriminate|]); destruct H.
Qed.
Lemma empty_request pid t : mapping_handle f64 pid t [] = WUB.
Proof. reflexivity. Qed.

(** ** Process information *)
Definition worker : process :=
  {| pc_pid := 12; pc_name := text "app";
     pc_acts := [Begin 1; NameSelf 1 (text "main"); Begin 2; NameSite 2 0 (text "io"); NameSite 2 0 (text "again"); NameOther 2 (text "disk");
                 Begin 3; NameSelf 3 (text "gone"); End 3; Begin 3] |}.
Example worker_usual : usual worker.
Proof.
  split; [cbn; lia|]. split; [reflexivity|]. split; [repeat constructor; reflexivity|].
  intros a t nm b E. unfold worker in E. cbn in E.
  repeat (destruct a as [|? a]; cbn [app] in E;
          [first [discriminate E|injection E as <- <- <-; vm_compute; discriminate]|first [discriminate E|injection E; clear E; intros E <-]]).
Qed.
Definition worker_table : list (N * bytes) := [(1%N, text "main"); (2%N, text "disk")].
Definition worker_answer : bytes := match to_bson f64 (info_msg 12 (text "app") (rev worker_table)) with Some b => b | None => [] end.
Example worker_answers : answers f64 unf64 worker worker_answer.
Proof.
  eexists. exists (rev worker_table). eexists. split; [vm_compute; reflexivity|]. split; [apply perm_swap|]. split; [vm_compute; reflexivity|]. vm_compute. reflexivity.
Qed.
Example worker_heard : hears f64 unf64 [worker] [NoEndpoint; Response worker_answer].
Proof. constructor. constructor; [exact worker_answers|constructor]. Qed.
Example worker_entries : finish_interval unf64 trunc [NoEndpoint; Response worker_answer] =
  Some [process_entry 12 (text "app"); thread_entry 12 1 (text "main"); thread_entry 12 2 (text "disk")].
Proof. vm_compute. reflexivity. Qed.

(** A thread that is named by another and does not name itself stays in the table when it has ended, and a new thread with its id has its name. *)
Lemma named_by_other : exists h s, acts h threads0 = Some s /\ In (2%N, text "worker") (th_table s) /\ runs 2 h = false.
Proof.
  exists [Begin 1; Begin 2; NameOther 2 (text "worker"); End 2]. eexists. split; [vm_compute; reflexivity|]. split; [now left|reflexivity].
Qed.
Lemma named_by_other_again : exists h s, acts h threads0 = Some s /\ In (2%N, text "worker") (th_table s) /\ runs 2 h = true /\ name_of 2 h = None.
Proof.
  exists [Begin 1; Begin 2; NameOther 2 (text "worker"); End 2; Begin 2]. eexists. split; [vm_compute; reflexivity|]. split; [now left|split; reflexivity].
Qed.
(** A process that does not answer is shown nevertheless, under a number that is whatever was in memory. *)
Lemma silent_shown junk : finish_interval unf64 trunc [Silence junk] = Some [process_entry junk []].
Proof. reflexivity. Qed.
(** It may be the number of a process that did answer: its names are gone. *)
Lemma silent_hides : exists p b junk es, usual p /\ answers f64 unf64 p b /\
  finish_interval unf64 trunc [Response b; Silence junk] = Some es /\ ~ In (process_entry (pc_pid p) (pc_name p)) es.
Proof.
  exists worker, worker_answer, 12%Z. eexists. split; [exact worker_usual|]. split; [exact worker_answers|]. split; [vm_compute; reflexivity|].
  intros [H|[]]. discriminate.
Qed.
(** A response that cannot be read takes the entries of all processes with it. *)
Lemma garbled_loses : exists p b, usual p /\ answers f64 unf64 p b /\ finish_interval unf64 trunc [Response b; Response [nul]] = None.
Proof. exists worker, worker_answer. split; [exact worker_usual|]. split; [exact worker_answers|]. vm_compute. reflexivity. Qed.

(** ** Payloads *)
Lemma info_empty_throws pid nm t : info_handle f64 unf64 pid nm t [] = WThrows.
Proof. reflexivity. Qed.
Lemma conf_empty_throws s : conf_handle f64 unf64 trunc s [] = (s, WThrows).
Proof. reflexivity. Qed.

(** ** Trace state *)
Definition trace_labels : list cfg_label := [GStart 5; GGetThread 0; GStart 9; GSetThread 1 false].
Example trace_state : exists s, grun trace_labels cfg0 = Some s /\ Forall not_late trace_labels /\ small_ids (g_map s) /\
  increasing [(5, false); (9, true)] /\ small_ids [(5, false); (9, true)] /\ snd (c_handle (CChange true false [(5, false); (9, true)]) s) = (false, [(5, false); (9, true)]).
Proof.
  eexists. split; [vm_compute; reflexivity|]. split; [repeat constructor|]. split; [repeat constructor|]. split; [repeat constructor; cbn; lia|]. split; [repeat constructor|reflexivity].
Qed.
